(** * The grammars of [Lenient.v] and [LenientPara.v] give bytes at most one meaning. *)
From Verif Require Import Base BaseLemmas ModelData ModelSecondary ModelObject ModelWrapper Spec Wire Lenient LenientPara.
From Coq Require Import ZifyBool ZifyNat ZifyN.

Lemma app_same_len {A} (a b x y : list A) : a ++ x = b ++ y -> len a = len b -> a = b /\ x = y.
Proof.
  unfold len. revert b. induction a as [|h a IH]; intros [|h' b] H Hl; cbn in *; try lia; [auto|].
  injection H as -> H. destruct (IH b H ltac:(lia)) as [-> ->]. auto.
Qed.

Lemma groups_unique l n : groups l n -> forall l' n' x x', groups l' n' -> l ++ x = l' ++ x' -> l = l' /\ n = n' /\ x = x'.
Proof.
  induction 1 as [b Hb|b l n Hb H IH]; intros l' n' x x' H' He.
  - destruct H' as [b' Hb'|b' l' n' Hb' H']; cbn in He; injection He as -> He; [auto|lia].
  - destruct H' as [b' Hb'|b' l' n' Hb' H']; cbn in He; injection He as -> He; [lia|].
    destruct (IH _ _ _ _ H' He) as (-> & -> & ->). auto.
Qed.

Lemma vint_unique n l n' l' x x' : vint n l -> vint n' l' -> l ++ x = l' ++ x' -> l = l' /\ n = n' /\ x = x'.
Proof. intros (m & Hg & _ & ->) (m' & Hg' & _ & ->) He. destruct (groups_unique _ _ Hg _ _ _ _ Hg' He) as (-> & -> & ->). auto. Qed.

(** Two dictionaries that do not contradict each other. *)
Definition agree (D D' : option (N -> option bytes)) : Prop :=
  match D, D' with
  | None, None => True
  | Some d, Some d' => forall id s s', d id = Some s -> d' id = Some s' -> s = s'
  | _, _ => False
  end.

Section Unique.
  Variables D D' : option (N -> option bytes).
  Hypothesis HD : agree D D'.
  Variables strict strict' : bool.

  Lemma lstr_unique s b s' b' x x' : lstr D s b -> lstr D' s' b' -> b ++ x = b' ++ x' -> s = s' /\ b = b' /\ x = x'.
  Proof using HD.
    intros [s0 l H0 Hv|d id s0 l H0 Hv Hs] [s1 l' H1 Hv'|d' id' s1 l' H1 Hv' Hs'] He; rewrite H0, H1 in HD; cbn in HD; try contradiction.
    - rewrite <- !app_assoc in He. destruct (vint_unique _ _ _ _ _ _ Hv Hv' He) as (-> & Hl & He').
      destruct (app_same_len _ _ _ _ He' Hl) as [-> ->]. auto.
    - destruct (vint_unique _ _ _ _ _ _ Hv Hv' He) as (-> & -> & ->). split; [|auto]. eapply HD; eauto.
  Qed.

  Lemma dt_num_inj t t' : n2b (dt_of_num t) = n2b (dt_of_num t') -> t = t'.
  Proof using. destruct t, t'; vm_compute; congruence. Qed.

  Lemma lscalar_unique v b v' b' x x' : lscalar strict D v b -> lscalar strict' D' v' b' -> b ++ x = b' ++ x' -> v = v' /\ b = b' /\ x = x'.
  Proof using HD.
    intros H H' He. destruct H as [s b Hs|s l Hl|s l Hl|t m l Hl Hm Hst]; destruct H' as [s' b' Hs'|s' l' Hl'|s' l' Hl'|t' m' l' Hl' Hm' Hst']; cbn in He;
      try (exfalso; injection He as He _; revert He; try destruct t; try destruct t'; vm_compute; discriminate);
      pose proof (f_equal (hd x00) He) as Hh; cbn [hd] in Hh; apply (f_equal (@tl byte)) in He; cbn [tl] in He.
    - destruct (lstr_unique _ _ _ _ _ _ Hs Hs' He) as (-> & -> & ->). auto.
    - rewrite <- !app_assoc in He. destruct (vint_unique _ _ _ _ _ _ Hl Hl' He) as (-> & Hn & He'). destruct (app_same_len _ _ _ _ He' Hn) as [-> ->]. auto.
    - rewrite <- !app_assoc in He. destruct (vint_unique _ _ _ _ _ _ Hl Hl' He) as (-> & Hn & He'). destruct (app_same_len _ _ _ _ He' Hn) as [-> ->]. auto.
    - apply dt_num_inj in Hh as ->. rewrite <- !app_assoc in He. destruct (vint_unique _ _ _ _ _ _ Hl Hl' He) as (-> & Hn & He'). destruct (app_same_len _ _ _ _ He' Hn) as [-> ->]. auto.
  Qed.

  Lemma tagged_type v v' t : tagged v t -> tagged v' t -> type_of v = type_of v'.
  Proof using. unfold tagged. intros -> H. destruct v, v'; cbn in *; congruence. Qed.

  (** Elements of the same number of pairs behind each other. *)
  Lemma list_unique {V} (P P' : V -> bytes -> Prop) (n : nat) l chunks l' chunks' x x' :
    Forall2 P l chunks -> Forall2 P' l' chunks' -> concat chunks ++ x = concat chunks' ++ x' -> len l = len l' -> (length (concat chunks) <= n)%nat ->
    (forall v v' b b' x x', (length b <= n)%nat -> P v b -> P' v' b' -> b ++ x = b' ++ x' -> v = v' /\ b = b' /\ x = x') ->
    l = l' /\ concat chunks = concat chunks' /\ x = x'.
  Proof using.
    intros HF HF' He Hl Hn HP. revert l' chunks' HF' He Hl Hn. induction HF as [|v b l chunks Hv HF IH]; intros l' chunks' HF' He Hl Hn.
    - destruct HF'; [cbn in *; auto|]. exfalso. rewrite len_cons, len_nil in Hl. lia.
    - destruct HF' as [|v' b' l' chunks' Hv' HF']; [exfalso; rewrite len_cons, len_nil in Hl; lia|]. rewrite !len_cons in Hl.
      cbn [concat] in *. rewrite app_length in Hn. rewrite <- !app_assoc in He.
      destruct (HP v v' b b' _ _ ltac:(lia) Hv Hv' He) as (-> & -> & He').
      destruct (IH l' chunks' HF' He' ltac:(lia) ltac:(lia)) as (-> & -> & ->). auto.
  Qed.

  Lemma rev_inj {A} (a b : list A) : rev a = rev b -> a = b.
  Proof using. intros H. rewrite <- (rev_involutive a), H. apply rev_involutive. Qed.

  Lemma vint_pos n l : vint n l -> (1 <= length l)%nat.
  Proof using. intros (m & H & _). destruct H; cbn; lia. Qed.

  Lemma lwire_unique_n : forall n v b v' b' x x', (length b <= n)%nat -> lwire strict D v b -> lwire strict' D' v' b' -> type_of v = type_of v' ->
    b ++ x = b' ++ x' -> v = v' /\ b = b' /\ x = x'.
  Proof using HD.
    induction n as [|n IH]; intros v b v' b' x x' Hn H H' Ht He.
    { exfalso. destruct H as [w b H|l cnt id i chunks Hc _ _|l cnt id i chunks Hc _ _].
      - destruct H; cbn in Hn; lia.
      - apply vint_pos in Hc. rewrite app_length in Hn. lia.
      - apply vint_pos in Hc. rewrite app_length in Hn. lia. }
    destruct H as [w b H|l cnt id i chunks Hc Hi HF|l cnt id i chunks Hc Hi HF];
      destruct H' as [w' b' H'|l' cnt' id' i' chunks' Hc' Hi' HF'|l' cnt' id' i' chunks' Hc' Hi' HF']; try discriminate Ht.
    - destruct (lscalar_unique _ _ _ _ _ _ H H' He) as (-> & -> & ->). auto.
    - rewrite <- !app_assoc in He. pose proof (vint_pos _ _ Hc). rewrite !app_length in Hn.
      destruct (vint_unique _ _ _ _ _ _ Hc Hc' He) as (-> & Hl & He1).
      destruct (vint_unique _ _ _ _ _ _ Hi Hi' He1) as (-> & _ & He2).
      destruct (list_unique _ _ n _ _ _ _ _ _ HF HF' He2) as (Hll & -> & ->).
      + rewrite !len_rev. exact Hl.
      + lia.
      + intros v v' b b' y y' Hb (t & b0 & Hw & Htg & ->) (t' & b0' & Hw' & Htg' & ->) Hx. cbn in Hx. injection Hx as -> Hx. cbn in Hb.
        destruct (IH v b0 v' b0' _ _ ltac:(lia) Hw Hw' (tagged_type _ _ _ Htg Htg') Hx) as (-> & -> & ->). auto.
      + apply rev_inj in Hll as ->. auto.
    - rewrite <- !app_assoc in He. pose proof (vint_pos _ _ Hc). rewrite !app_length in Hn.
      destruct (vint_unique _ _ _ _ _ _ Hc Hc' He) as (-> & Hl & He1).
      destruct (vint_unique _ _ _ _ _ _ Hi Hi' He1) as (-> & _ & He2).
      destruct (list_unique _ _ n _ _ _ _ _ _ HF HF' He2) as (Hll & -> & ->).
      + exact Hl.
      + lia.
      + intros [k v] [k' v'] b b' y y' Hb (kb & t & b0 & Hk & Hw & Htg & ->) (kb' & t' & b0' & Hk' & Hw' & Htg' & ->) Hx.
        rewrite <- !app_assoc in Hx. cbn [fst snd] in *.
        destruct (lstr_unique _ _ _ _ _ _ Hk Hk' Hx) as (-> & -> & Hx'). cbn in Hx'. injection Hx' as -> Hx'. rewrite app_length in Hb. cbn in Hb.
        destruct (IH v b0 v' b0' _ _ ltac:(lia) Hw Hw' (tagged_type _ _ _ Htg Htg') Hx') as (-> & -> & ->). auto.
      + subst. auto.
  Qed.

  Lemma lwire_unique v b v' b' x x' : lwire strict D v b -> lwire strict' D' v' b' -> type_of v = type_of v' ->
    b ++ x = b' ++ x' -> v = v' /\ b = b' /\ x = x'.
  Proof using HD. apply lwire_unique_n with (n := length b). lia. Qed.

  (** ** Positions *)
  Variable C : bytes.
  Variable T : list (N * list N).
  Hypothesis HT : NoDup (map fst T).

  Lemma found_same i b b' : found C i b -> found C i b' -> exists x x', b ++ x = b' ++ x'.
  Proof using.
    intros (a & x & -> & Ha) (a' & x' & He & Ha'). destruct (app_same_len _ _ _ _ He) as [_ He']; [congruence|]. eauto.
  Qed.

  Lemma in_same id (l l' : list N) : In (id, l) T -> In (id, l') T -> l = l'.
  Proof using HT.
    revert HT. induction T as [|[k s] q IH]; intros Hnd H H'; [destruct H|]. cbn in Hnd. inversion Hnd as [|? ? Hn Hq]; subst.
    assert (G : forall l, In (id, l) q -> In id (map fst q)) by (intros w Hw; exact (in_map fst _ _ Hw)).
    destruct H as [H|H], H' as [H'|H'].
    - congruence.
    - exfalso. injection H as -> ->. eauto.
    - exfalso. injection H' as -> ->. eauto.
    - eauto.
  Qed.

  Lemma pkey_unique i k j k' j' : pkey C D i k j -> pkey C D' i k' j' -> k = k' /\ j = j'.
  Proof using HD.
    intros H H'. assert (G : match D, D' with None, None => True | Some d, Some d' => forall id s s', d id = Some s -> d' id = Some s' -> s = s' | _, _ => False end) by exact HD.
    destruct H as [i n l k H0 Hv Hn Hf|d i id l k H0 Hv Hs Hf]; rewrite H0 in G;
      destruct H' as [i n' l' k' H1 Hv' Hn' Hf'|d' i id' l' k' H1 Hv' Hs' Hf']; rewrite H1 in G; try contradiction;
      destruct (found_same _ _ _ Hf Hf') as (x & x' & He).
    - rewrite <- !app_assoc in He. destruct (vint_unique _ _ _ _ _ _ Hv Hv' He) as (-> & -> & He').
      destruct (app_same_len _ _ _ _ He') as [-> _]; [congruence|]. auto.
    - destruct (vint_unique _ _ _ _ _ _ Hv Hv' He) as (-> & -> & _). split; [|reflexivity]. eapply G; eauto.
  Qed.

  Notation pv := (pval C strict D T).
  Notation pv' := (pval C strict' D' T).

  Lemma head_same i n l n2 l2 n' l' n2' l2' : vint n l -> vint n2 l2 -> vint n' l' -> vint n2' l2' ->
    found C i (l ++ l2) -> found C i (l' ++ l2') -> l = l' /\ l2 = l2' /\ n2 = n2'.
  Proof using.
    intros H1 H2 H3 H4 F F'. destruct (found_same _ _ _ F F') as (x & x' & He). rewrite <- !app_assoc in He.
    destruct (vint_unique _ _ _ _ _ _ H1 H3 He) as (-> & _ & He'). destruct (vint_unique _ _ _ _ _ _ H2 H4 He') as (-> & -> & _). auto.
  Qed.

  Scheme pval_mi := Minimality for pval Sort Prop
    with parr_mi := Minimality for parr Sort Prop
    with pmap_mi := Minimality for pmap Sort Prop
    with parrs_mi := Minimality for parrs Sort Prop
    with pmaps_mi := Minimality for pmaps Sort Prop
    with parr_block_mi := Minimality for parr_block Sort Prop
    with pmap_block_mi := Minimality for pmap_block Sort Prop.

  Lemma pmap_unique i es j es' j' : pmap C strict D T i es j -> pmap C strict' D' T i es' j' -> es = es' /\ j = j'.
  Proof using HD HT.
    intros H. revert es' j'.
    apply (pmap_mi C strict D T
      (fun i v j => forall v' j', pv' i v' j' -> v = v' /\ j = j')
      (fun i vs j => forall vs' j', parr C strict' D' T i vs' j' -> vs = vs' /\ j = j')
      (fun i es j => forall es' j', pmap C strict' D' T i es' j' -> es = es' /\ j = j')
      (fun i sizes vss j => forall vss' j', parrs C strict' D' T i sizes vss' j' -> vss = vss' /\ j = j')
      (fun i sizes ess j => forall ess' j', pmaps C strict' D' T i sizes ess' j' -> ess = ess' /\ j = j')
      (fun i e vs => forall vs', parr_block C strict' D' T i e vs' -> vs = vs')
      (fun i e es => forall es', pmap_block C strict' D' T i e es' -> es = es')); [..|exact H]; clear i es j H.
    - intros i t b v Ht Htg Hw Hf v' j' H.
      inversion H as [i1 t' b' w Ht' Htg' Hw' Hf'|i1 t' vs j1 Ht' Hf' Hp|i1 t' es j1 Ht' Hf' Hp]; subst; destruct (found_same _ _ _ Hf Hf') as (x & x' & He); cbn in He; injection He as -> He; [|lia|lia].
      destruct (lwire_unique _ _ _ _ _ _ Hw Hw' (tagged_type _ _ _ Htg Htg') He) as (-> & -> & _). auto.
    - intros i t vs j Ht Hf Hp IH v' j' H.
      inversion H as [i1 t' b' w Ht' Htg' Hw' Hf'|i1 t' vs' j1 Ht' Hf' Hp'|i1 t' es j1 Ht' Hf' Hp']; subst; destruct (found_same _ _ _ Hf Hf') as (x & x' & He); cbn in He; injection He as -> He.
      + lia.
      + destruct (IH _ _ Hp') as [-> ->]. auto.
      + rewrite Ht in Ht'. discriminate Ht'.
    - intros i t es j Ht Hf Hp IH v' j' H.
      inversion H as [i1 t' b' w Ht' Htg' Hw' Hf'|i1 t' vs' j1 Ht' Hf' Hp'|i1 t' es' j1 Ht' Hf' Hp']; subst; destruct (found_same _ _ _ Hf Hf') as (x & x' & He); cbn in He; injection He as -> He.
      + lia.
      + rewrite Ht in Ht'. discriminate Ht'.
      + destruct (IH _ _ Hp') as [-> ->]. auto.
    - intros i n cnt id idb sizes vss j Hn Hid Hf Hin Hp IH vs' j' H. inversion H as [i1 n' cnt' id' idb' sizes' vss' j1 Hn' Hid' Hf' Hin' Hp']; subst.
      destruct (head_same _ _ _ _ _ _ _ _ _ Hn Hid Hn' Hid' Hf Hf') as (-> & -> & ->). rewrite (in_same _ _ _ Hin' Hin) in Hp'.
      destruct (IH _ _ Hp') as [-> ->]. auto.
    - intros i n cnt id idb sizes vss j Hn Hid Hf Hin Hp IH vs' j' H. inversion H as [i1 n' cnt' id' idb' sizes' vss' j1 Hn' Hid' Hf' Hin' Hp']; subst.
      destruct (head_same _ _ _ _ _ _ _ _ _ Hn Hid Hn' Hid' Hf Hf') as (-> & -> & ->). rewrite (in_same _ _ _ Hin' Hin) in Hp'.
      destruct (IH _ _ Hp') as [-> ->]. auto.
    - intros i vss' j' H. inversion H; subst. auto.
    - intros i n sizes vs vss j Hb IHb Hp IH vss' j' H. inversion H as [|i1 n1 sizes1 vs1 vss1 j1 Hb1 Hp1]; subst.
      rewrite (IHb _ Hb1). destruct (IH _ _ Hp1) as [-> ->]. auto.
    - intros i vss' j' H. inversion H; subst. auto.
    - intros i n sizes vs vss j Hb IHb Hp IH vss' j' H. inversion H as [|i1 n1 sizes1 vs1 vss1 j1 Hb1 Hp1]; subst.
      rewrite (IHb _ Hb1). destruct (IH _ _ Hp1) as [-> ->]. auto.
    - intros i e He vs' H. inversion H; subst; [reflexivity|lia].
    - intros i e v j vs Hi Hv IHv Hb IHb vs' H. inversion H as [|i1 e1 v1 j1 vs1 Hi1 Hv1 Hb1]; subst; [lia|].
      destruct (IHv _ _ Hv1) as [-> ->]. now rewrite (IHb _ Hb1).
    - intros i e He vs' H. inversion H; subst; [reflexivity|lia].
    - intros i e k j v j2 es Hi Hk Hv IHv Hb IHb es' H. inversion H as [|i1 e1 k1 j1 v1 j3 es1 Hi1 Hk1 Hv1 Hb1]; subst; [lia|].
      destruct (pkey_unique _ _ _ _ _ Hk Hk1) as [-> ->]. destruct (IHv _ _ Hv1) as [-> ->]. now rewrite (IHb _ Hb1).
  Qed.
End Unique.

(** ** Tables *)
Lemma ldict_unique l l' b : ldict l b -> ldict l' b -> l = l'.
Proof.
  intros [n cnt chunks junk Hn Hl HF] H'. inversion H' as [n' cnt' chunks' junk' Hn' Hl' HF' He]; symmetry in He.
  destruct (vint_unique _ _ _ _ _ _ Hn Hn' He) as (-> & -> & He').
  destruct (list_unique _ _ (length (concat chunks)) _ _ _ _ _ _ HF HF' He') as (Hll & _); [exact (eq_trans (eq_sym Hl) Hl')|apply le_n| |exact Hll].
  - clear. intros [k i] [k' i'] b b' x x' _ (kl & i1 & id & H1 & H2 & H3 & ->) (kl' & i1' & id' & H1' & H2' & H3' & ->) He. cbn [fst snd] in *.
    rewrite <- !app_assoc in He. destruct (vint_unique _ _ _ _ _ _ H1 H1' He) as (-> & Hn & He1).
    destruct (app_same_len _ _ _ _ He1 Hn) as [-> He2]. destruct (vint_unique _ _ _ _ _ _ H2 H2' He2) as (-> & -> & ->). subst. auto.
Qed.

Lemma lsplit_unique l l' b : lsplit l b -> lsplit l' b -> l = l'.
Proof.
  intros [n cnt chunks junk Hn Hl _ HF] H'. inversion H' as [n' cnt' chunks' junk' Hn' Hl' _ HF' He]; symmetry in He.
  destruct (vint_unique _ _ _ _ _ _ Hn Hn' He) as (-> & -> & He').
  destruct (list_unique _ _ (length (concat chunks)) _ _ _ _ _ _ HF HF' He') as (Hll & _); [exact (eq_trans (eq_sym Hl) Hl')|apply le_n| |exact Hll].
  - clear. intros [k xs] [k' xs'] b b' x x' _ (i & id & m & num & bl & H1 & H2 & H3 & H4 & H5 & ->) (i' & id' & m' & num' & bl' & H1' & H2' & H3' & H4' & H5' & ->) He. cbn [fst snd] in *.
    rewrite <- !app_assoc in He. destruct (vint_unique _ _ _ _ _ _ H1 H1' He) as (-> & -> & He1).
    destruct (vint_unique _ _ _ _ _ _ H3 H3' He1) as (-> & -> & He2).
    destruct (list_unique _ _ (length (concat bl)) _ _ _ _ _ _ H5 H5' He2) as (-> & Hc & ->); [exact (eq_trans (eq_sym H4) H4')|apply le_n| |rewrite Hc; subst; auto].
    clear. intros y y' b b' x x' _ (z & Hz & ->) (z' & Hz' & ->) He. destruct (vint_unique _ _ _ _ _ _ Hz Hz' He) as (-> & -> & ->). auto.
Qed.

Lemma readings_agree l d d' : unambiguous l -> reading l d -> reading l d' -> agree (Some d) (Some d').
Proof.
  intros Hu Hr Hr' id s s' Hs Hs'. specialize (Hr id). specialize (Hr' id). rewrite Hs in Hr. rewrite Hs' in Hr'. eapply Hu; eauto.
Qed.

Lemma ptables_unique k k' ty D D' T T' rest : ptables k ty D T rest -> ptables k' ty D' T' rest ->
  (ty = REPLACE -> exists n db strings after, rest = n ++ db ++ after /\ vint (len db) n /\ ldict strings db /\ unambiguous strings) ->
  T = T' /\ agree D D'.
Proof.
  intros [n sb splits junk Hn Hs|n db strings d n' sb splits junk Hn Hd Hr _ Hn' Hs] H' Hu.
  - inversion H' as [m sb' splits' junk' Hm Hs'|]; subst.
    match goal with H : _ = n ++ _ |- _ => symmetry in H; rename H into He end.
    destruct (vint_unique _ _ _ _ _ _ Hn Hm He) as (<- & Hl & He'). destruct (app_same_len _ _ _ _ He' Hl) as [<- _].
    split; [eapply lsplit_unique; eauto|exact I].
  - inversion H' as [|m db' strings' d' m' sb' splits' junk' Hm Hd' Hr' _ Hm' Hs' ]; subst.
    match goal with H : _ = n ++ _ |- _ => symmetry in H; rename H into He end.
    destruct (vint_unique _ _ _ _ _ _ Hn Hm He) as (<- & Hl & He1). destruct (app_same_len _ _ _ _ He1 Hl) as [<- He2].
    destruct (vint_unique _ _ _ _ _ _ Hn' Hm' He2) as (<- & Hl3 & He3). destruct (app_same_len _ _ _ _ He3 Hl3) as [<- _].
    split; [eapply lsplit_unique; eauto|]. rewrite <- (ldict_unique _ _ _ Hd Hd') in Hr'.
    destruct (Hu eq_refl) as (n1 & db1 & st1 & after & He4 & Hv1 & Hd1 & Hu1).
    destruct (vint_unique _ _ _ _ _ _ Hn Hv1 He4) as (<- & Hl4 & He5). destruct (app_same_len _ _ _ _ He5 Hl4) as [<- _].
    rewrite <- (ldict_unique _ _ _ Hd Hd1) in Hu1. eapply readings_agree; eauto.
Qed.
