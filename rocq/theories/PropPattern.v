(** * Properties C25-C27: pattern matching. *)
From Verif Require Import Base BaseLemmas ModelVarint ModelData ModelSecondary ModelObject
  ModelParse ModelWrapper ModelPattern Spec SpecApi SeriProofs ObjInd ValueProofs RoundTrip Samples PropRoundTrip.
From Coq Require Import ZifyBool ZifyNat ZifyN.

(** ** What a pattern asks for *)

Definition dt_of_scalar (x : scalar) : N :=
  match x with
  | VStr _ => BRIDGE_STRING | VBytes _ => BRIDGE_BYTES | VCustom _ => BRIDGE_CUSTOM | VNum t _ => dt_of_num t
  end.

Inductive satisfies : pattern -> value -> Prop :=
| sat_data_any x : satisfies (PatData None) (VScalar x)
| sat_data x dt : dt_of_scalar x = dt -> satisfies (PatData (Some dt)) (VScalar x)
| sat_map size kv l :
    (forall n, size = Some n -> len l = n) ->
    (forall k p, In (k, p) kv -> exists v, lookup k l = Some v /\ satisfies p v) ->
    satisfies (PatMap size kv) (VMap l)
| sat_arr fixed slots l :
    (fixed = true -> len l = len slots) ->
    (forall i p, nth_error slots i = Some p -> exists v, nth_error l i = Some v /\ satisfies p v) ->
    satisfies (PatArr fixed slots) (VArr l)
| sat_or p l v : In p l -> satisfies p v -> satisfies (PatOr l) v
| sat_and l v : (forall p, In p l -> satisfies p v) -> satisfies (PatAnd l) v.

(** Every slot and every branch has been set. *)
Inductive complete : pattern -> Prop :=
| cp_map size kv : Forall (fun e => complete (snd e)) kv -> complete (PatMap size kv)
| cp_arr fixed slots : Forall complete slots -> complete (PatArr fixed slots)
| cp_data dt : complete (PatData dt)
| cp_or l : Forall complete l -> complete (PatOr l)
| cp_and l : Forall complete l -> complete (PatAnd l).

Section PatInd.
  Variable P : pattern -> Prop.
  Hypothesis HN : P PatNull.
  Hypothesis HM : forall size kv, Forall (fun e => P (snd e)) kv -> P (PatMap size kv).
  Hypothesis HA : forall fixed slots, Forall P slots -> P (PatArr fixed slots).
  Hypothesis HD : forall dt, P (PatData dt).
  Hypothesis HO : forall l, Forall P l -> P (PatOr l).
  Hypothesis HE : forall l, Forall P l -> P (PatAnd l).
  Fixpoint pattern_ind' (p : pattern) : P p :=
    match p with
    | PatNull => HN
    | PatMap size kv => HM size kv ((fix go l : Forall (fun e => P (snd e)) l :=
        match l with [] => Forall_nil _ | e :: l' => Forall_cons e (pattern_ind' (snd e)) (go l') end) kv)
    | PatArr fixed slots => HA fixed slots ((fix go l : Forall P l :=
        match l with [] => Forall_nil _ | e :: l' => Forall_cons e (pattern_ind' e) (go l') end) slots)
    | PatData dt => HD dt
    | PatOr l => HO l ((fix go l : Forall P l :=
        match l with [] => Forall_nil _ | e :: l' => Forall_cons e (pattern_ind' e) (go l') end) l)
    | PatAnd l => HE l ((fix go l : Forall P l :=
        match l with [] => Forall_nil _ | e :: l' => Forall_cons e (pattern_ind' e) (go l') end) l)
    end.
End PatInd.

(** A closure decides a pattern on the objects that denote values. *)
Definition decides (mem : memory) (m : obj -> outcome bool) (p : pattern) : Prop :=
  forall o v, denotes mem o v -> exists b : bool, m o = Ok b /\ (b = true <-> satisfies p v).

Lemma match_kv_ok mem at_key l (entries : list (bytes * (obj -> outcome bool))) :
  (forall k, exists o, at_key k = Ok o /\ match lookup k l with Some v => denotes mem o v | None => o = ONull end) ->
  forall kv, Forall2 (fun e q => fst e = fst q /\ decides mem (snd e) (snd q)) entries kv ->
  exists b : bool, match_kv at_key entries = Ok b /\
    (b = true <-> forall k p, In (k, p) kv -> exists v, lookup k l = Some v /\ satisfies p v).
Proof.
  intros Hat kv HF. induction HF as [|[k m] [k' p] entries kv [Hk Hm] HF IH]; cbn [match_kv].
  - exists true. split; [reflexivity|]. split; [intros _ ? ? []|reflexivity].
  - cbn in Hk, Hm. subst k'. destruct (Hat k) as (o & Ho & Hv). rewrite Ho. cbn [obind].
    destruct (lookup k l) as [v|] eqn:Hl.
    + destruct (Hm o v Hv) as (b & Hb & Hbs). destruct IH as (b' & Hb' & Hbs').
      assert (Hnn : o <> ONull) by (eapply denotes_not_null; eauto).
      exists (b && b')%bool. split.
      * destruct o; try congruence; rewrite Hb; cbn [obind]; destruct b; cbn; auto.
      * rewrite Bool.andb_true_iff, Hbs, Hbs'. split.
        -- intros [H1 H2] k1 p1 [[= <- <-]|Hin]; [exists v; auto|auto].
        -- intros H. split; [|intros; apply H; now right].
           destruct (H k p (or_introl eq_refl)) as (v' & Hv' & Hs). congruence.
    + subst o. exists false. split; [reflexivity|]. split; [discriminate|]. intros H.
      destruct (H k p (or_introl eq_refl)) as (v' & Hv' & _). congruence.
Qed.

Lemma match_slots_ok mem at_index l :
  (forall i, match nth_error l i with Some v => denotes mem (at_index (N.of_nat i)) v | None => at_index (N.of_nat i) = ONull end) ->
  forall ms ps, Forall2 (decides mem) ms ps -> forall i,
  exists b : bool, match_slots at_index (N.of_nat i) ms = Ok b /\
    (b = true <-> forall j p, nth_error ps j = Some p -> exists v, nth_error l (i + j) = Some v /\ satisfies p v).
Proof.
  intros Hat ms ps HF. induction HF as [|m p ms ps Hm HF IH]; intros i; cbn [match_slots].
  - exists true. split; [reflexivity|]. split; [|reflexivity]. intros _ [|j] p; discriminate.
  - specialize (Hat i). destruct (nth_error l i) as [v|] eqn:Hl.
    + destruct (Hm _ v Hat) as (b & Hb & Hbs). destruct (IH (S i)) as (b' & Hb' & Hbs').
      replace (N.of_nat (S i)) with (N.of_nat i + 1) in Hb' by lia.
      assert (Hnn : at_index (N.of_nat i) <> ONull) by (eapply denotes_not_null; eauto).
      exists (b && b')%bool. split.
      * destruct (at_index (N.of_nat i)); try congruence; rewrite Hb; cbn [obind]; destruct b; cbn; auto.
      * rewrite Bool.andb_true_iff, Hbs, Hbs'. split.
        -- intros [H1 H2] [|j] q Hq; cbn in Hq.
           ++ injection Hq as <-. rewrite Nat.add_0_r. eauto.
           ++ replace (i + S j)%nat with (S i + j)%nat by lia. auto.
        -- intros H. split.
           ++ destruct (H 0%nat p eq_refl) as (v' & Hv' & Hs). rewrite Nat.add_0_r in Hv'. congruence.
           ++ intros j q Hq. replace (S i + j)%nat with (i + S j)%nat by lia. now apply H.
    + rewrite Hat. exists false. split; [reflexivity|]. split; [discriminate|]. intros H.
      destruct (H 0%nat p eq_refl) as (v' & Hv' & _). rewrite Nat.add_0_r in Hv'. congruence.
Qed.

Lemma decides_map c mem l : Forall (fun p => complete p -> decides mem (Match c mem p) p) l -> Forall complete l ->
  Forall2 (decides mem) (map (Match c mem) l) l.
Proof. induction 1; intros Hc; cbn; inversion Hc; subst; constructor; auto. Qed.

Lemma match_or_ok mem o v ms ps : denotes mem o v -> Forall2 (decides mem) ms ps ->
  exists b : bool, match_or ms o = Ok b /\ (b = true <-> exists p, In p ps /\ satisfies p v).
Proof.
  intros Hd HF. induction HF as [|m p ms ps Hm HF IH]; cbn.
  - exists false. split; [reflexivity|]. split; [discriminate|]. intros (? & [] & _).
  - destruct (Hm o v Hd) as (b & -> & Hbs). destruct IH as (b' & Hb' & Hbs'). cbn [obind].
    exists (b || b')%bool. split; [destruct b; cbn; auto|]. rewrite Bool.orb_true_iff, Hbs, Hbs'. split.
    + intros [H|(q & Hq & H)]; [exists p; auto|exists q; auto].
    + intros (q & [<-|Hq] & H); [now left|right; eauto].
Qed.

Lemma match_and_ok mem o v ms ps : denotes mem o v -> Forall2 (decides mem) ms ps ->
  exists b : bool, match_and ms o = Ok b /\ (b = true <-> forall p, In p ps -> satisfies p v).
Proof.
  intros Hd HF. induction HF as [|m p ms ps Hm HF IH]; cbn.
  - exists true. split; [reflexivity|]. split; [intros _ ? []|reflexivity].
  - destruct (Hm o v Hd) as (b & -> & Hbs). destruct IH as (b' & Hb' & Hbs'). cbn [obind].
    exists (b && b')%bool. split; [destruct b; cbn; auto|]. rewrite Bool.andb_true_iff, Hbs, Hbs'. split.
    + intros [H1 H2] q [<-|Hq]; auto.
    + intros H. split; auto.
Qed.

(** C25.  [Match] returns (never throws, never faults) and decides the constraint. *)
Theorem C25_match_decides : forall c mem p o v,
  sane c -> complete p -> denotes mem o v ->
  exists b, Match c mem p o = Ok b /\ (b = true <-> satisfies p v).
Proof.
  intros c mem p o v [_ Hit] Hp. revert o v. change (decides mem (Match c mem p) p). revert Hp.
  induction p as [|size kv IH|fixed slots IH|dt|l IH|l IH] using pattern_ind'; intros Hp o v Hd; inversion Hp; subst.
  - cbn [Match]. set (entries := map (fun e : bytes * pattern => (fst e, Match c mem (snd e))) kv).
    assert (HF : Forall2 (fun e q => fst e = fst q /\ decides mem (snd e) (snd q)) entries kv).
    { unfold entries. match goal with H : Forall _ kv |- _ => rename H into HC end. clear -IH HC.
      induction IH; cbn; inversion HC; subst; constructor; cbn; auto. }
    assert (HF' : exists kv', Permutation kv' kv /\ Forall2 (fun e q => fst e = fst q /\ decides mem (snd e) (snd q)) (hash_order c entries) kv').
    { pose proof (Hit _ _ _ entries) as HPm. apply Permutation_sym in HPm. 
      destruct (Permutation_Forall2 HPm HF) as (kv' & H1 & H2). exists kv'. split; [now apply Permutation_sym|exact H2]. }
    destruct HF' as (kv' & HPm & HF').
    assert (Hin : forall Q : bytes -> pattern -> Prop, (forall k p, In (k, p) kv' -> Q k p) <-> (forall k p, In (k, p) kv -> Q k p)).
    { intros Q. split; intros H k q Hq; apply H;
        [eapply Permutation_in; [apply Permutation_sym; exact HPm|exact Hq]|eapply Permutation_in; [exact HPm|exact Hq]]. }
    assert (HQ : forall sz at_key l, (exists b : bool, match_kv at_key (hash_order c entries) = Ok b /\
        (b = true <-> forall k p, In (k, p) kv' -> exists v, lookup k l = Some v /\ satisfies p v)) -> sz = len l ->
        exists b : bool, (if size_ok size sz then match_kv at_key (hash_order c entries) else Ok false) = Ok b /\
          (b = true <-> satisfies (PatMap size kv) (VMap l))).
    { intros sz at_key l (b & Hb & Hbs) ->.
      destruct (size_ok size (len l)) eqn:Hsz.
      - exists b. split; [exact Hb|]. rewrite Hbs, Hin. split.
        + intros H. constructor; [|exact H]. intros n ->. cbn in Hsz. lia.
        + intros H; inversion H; subst; assumption.
      - exists false. split; [reflexivity|]. split; [discriminate|]. intros H; inversion H as [| |? ? ? Hn| | |]; subst.
        destruct size as [n|]; [|discriminate]. cbn in Hsz. specialize (Hn n eq_refl). lia. }
    inversion Hd; subst; cbn iota; try (exists false; split; [reflexivity|]; split; [discriminate|]; intros HH; inversion HH; fail).
    + match goal with H : Forall2 _ items _ |- _ => rename H into HI end.
      apply HQ; [|eapply len_Forall2; eauto]. eapply match_kv_ok; [|exact HF'].
      intros k. eexists. split; [reflexivity|]. apply (Map_at_ok mem items _ k HI).
    + match goal with H : Forall2 _ items _ |- _ => rename H into HI end.
      apply HQ; [|eapply len_Forall2; eauto]. eapply match_kv_ok; [|exact HF'].
      intros k. apply (MapView_at_ok mem items _ k HI).
  - cbn [Match]. 
    inversion Hd; subst; cbn iota; try (exists false; split; [reflexivity|]; split; [discriminate|]; intros HH; inversion HH; fail).
    match goal with H : Forall2 _ items _ |- _ => rename H into HI end.
    assert (Hlen : len items = len l) by (apply len_Forall2 in HI; rewrite HI; unfold len; now rewrite rev_length).
    destruct (match_slots_ok mem (Array_at (len items) items) l) with (ms := map (Match c mem) slots) (ps := slots) (i := 0%nat)
      as (b & Hb & Hbs).
    { intros i. pose proof (Array_at_ok mem items l (N.of_nat i) HI) as HA. rewrite Nnat.Nat2N.id in HA. exact HA. }
    { now apply decides_map. }
    destruct (fixed && negb (len slots =? len items)) eqn:Hg.
    + exists false. split; [reflexivity|]. split; [discriminate|]. intros H; inversion H as [| | |? ? ? Hn| |]; subst.
      destruct fixed; [|discriminate]. specialize (Hn eq_refl). cbn in Hg. lia.
    + exists b. split; [exact Hb|]. rewrite Hbs. split.
      * intros H. constructor; [|exact H]. intros ->. cbn in Hg. lia.
      * intros H; inversion H; subst; assumption.
  - cbn [Match]. inversion Hd as [? ? ? Hx|? ? ? Hx| | |]; subst; cbn iota;
      try (exists false; split; [reflexivity|]; split; [discriminate|]; intros HH; inversion HH; fail).
    + exists (size_ok dt dt0). split; [reflexivity|].
      assert (dt0 = dt_of_scalar x) as -> by now inversion Hx.
      destruct dt as [d|]; cbn; split; intros H; try constructor; try lia; inversion H; subst; lia.
    + exists (size_ok dt dt0). split; [reflexivity|].
      assert (dt0 = dt_of_scalar x) as -> by now inversion Hx.
      destruct dt as [d|]; cbn; split; intros H; try constructor; try lia; inversion H; subst; lia.
  - cbn [Match]. destruct (match_or_ok mem o v (map (Match c mem) l) l Hd) as (b & Hb & Hbs); [now apply decides_map|].
    exists b. split; [exact Hb|]. rewrite Hbs. split.
    + intros (q & Hq & Hs). econstructor; eauto.
    + intros H; inversion H; subst; eauto.
  - cbn [Match]. destruct (match_and_ok mem o v (map (Match c mem) l) l Hd) as (b & Hb & Hbs); [now apply decides_map|].
    exists b. split; [exact Hb|]. rewrite Hbs. split.
    + intros Hs. now constructor.
    + intros H; inversion H; subst; eauto.
Qed.

(** ** Patterns as built through the API *)

(** A MapPattern is configured by a sequence of calls. *)
Inductive map_call := SetPattern (k : bytes) (p : pattern) | RemovePattern (k : bytes) | SetSize (n : N).

Definition map_do (m : pattern) (x : map_call) : pattern :=
  match x with
  | SetPattern k p => setPattern k p m
  | RemovePattern k => removePattern k m
  | SetSize n => setSize n m
  end.

(** What the calls ask for: the last word on each key, and the last size. *)
Fixpoint asked_key (k : bytes) (calls : list map_call) : option pattern :=
  match calls with
  | [] => None
  | x :: calls' =>   (* the most recent call comes first *)
      match x with
      | SetPattern k' p => if bytes_eqb k' k then Some p else asked_key k calls'
      | RemovePattern k' => if bytes_eqb k' k then None else asked_key k calls'
      | SetSize _ => asked_key k calls'
      end
  end.
Fixpoint asked_size (calls : list map_call) : option N :=
  match calls with
  | [] => None
  | SetSize n :: _ => Some n
  | _ :: calls' => asked_size calls'
  end.

Lemma kv_erase_In k k1 p1 kv : NoDup (map fst kv) ->
  (In (k1, p1) (kv_erase k kv) <-> k1 <> k /\ In (k1, p1) kv) /\ NoDup (map fst (kv_erase k kv)).
Proof.
  induction kv as [|[k' p] kv IH]; cbn; intros HN; [split; [tauto|constructor]|].
  inversion HN as [|? ? Hni HN']; subst. destruct (IH HN') as [IH1 IH2]. 
  destruct (bytes_eqb_spec k k') as [->|Hk].
  - split; [|exact HN']. split.
    + intros Hin. split; [|now right]. intros ->. apply Hni. apply in_map_iff. exists (k', p1). auto.
    + intros [Hne [[= -> ->]|Hin]]; [congruence|exact Hin].
  - split.
    + cbn. rewrite IH1. split.
      * intros [[= -> ->]|[H1 H2]]; [split; [congruence|now left]|tauto].
      * intros [H1 [H2|H2]]; tauto.
    + cbn. constructor; [|exact IH2]. intros Hin. apply in_map_iff in Hin. destruct Hin as ([k2 p2] & Hk2 & Hin). cbn in Hk2. subst k2.
      apply Hni. apply in_map_iff. exists (k', p2). split; [reflexivity|].
      clear -Hin. induction kv as [|[k3 p3] kv IHkv]; cbn in *; [tauto|].
      destruct (bytes_eqb k k3); [now right|]. destruct Hin as [->|Hin]; [now left|right; auto].
Qed.

Lemma kv_set_In (k : bytes) (p : pattern) (k1 : bytes) (p1 : pattern) (kv : list (bytes * pattern)) : NoDup (map fst kv) ->
  (In (k1, p1) (assoc_set bytes_eqb k p kv) <-> (k1 = k /\ p1 = p) \/ (k1 <> k /\ In (k1, p1) kv))
  /\ NoDup (map fst (assoc_set bytes_eqb k p kv)).
Proof.
  induction kv as [|[k' p'] kv IH]; cbn; intros HN.
  - split; [|repeat constructor; tauto]. split; [intros [[= -> ->]|[]]; auto|intros [[-> ->]|[_ []]]; auto].
  - inversion HN as [|? ? Hni HN']; subst. destruct (IH HN') as [IH1 IH2].
    destruct (bytes_eqb_spec k k') as [->|Hk].
    + cbn. split; [|constructor; assumption]. split.
      * intros [[= -> ->]|Hin]; [auto|]. right. split; [|auto]. intros ->. apply Hni, in_map_iff. exists (k', p1). auto.
      * intros [[-> ->]|[Hne [[= -> ->]|Hin]]]; auto. congruence.
    + cbn. split.
      * rewrite IH1. split.
        -- intros [[= -> ->]|H]; [right; split; [congruence|auto]|tauto].
        -- intros [[-> ->]|[H1 [H2|H2]]]; tauto.
      * constructor; [|exact IH2]. intros Hin. apply in_map_iff in Hin. destruct Hin as ([k2 p2] & Hk2 & Hin). cbn in Hk2. subst k2.
        apply Hni. apply in_map_iff. exists (k', p2). split; [reflexivity|].
        clear -Hin Hk. induction kv as [|[k3 p3] kv IHkv]; cbn in *; [destruct Hin as [[= -> ->]|[]]; congruence|].
        destruct (bytes_eqb_spec k k3); destruct Hin as [[= -> ->]|Hin]; try congruence; auto.
Qed.

Lemma map_do_asked calls : exists kv, fold_right (fun x m => map_do m x) MapPattern_new calls = PatMap (asked_size calls) kv /\
  NoDup (map fst kv) /\ forall k p, In (k, p) kv <-> asked_key k calls = Some p.
Proof.
  induction calls as [|x calls (kv & Hkv & HN & Hin)]; cbn [fold_right asked_size asked_key].
  - exists []. split; [reflexivity|]. split; [constructor|]. intros; cbn; split; [tauto|discriminate].
  - rewrite Hkv. destruct x as [k' p'|k'|n]; cbn.
    + eexists. split; [reflexivity|]. split; [apply (kv_set_In k' p' k' p'), HN|].
      intros k p. rewrite (proj1 (kv_set_In k' p' k p kv HN)), Hin.
      destruct (bytes_eqb_spec k' k) as [->|Hk].
      * split; [intros [[_ ->]|[? ?]]; congruence|intros [= ->]; auto].
      * split; [intros [[? ?]|[? ?]]; congruence|intros ?; right; split; congruence].
    + eexists. split; [reflexivity|]. split; [apply (kv_erase_In k' k' PatNull), HN|].
      intros k p. rewrite (proj1 (kv_erase_In k' k p kv HN)), Hin.
      destruct (bytes_eqb_spec k' k) as [->|Hk]; [split; [tauto|discriminate]|split; [tauto|intuition congruence]].
    + eexists. split; [reflexivity|]. split; [exact HN|]. intros k p. apply Hin.
Qed.

(** C25 for a MapPattern after any history of calls on it (most recent first):
    exactly the last setting of each key and of the size counts. *)
Theorem C25_map_pattern_history : forall c mem calls o v,
  sane c -> denotes mem o v ->
  (forall k p, asked_key k calls = Some p -> complete p) ->
  exists b, Match c mem (fold_right (fun x m => map_do m x) MapPattern_new calls) o = Ok b /\
    (b = true <-> exists l, v = VMap l /\
       (forall n, asked_size calls = Some n -> len l = n) /\
       (forall k p, asked_key k calls = Some p -> exists w, lookup k l = Some w /\ satisfies p w)).
Proof.
  intros c mem calls o v Hc Hd Hcomp. destruct (map_do_asked calls) as (kv & -> & HN & Hin).
  destruct (C25_match_decides c mem (PatMap (asked_size calls) kv) o v Hc) as (b & Hb & Hbs); [|exact Hd|].
  - constructor. apply Forall_forall. intros [k p] Hkp. apply Hcomp with k. now apply Hin.
  - exists b. split; [exact Hb|]. rewrite Hbs. split.
    + intros H; inversion H; subst. exists l. split; [reflexivity|]. split; [assumption|]. intros k p Hk. apply Hin in Hk. auto.
    + intros (l & -> & H1 & H2). constructor; [exact H1|]. intros k p Hk. apply Hin in Hk. auto.
Qed.

(** ArrayPattern(n) and its slots: the last setting of each index in range. *)
Fixpoint asked_slot (n : nat) (i : nat) (calls : list (nat * pattern)) : option pattern :=
  match calls with
  | [] => None
  | (j, p) :: calls' => if ((j =? i) && (i <? n))%nat then Some p else asked_slot n i calls'
  end.

Lemma set_nth_spec {A} n (x : A) l i : (n < length l)%nat ->
  length (set_nth n x l) = length l /\
  nth_error (set_nth n x l) i = if (i =? n)%nat then Some x else nth_error l i.
Proof.
  revert n i; induction l as [|y l IH]; intros n i H; cbn in H; [lia|].
  destruct n; cbn [set_nth length].
  - split; [reflexivity|]. destruct i; reflexivity.
  - destruct (IH n (pred i)) as [H1 H2]; [lia|]. split; [lia|]. destruct i; cbn [nth_error]; [reflexivity|].
    cbn in H2. rewrite H2. destruct (Nat.eqb_spec i n), (Nat.eqb_spec (S i) (S n)); congruence || lia || reflexivity.
Qed.

Lemma asked_slot_spec n calls : exists slots,
  fold_right (fun x a => setNthPattern (fst x) (snd x) a) (ArrayPattern_new n) calls = PatArr true slots /\
  length slots = n /\
  forall i, (i < n)%nat -> nth_error slots i = Some match asked_slot n i calls with Some p => p | None => PatNull end.
Proof.
  induction calls as [|[j p] calls (slots & Hs & HL & Hi)]; cbn [fold_right].
  - exists (repeat PatNull n). split; [reflexivity|]. split; [apply repeat_length|]. intros i H. cbn. now apply nth_error_repeat.
  - rewrite Hs. cbn [setNthPattern fst snd andb]. destruct (Nat.ltb_spec j (length slots)) as [Hj|Hj].
    + eexists. split; [reflexivity|]. split; [destruct (set_nth_spec j p slots 0 Hj); congruence|].
      intros i H. destruct (set_nth_spec j p slots i Hj) as [_ ->]. cbn [asked_slot]. rewrite (Hi i H).
      destruct (Nat.eqb_spec i j), (Nat.eqb_spec j i), (Nat.ltb_spec i n); try lia; reflexivity.
    + exists slots. split; [reflexivity|]. split; [exact HL|]. intros i H. rewrite (Hi i H). cbn [asked_slot].
      destruct (Nat.eqb_spec j i), (Nat.ltb_spec i n); try lia; reflexivity.
Qed.

(** C25 for an ArrayPattern(n) all of whose slots have been set. *)
Theorem C25_array_pattern_history : forall c mem n calls o v,
  sane c -> denotes mem o v ->
  (forall i, (i < n)%nat -> exists p, asked_slot n i calls = Some p /\ complete p) ->
  exists b, Match c mem (fold_right (fun x a => setNthPattern (fst x) (snd x) a) (ArrayPattern_new n) calls) o = Ok b /\
    (b = true <-> exists l, v = VArr l /\ length l = n /\
       forall i p, (i < n)%nat -> asked_slot n i calls = Some p -> exists w, nth_error l i = Some w /\ satisfies p w).
Proof.
  intros c mem n calls o v Hc Hd Hset. destruct (asked_slot_spec n calls) as (slots & -> & HL & Hi).
  assert (Hlt : forall i p, nth_error slots i = Some p -> (i < n)%nat).
  { intros i p H. rewrite <- HL. apply nth_error_Some. congruence. }
  destruct (C25_match_decides c mem (PatArr true slots) o v Hc) as (b & Hb & Hbs); [|exact Hd|].
  - constructor. apply Forall_forall. intros p Hp. apply In_nth_error in Hp as (i & Hp).
    pose proof (Hlt i p Hp) as H. destruct (Hset i H) as (q & Hq & Hcq). rewrite (Hi i H), Hq in Hp. congruence.
  - exists b. split; [exact Hb|]. rewrite Hbs. split.
    + intros H; inversion H as [| | |? ? l H1 H2| |]; subst. exists l. split; [reflexivity|].
      split; [specialize (H1 eq_refl); unfold len in H1; lia|]. intros i p H3 H4. apply H2. rewrite (Hi i H3), H4. reflexivity.
    + intros (l & -> & H1 & H2). constructor; [intros _; unfold len; lia|].
      intros i p Hp. pose proof (Hlt i p Hp) as H. rewrite (Hi i H) in Hp. destruct (Hset i H) as (q & Hq & _).
      rewrite Hq in Hp. injection Hp as <-. eauto.
Qed.

(** Or and And patterns after any pushes: the disjunction and the conjunction. *)
Theorem C25_or_and_pushes : forall c mem ps o v,
  sane c -> denotes mem o v -> Forall complete ps ->
  (exists b, Match c mem (fold_left (fun m p => PushPattern p m) ps (PatOr [])) o = Ok b /\
     (b = true <-> exists p, In p ps /\ satisfies p v)) /\
  (exists b, Match c mem (fold_left (fun m p => PushPattern p m) ps (PatAnd [])) o = Ok b /\
     (b = true <-> forall p, In p ps -> satisfies p v)).
Proof.
  intros c mem ps o v Hc Hd Hps.
  assert (HO : forall l, fold_left (fun m p => PushPattern p m) ps (PatOr l) = PatOr (l ++ ps)).
  { clear Hps. induction ps as [|p ps IH]; intros l; cbn; [now rewrite app_nil_r|]. rewrite IH. now rewrite <- app_assoc. }
  assert (HA : forall l, fold_left (fun m p => PushPattern p m) ps (PatAnd l) = PatAnd (l ++ ps)).
  { clear Hps HO. induction ps as [|p ps IH]; intros l; cbn; [now rewrite app_nil_r|]. rewrite IH. now rewrite <- app_assoc. }
  rewrite HO, HA. cbn [app]. split.
  - destruct (C25_match_decides c mem (PatOr ps) o v Hc) as (b & Hb & Hbs); [now constructor|exact Hd|].
    exists b. split; [exact Hb|]. rewrite Hbs. split; [intros H; inversion H; eauto|intros (p & H1 & H2); econstructor; eauto].
  - destruct (C25_match_decides c mem (PatAnd ps) o v Hc) as (b & Hb & Hbs); [now constructor|exact Hd|].
    exists b. split; [exact Hb|]. rewrite Hbs. split; [intros H; inversion H; eauto|intros H; now constructor].
Qed.

(** The three leaf constructors, on every object: any data, data of one type tag, any
    array (with any number of elements). *)
Theorem C25_leaf_patterns : forall c mem o v, sane c -> denotes mem o v ->
  (exists b, Match c mem DataPattern_any o = Ok b /\ (b = true <-> exists x, v = VScalar x)) /\
  (forall dt, dt < 256 -> exists b, Match c mem (DataPattern_new dt) o = Ok b /\
     (b = true <-> exists x, v = VScalar x /\ dt_of_scalar x = dt)) /\
  (exists b, Match c mem ArrayPattern_any o = Ok b /\ (b = true <-> exists l, v = VArr l)).
Proof.
  intros c mem o v Hc Hd. split; [|split].
  - destruct (C25_match_decides c mem DataPattern_any o v Hc) as (b & Hb & Hbs); [constructor|exact Hd|].
    exists b. split; [exact Hb|]. rewrite Hbs. split; [intros H; inversion H; eauto|intros (x & ->); constructor].
  - intros dt Hdt. destruct (C25_match_decides c mem (DataPattern_new dt) o v Hc) as (b & Hb & Hbs); [constructor|exact Hd|].
    exists b. split; [exact Hb|]. rewrite Hbs. unfold DataPattern_new. rewrite N.mod_small by exact Hdt.
    split; [intros H; inversion H; eauto|intros (x & -> & H); now constructor].
  - destruct (C25_match_decides c mem ArrayPattern_any o v Hc) as (b & Hb & Hbs); [constructor; constructor|exact Hd|].
    exists b. split; [exact Hb|]. rewrite Hbs. split; [intros H; inversion H; eauto|intros (l & ->); constructor; [discriminate|]].
    intros [|i] p H; discriminate.
Qed.

(** { id: int32, tags: [string, any data, string] } with exactly 3 entries. *)
Definition sample_pattern (fst_tag : N) : pattern :=
  setSize 3 (setPattern k_tags
    (setNthPattern 2 (DataPattern_new BRIDGE_STRING) (setNthPattern 1 DataPattern_any
      (setNthPattern 0 (DataPattern_new fst_tag) (ArrayPattern_new 3))))
    (setPattern k_id (DataPattern_new BRIDGE_INT32) MapPattern_new)).

Lemma sample_pattern_complete t : complete (sample_pattern t).
Proof. repeat (constructor; cbn [snd]). Qed.

Example C25_met :
  satisfies (sample_pattern BRIDGE_STRING) sample_value /\ ~ satisfies (sample_pattern BRIDGE_BYTES) sample_value /\
  Match tiny no_mem (sample_pattern BRIDGE_STRING) sample = Ok true /\
  Match tiny no_mem (sample_pattern BRIDGE_BYTES) sample = Ok false /\
  Match tiny no_mem (removePattern k_tags (sample_pattern BRIDGE_BYTES)) sample = Ok true.
Proof.
  destruct (C25_match_decides tiny no_mem (sample_pattern BRIDGE_STRING) sample sample_value tiny_sane
    (sample_pattern_complete _) (sample_denotes _)) as (b & Hb & Hbs).
  destruct (C25_match_decides tiny no_mem (sample_pattern BRIDGE_BYTES) sample sample_value tiny_sane
    (sample_pattern_complete _) (sample_denotes _)) as (b' & Hb' & Hbs').
  assert (H1 : Match tiny no_mem (sample_pattern BRIDGE_STRING) sample = Ok true) by reflexivity.
  assert (H2 : Match tiny no_mem (sample_pattern BRIDGE_BYTES) sample = Ok false) by reflexivity.
  split; [apply Hbs; congruence|]. split; [rewrite <- Hbs'; congruence|]. repeat split; assumption.
Qed.

(** ** C26 *)
Lemma satisfies_same p : forall v v', same_content v v' -> distinct_keys v -> (satisfies p v <-> satisfies p v').
Proof.
  assert (Hone : forall p v v', same_content v v' -> distinct_keys v -> satisfies p v -> satisfies p v').
  { clear p. induction p as [|size kv IH|fixed slots IH|dt|l IH|l IH] using pattern_ind'; intros v v' HS HD H.
    - inversion H.
    - inversion H as [| |? ? l Hn Hkv| | |]; subst. pose proof HS as HS'. inversion HS; subst. constructor.
      + intros n Hsz. pose proof (same_content_top _ _ HS') as Ht. cbn in Ht. injection Ht as Ht. rewrite <- Ht. auto.
      + intros k q Hq. destruct (Hkv k q Hq) as (w & Hw & Hsat).
        pose proof (same_content_sub _ _ (Key k) HS' HD) as Hsub. cbn in Hsub. rewrite Hw in Hsub.
        destruct (lookup k l') as [w'|] eqn:Hw'; [|contradiction]. destruct Hsub as [Hsw Hdw].
        exists w'. split; [reflexivity|]. rewrite Forall_forall in IH. apply (IH _ Hq w w' Hsw Hdw Hsat).
    - inversion H as [| | |? ? l Hn Hs| |]; subst. pose proof HS as HS'. inversion HS; subst. constructor.
      + intros Hf. rewrite <- (Hn Hf). symmetry. eapply len_Forall2; eauto.
      + intros i q Hq. destruct (Hs i q Hq) as (w & Hw & Hsat).
        pose proof (same_content_sub _ _ (Idx (N.of_nat i)) HS' HD) as Hsub. cbn in Hsub. rewrite Nnat.Nat2N.id, Hw in Hsub.
        destruct (nth_error l' i) as [w'|] eqn:Hw'; [|contradiction]. destruct Hsub as [Hsw Hdw].
        exists w'. split; [reflexivity|]. rewrite Forall_forall in IH. apply (IH q (nth_error_In _ _ Hq) w w' Hsw Hdw Hsat).
    - inversion H; subst; inversion HS; subst; now constructor.
    - inversion H; subst. rewrite Forall_forall in IH. econstructor; eauto.
    - inversion H; subst. rewrite Forall_forall in IH. constructor. intros q Hq. eapply IH; eauto. }
  intros v v' HS HD. split; [now apply Hone|]. apply Hone; [now apply same_content_sym|].
  eapply same_content_distinct; eauto.
Qed.

(** C26.  A pattern gives the same answer on an object and on its round trip, in
    every mode. *)
Theorem C26_match_preserved : forall cs cp cm cm' mem ty p o v content buf fuel p' po,
  sane cs -> sane cp -> sane cm -> sane cm' -> denotes mem o v -> distinct_keys v ->
  Serialize cs mem ty p o = Ok content -> fits cp content -> (length content <= fuel)%nat ->
  (po_ref po = true -> no_custom v) ->
  exists o', Parse cp fuel content buf p' po = Ok o' /\
    forall mem', (po_ref po = true -> mem' buf = Some content) ->
    forall pat, complete pat -> exists b, Match cm mem pat o = Ok b /\ Match cm' mem' pat o' = Ok b.
Proof.
  intros cs cp cm cm' mem ty p o v content buf fuel p' po Hcs Hcp Hcm Hcm' Hd Hk Hs Hf Hfuel Hnc.
  pose proof (transport cs cp mem ty p o v content [] buf fuel p' po) as H. rewrite app_nil_r in H.
  destruct H as (o' & v' & HP & Hsc & _ & Hr & _); auto. exists o'. split; [exact HP|].
  intros mem' Hm pat Hpat.
  destruct (C25_match_decides cm mem pat o v Hcm Hpat Hd) as (b & Hb & Hbs).
  destruct (C25_match_decides cm' mem' pat o' v' Hcm' Hpat (Hr mem' Hm)) as (b' & Hb' & Hbs').
  pose proof (satisfies_same pat v v' Hsc Hk) as Hiff.
  exists b. split; [exact Hb|]. rewrite Hb'. f_equal. destruct b, b'; try reflexivity; exfalso; intuition congruence.
Qed.

Example C26_met : exists o', Parse x86_debug 200 (sample_doc tiny REPLACE) 7 p1 {| po_type := Coroutine; po_ref := true |} = Ok o' /\
  Match tiny (mem1 7 (sample_doc tiny REPLACE)) (sample_pattern BRIDGE_STRING) o' = Ok true /\
  Match tiny (mem1 7 (sample_doc tiny REPLACE)) (sample_pattern BRIDGE_BYTES) o' = Ok false.
Proof.
  destruct (C26_match_preserved tiny x86_debug tiny tiny no_mem REPLACE p0 sample sample_value (sample_doc tiny REPLACE) 7%nat 200%nat p1
     {| po_type := Coroutine; po_ref := true |}) as (o' & HP & H).
  - apply tiny_sane.
  - apply x86_debug_sane.
  - apply tiny_sane.
  - apply tiny_sane.
  - apply sample_denotes.
  - apply sample_distinct.
  - apply sample_serialized. cbn; tauto.
  - unfold fits. apply sample_doc_small. cbn; tauto.
  - apply sample_doc_small. cbn; tauto.
  - intros _. apply sample_no_custom.
  - exists o'. split; [exact HP|]. specialize (H (mem1 7 (sample_doc tiny REPLACE)) (fun _ => eq_refl)).
    destruct (H _ (sample_pattern_complete BRIDGE_STRING)) as (b & Hb & ->).
    destruct (H _ (sample_pattern_complete BRIDGE_BYTES)) as (b' & Hb' & ->).
    split; [rewrite <- Hb|rewrite <- Hb']; reflexivity.
Qed.

(** ** C27 *)

(** C27 fails: an ArrayPattern(n), n > 0, dereferences a null pointer on every
    array of n elements unless slots have been set. *)
Theorem C27_match_safe_refuted :
  (forall c mem n o l, (0 < n)%nat -> denotes mem o (VArr l) -> length l = n -> Match c mem (ArrayPattern_new n) o = UB) /\
  Match x86_debug no_mem (ArrayPattern_new 1) (OArray p0 1 [data_of_string k_id]) = UB.
Proof.
  split; [|reflexivity]. intros c mem [|n] o l Hn Hd HL; [lia|]. inversion Hd as [| |? ? items ? Hsz HI| |]; subst.
  unfold ArrayPattern_new. cbn [Match].
  assert (Hlen : len items = len l) by (apply len_Forall2 in HI; rewrite HI; unfold len; now rewrite rev_length).
  replace (len (repeat PatNull (S n)) =? len items) with true
    by (unfold len in *; rewrite repeat_length; lia).
  cbn [negb andb repeat map match_slots]. pose proof (Array_at_ok mem items l 0 HI) as HA. cbn in HA.
  destruct l as [|w l]; [discriminate|]. cbn in HA. apply denotes_not_null in HA.
  destruct (Array_at (len items) items 0); try reflexivity. congruence.
Qed.

(** What holds: with every slot and branch set Match neither faults nor throws on
    any complete tree, and an ArrayPattern(n) with unset slots does not fault on
    anything but an array of exactly n elements. *)
Theorem C27_match_safe_partial : forall c mem o v, sane c -> denotes mem o v ->
  (forall p, complete p -> exists b, Match c mem p o = Ok b) /\
  (forall n slots, length slots = n -> (forall l, v = VArr l -> length l <> n) ->
     Match c mem (PatArr true slots) o = Ok false).
Proof.
  intros c mem o v Hc Hd. split.
  - intros p Hp. destruct (C25_match_decides c mem p o v Hc Hp Hd) as (b & Hb & _). eauto.
  - intros n slots HL Hv. inversion Hd as [| |? ? items ? Hsz HI| |]; subst; try reflexivity. cbn [Match].
    assert (Hlen : len items = len l) by (apply len_Forall2 in HI; rewrite HI; unfold len; now rewrite rev_length).
    specialize (Hv l eq_refl). replace (len slots =? len items) with false by (unfold len in *; lia). reflexivity.
Qed.

Example C27_met : Match tiny no_mem (ArrayPattern_new 3) sample = Ok false /\
  Match tiny no_mem (sample_pattern BRIDGE_STRING) sample = Ok true.
Proof. split; reflexivity. Qed.
