(** * The in-place parser follows the copying parser step by step. *)
From Verif Require Import Base BaseLemmas ModelVarint ModelData ModelSecondary ModelObject
  ModelParse ModelWrapper Spec SpecApi NumProofs ObjInd ParseLemmas ParaProofs GeneralProofs.
From Coq Require Import ZifyBool ZifyNat ZifyN.

Ltac sstep H := rewrite run_bind, ?run_lift in H; apply obind_ok in H as (? & ? & H).
Ltac same Heq := rewrite run_bind, ?run_lift, Heq; cbn [obind].

(** Does an owned tree hold custom data? *)
Fixpoint custom_obj (o : obj) : bool :=
  match o with
  | OData dt _ => dt =? BRIDGE_CUSTOM
  | OArray _ _ items => existsb custom_obj items
  | OMap _ _ items => existsb (fun e => custom_obj (snd e)) items
  | _ => false
  end.

(** [echo content buf o' o]: the in-place tree [o'] refers, inside the buffer that
    holds [content], to exactly what the copy [o] holds. *)
Inductive echo (content : bytes) (buf : nat) : obj -> obj -> Prop :=
| ec_num dt t n : dt <> BRIDGE_CUSTOM -> echo content buf (ODataView dt (SNum t n)) (OData dt (SNum t n))
| ec_str v s : v_buf v = buf -> read_range content (v_off v) (v_len v) = Ok s ->
    echo content buf (ODataView BRIDGE_STRING (SView v)) (OData BRIDGE_STRING (SStr s))
| ec_bytes v s : v_buf v = buf -> read_range content (v_off v) (v_len v) = Ok s ->
    echo content buf (ODataView BRIDGE_BYTES (SView v)) (OData BRIDGE_BYTES (SVec s))
| ec_array p n a b : Forall2 (echo content buf) a b -> echo content buf (OArray p n a) (OArray p n b)
| ec_map p n a b : Forall2 (fun x y => v_buf (fst x) = buf /\ read_range content (v_off (fst x)) (v_len (fst x)) = Ok (fst y) /\ echo content buf (snd x) (snd y)) a b ->
    echo content buf (OMapView p n a) (OMap p n b).

Definition echo_entry (content : bytes) (buf : nat) (x : view * obj) (y : bytes * obj) : Prop :=
  v_buf (fst x) = buf /\ read_range content (v_off (fst x)) (v_len (fst x)) = Ok (fst y) /\ echo content buf (snd x) (snd y).

Lemma echo_denotes content buf mem (Hm : mem buf = Some content) :
  forall o o' v, echo content buf o' o -> denotes mem o v -> denotes mem o' v.
Proof.
  assert (Hrv : forall v s, v_buf v = buf -> read_range content (v_off v) (v_len v) = Ok s -> read_view mem v = Ok s).
  { intros v s Hb Hr. unfold read_view. now rewrite Hb, Hm. }
  induction o as [|dt s|dt s|p n items IH|p n items IH|p n items IH] using obj_ind'; intros o' v He Hd; inversion He; subst; inversion Hd; subst.
  - match goal with H : data_denotes _ _ _ |- _ => inversion H; subst end. constructor. now constructor.
  - match goal with H : data_denotes _ _ _ |- _ => inversion H; subst end. constructor. constructor. auto.
  - match goal with H : data_denotes _ _ _ |- _ => inversion H; subst end. constructor. constructor. auto.
  - match goal with H : Forall2 (echo _ _) _ _ |- _ => rename H into HE end.
    match goal with H : Forall2 (denotes _) _ _ |- _ => rename H into HD end.
    constructor; [symmetry; eapply len_Forall2; exact HE|]. clear - HE HD IH Hm. revert IH HD. generalize (rev l). induction HE as [|x y a b Hxy HE IHl]; intros w IH HD; inversion HD; subst; constructor.
    + inversion IH; subst. eauto.
    + inversion IH; subst. auto.
  - match goal with H : Forall2 (fun x y => v_buf _ = _ /\ _) _ _ |- _ => rename H into HE end.
    match goal with H : Forall2 (fun i e => fst i = _ /\ _) _ _ |- _ => rename H into HD end.
    constructor; [symmetry; eapply len_Forall2; exact HE|]. clear - HE HD IH Hrv Hm. revert l IH HD. induction HE as [|x y a b (H1 & H2 & H3) HE IHl]; intros w IH HD; inversion HD as [|? e ? w' [Hk Hv] HD']; subst; constructor.
    + inversion IH; subst. split; [rewrite <- Hk; auto|]. eauto.
    + inversion IH; subst. auto.
Qed.

Lemma echo_no_custom content buf : forall o o', echo content buf o' o -> custom_obj o = false.
Proof.
  induction o as [|dt s|dt s|p n items IH|p n items IH|p n items IH] using obj_ind'; intros o' He; inversion He; subst; cbn [custom_obj]; try reflexivity.
  - now apply N.eqb_neq.
  - match goal with H : Forall2 _ _ _ |- _ => rename H into HE end. clear - HE IH. induction HE; cbn; [reflexivity|]. inversion IH; subst. rewrite (H2 _ H). cbn. auto.
  - match goal with H : Forall2 _ _ _ |- _ => rename H into HE end. clear - HE IH. induction HE as [|x y a b (H1 & H2 & H3) HE IHl]; cbn; [reflexivity|]. inversion IH; subst. rewrite (H4 _ H3). cbn. auto.
Qed.

Section Sim.
  Variable E : penv.
  Variable get : N -> outcome view.
  Variable p : pool.
  Notation R := (b_env E).
  Notation content := (r_content (b_env E)).
  Notation sh := (echo content (b_buf E)).
  Notation she := (echo_entry content (b_buf E)).
  Notation bade := (fun e : bytes * obj => custom_obj (snd e)).
  Hypothesis Hget : forall id v, get id = Ok v -> v_buf v = b_buf E.

  Lemma data_sim s o s' : run get (Data_valueParse E false s) = Ok (o, s') ->
    if custom_obj o then run get (Data_valueParse E true s) = Throw ERuntime
    else exists o', run get (Data_valueParse E true s) = Ok (o', s') /\ sh o' o.
  Proof.
    unfold Data_valueParse. intros H. sstep H. destruct x as [dt s1]. same H0. clear H0.
    destruct (negb (valid_data_type dt)) eqn:Hv; [discriminate|].
    destruct ((dt =? BRIDGE_STRING) && ModelParse.b_map E) eqn:Hd.
    - sstep H. destruct x as [id s2]. same H0. clear H0. cbn [run] in H |- *. apply obind_ok in H as (v & Hg & H). rewrite Hg. cbn [obind].
      sstep H. cbn [run] in H. injection H as <- <-. cbn [run custom_obj].
      apply andb_true_iff in Hd as [Hd _]. apply N.eqb_eq in Hd. subst dt. change (BRIDGE_STRING =? BRIDGE_CUSTOM) with false. cbv iota.
      eexists. split; [reflexivity|]. constructor; [eapply Hget; exact Hg|exact H0].
    - sstep H. destruct x as [size s2]. same H0. clear H0. sstep H. same H0. clear H0. rename x into a. cbv iota in H.
      sstep H. rename x into d. sstep H. cbn [run] in H. injection H as <- <-. cbn [custom_obj].
      unfold parseData in H0. unfold parseData_view.
      destruct (N.eqb_spec dt BRIDGE_CUSTOM) as [->|Hnc].
      { reflexivity. }
      destruct (N.eqb_spec dt BRIDGE_BYTES) as [->|Hnb].
      { cbn [orb] in H0 |- *. unfold omap in H0. apply obind_ok in H0 as (sx & Hr & [= <-]). rewrite run_bind, run_lift. cbn [obind].
        same H1. eexists. split; [reflexivity|]. constructor; [reflexivity|exact Hr]. }
      destruct (N.eqb_spec dt BRIDGE_STRING) as [->|Hns].
      { cbn [orb] in H0 |- *. unfold omap in H0. apply obind_ok in H0 as (sx & Hr & [= <-]). rewrite run_bind, run_lift. cbn [obind].
        same H1. eexists. split; [reflexivity|]. constructor; [reflexivity|exact Hr]. }
      cbn [orb] in H0 |- *. rewrite run_bind, run_lift, H0. cbn [obind]. same H1. eexists. split; [reflexivity|].
      destruct (num_of_dt dt) as [t|] in H0; [|discriminate]. unfold parse_num in H0. destruct (_ && _) in H0; [discriminate|]. destruct (_ <? _) in H0; [discriminate|].
      apply obind_ok in H0 as (m & _ & [= <-]). now constructor.
  Qed.

  Lemma values_sim fuel :
    (forall t s o s', run get (valueParse E p false fuel t s) = Ok (o, s') ->
       if custom_obj o then run get (valueParse E p true fuel t s) = Throw ERuntime
       else exists o', run get (valueParse E p true fuel t s) = Ok (o', s') /\ sh o' o) /\
    (forall count s acc accr os s', run get (array_loop E p false fuel count s acc) = Ok (os, s') ->
       exists new, os = new ++ acc /\
       if existsb custom_obj new then run get (array_loop E p true fuel count s accr) = Throw ERuntime
       else exists new', run get (array_loop E p true fuel count s accr) = Ok (new' ++ accr, s') /\ Forall2 sh new' new) /\
    (forall count s acc accr os s', run get (map_loop E p false fuel count s acc) = Ok (os, s') ->
       exists new, os = new ++ acc /\
       if existsb bade new then run get (mapview_loop E p true fuel count s accr) = Throw ERuntime
       else exists new', run get (mapview_loop E p true fuel count s accr) = Ok (new' ++ accr, s') /\ Forall2 she new' new).
  Proof.
    induction fuel as [|f (IHv & IHa & IHm)]; [split; [|split]; intros; discriminate|].
    split; [|split].
    - intros t s o s' H. cbn [valueParse] in H |- *. destruct t.
      + now apply data_sim.
      + sstep H. destruct x as [n s1]. same H0. clear H0. sstep H. destruct x as [id s2]. same H0. clear H0. cbv iota in H |- *.
        sstep H. clear H0. sstep H. destruct x0 as [items s3]. cbn [run] in H. injection H as <- <-.
        apply (IHm n s2 [] []) in H0 as (new & -> & HN). rewrite app_nil_r. cbn [custom_obj]. destruct (existsb bade new).
        * same HN. reflexivity.
        * destruct HN as (new' & HN & HF). same HN. eexists. split; [reflexivity|]. rewrite app_nil_r. constructor. exact HF.
      + sstep H. destruct x as [n s1]. same H0. clear H0. sstep H. destruct x as [id s2]. same H0. clear H0.
        sstep H. destruct x as [items s3]. cbn [run] in H. injection H as <- <-.
        apply (IHa n s2 [] []) in H0 as (new & -> & HN). rewrite app_nil_r. cbn [custom_obj].
        assert (Hx : existsb custom_obj (rev new) = existsb custom_obj new).
        { apply eq_true_iff_eq. rewrite !existsb_exists. split; intros (y & Hy & Hc'); exists y; (split; [apply in_rev; rewrite ?rev_involutive; exact Hy|exact Hc']). }
        rewrite Hx. destruct (existsb custom_obj new).
        * same HN. reflexivity.
        * destruct HN as (new' & HN & HF). same HN. eexists. split; [reflexivity|]. rewrite app_nil_r. constructor. now apply Forall2_rev.
    - intros count s acc accr os s' H. cbn [array_loop] in H |- *. destruct (count =? 0).
      { cbn [run] in H |- *. injection H as <- <-. exists []. split; [reflexivity|]. exists []. split; [reflexivity|constructor]. }
      sstep H. destruct x as [t s1]. same H0. clear H0. sstep H. destruct x as [o s2]. apply IHv in H0.
      rewrite run_bind. destruct (custom_obj o) eqn:Hc.
      + rewrite H0. cbn [obind]. apply (IHa (count - 1) s2 (o :: acc) []) in H as (new & -> & _). exists (new ++ [o]). rewrite <- app_assoc. split; [reflexivity|].
        rewrite existsb_app. cbn [existsb]. rewrite Hc, orb_true_r. reflexivity.
      + destruct H0 as (o' & -> & Ho). cbn [obind]. apply (IHa (count - 1) s2 (o :: acc) (o' :: accr)) in H as (new & -> & HN).
        exists (new ++ [o]). rewrite <- app_assoc. split; [reflexivity|]. rewrite existsb_app. cbn [existsb]. rewrite Hc, !orb_false_r.
        destruct (existsb custom_obj new); [exact HN|]. destruct HN as (new' & -> & HF). exists (new' ++ [o']). rewrite <- app_assoc. split; [reflexivity|].
        apply Forall2_app; auto.
    - intros count s acc accr os s' H. cbn [map_loop mapview_loop] in H |- *. destruct (count =? 0).
      { cbn [run] in H |- *. injection H as <- <-. exists []. split; [reflexivity|]. exists []. split; [reflexivity|constructor]. }
      sstep H. destruct x as [kv s1]. rewrite run_bind, H0. cbn [obind].
      assert (Hkv : v_buf kv = b_buf E).
      { clear - H0 Hget. unfold parse_key in H0. destruct (ModelParse.b_map E).
        - sstep H0. destruct x as [id s2]. cbn [run] in H0. apply obind_ok in H0 as (v & Hg & [= -> _]). eapply Hget; exact Hg.
        - sstep H0. destruct x as [id s2]. sstep H0. sstep H0. cbn [run] in H0. injection H0 as <- _. reflexivity. }
      clear H0. sstep H. destruct x as [t s2]. same H0. clear H0. sstep H. destruct x as [o s3]. apply IHv in H0. sstep H. rename x into key.
      rewrite run_bind. destruct (custom_obj o) eqn:Hc.
      + rewrite H0. cbn [obind]. apply (IHm (count - 1) s3 ((key, o) :: acc) []) in H as (new & -> & _). exists (new ++ [(key, o)]). rewrite <- app_assoc. split; [reflexivity|].
        rewrite existsb_app. cbn [existsb snd]. rewrite Hc, orb_true_r. reflexivity.
      + destruct H0 as (o' & -> & Ho). cbn [obind]. apply (IHm (count - 1) s3 ((key, o) :: acc) ((kv, o') :: accr)) in H as (new & -> & HN).
        exists (new ++ [(key, o)]). rewrite <- app_assoc. split; [reflexivity|]. rewrite existsb_app. cbn [existsb snd]. rewrite Hc, !orb_false_r.
        destruct (existsb bade new); [exact HN|]. destruct HN as (new' & -> & HF). exists (new' ++ [(kv, o')]). rewrite <- app_assoc. split; [reflexivity|].
        apply Forall2_app; [exact HF|]. constructor; [|constructor]. split; [exact Hkv|]. split; [exact H1|exact Ho].
  Qed.
End Sim.

(** Blocks of a split container. *)
Section ParSim.
  Variable get : N -> outcome view.
  Context {I J : Type}.
  Variable mkF : list I -> N -> block.
  Variable mkT : list J -> N -> block.
  Variable mrgF : list I * N -> outcome block -> outcome (list I * N).
  Variable mrgT : list J * N -> outcome block -> outcome (list J * N).
  Variable bad : I -> bool.
  Variable S : J -> I -> Prop.
  Hypothesis mkF_inj : forall a b c d, mkF a b = mkF c d -> a = c /\ b = d.
  Hypothesis HmF : forall acc items count, mrgF acc (Ok (mkF items count)) =
    Ok (match items with [] => acc | _ => (items ++ fst acc, u64 (snd acc + count)) end).
  Hypothesis HmT : forall acc items count, mrgT acc (Ok (mkT items count)) =
    Ok (match items with [] => acc | _ => (items ++ fst acc, u64 (snd acc + count)) end).
  Hypothesis HmTt : forall acc e, mrgT acc (Throw e) = Throw e.

  Definition tsim (tF tT : prog block) : Prop := forall r, run get tF = Ok r -> exists items n, r = mkF items n /\
    if existsb bad items then run get tT = Throw ERuntime
    else exists items', run get tT = Ok (mkT items' n) /\ Forall2 S items' items.
  Definition bad_block (x : list I * N) : bool := existsb bad (fst x).

  Lemma tasks_sim : forall tsF tsT, Forall2 tsim tsF tsT -> forall ic, map (fun t => run get t) tsF = map (fun x => Ok (mkF (fst x) (snd x))) ic ->
    hard_failure (map (fun t => run get t) tsT) = None /\
    Forall (fun r => r = Throw ERuntime \/ exists a n, r = Ok (mkT a n)) (map (fun t => run get t) tsT) /\
    if existsb bad_block ic then In (Throw ERuntime) (map (fun t => run get t) tsT)
    else exists ic', map (fun t => run get t) tsT = map (fun x => Ok (mkT (fst x) (snd x))) ic' /\ Forall2 (fun x y => Forall2 S (fst x) (fst y) /\ snd x = snd y) ic' ic.
  Proof using mkF_inj.
    induction 1 as [|tF tT tsF tsT Ht HF IH]; intros [|[its n] ic] H; try discriminate; cbn [map] in *.
    - split; [reflexivity|]. split; [constructor|]. exists []. split; [reflexivity|constructor].
    - injection H as H1 H2. destruct (IH _ H2) as (P1 & P2 & P3). destruct (Ht _ H1) as (its' & n' & Heq & HT). apply mkF_inj in Heq as [<- <-].
      cbn [fst snd] in *. cbn [existsb]. unfold bad_block at 1. cbn [fst]. destruct (existsb bad its) eqn:Hb; cbn [orb].
      + rewrite HT. split; [exact P1|]. split; [constructor; auto|]. now left.
      + destruct HT as (items' & -> & HS). split; [exact P1|]. split; [constructor; eauto|]. destruct (existsb bad_block ic).
        * now right.
        * destruct P3 as (ic' & -> & HF'). exists ((items', n) :: ic'). split; [reflexivity|]. constructor; [split; auto|exact HF'].
  Qed.

  Lemma merge_throw : forall l acc, Forall (fun r => r = Throw ERuntime \/ exists a n, r = Ok (mkT a n)) l -> In (Throw ERuntime) l ->
    merge_all mrgT acc l = Throw ERuntime.
  Proof using HmT HmTt.
    induction l as [|r l IH]; intros acc HF Hin; [destruct Hin|]. inversion HF as [|? ? Hr HF']; subst. cbn [merge_all].
    destruct Hr as [->|(a & n & ->)]; [now rewrite HmTt|]. rewrite HmT. cbn [obind]. destruct Hin as [Hin|Hin]; [discriminate|]. now apply IH.
  Qed.

  Lemma merge_sim : forall ic' ic, Forall2 (fun x y => Forall2 S (fst x) (fst y) /\ snd x = snd y) ic' ic ->
    forall acc' acc n res m, Forall2 S acc' acc -> merge_all mrgF (acc, n) (map (fun x => Ok (mkF (fst x) (snd x))) ic) = Ok (res, m) ->
    exists res', merge_all mrgT (acc', n) (map (fun x => Ok (mkT (fst x) (snd x))) ic') = Ok (res', m) /\ Forall2 S res' res.
  Proof using HmF HmT.
    induction 1 as [|[a k] [b k'] ic' ic [Hab Hk] HF IH]; intros acc' acc n res m Hacc H; cbn [map merge_all fst snd] in *.
    - injection H as <- <-. exists acc'. auto.
    - subst k'. rewrite HmF in H. rewrite HmT. cbn [obind fst snd] in H |- *. destruct Hab as [|x y a b Hxy Hab].
      + eapply IH; eauto.
      + eapply IH; [|exact H]. change (Forall2 S ((x :: a) ++ acc') ((y :: b) ++ acc)). apply Forall2_app; [constructor; auto|exact Hacc].
  Qed.

  Lemma merge_bad : forall ic acc n res m, merge_all mrgF (acc, n) (map (fun x => Ok (mkF (fst x) (snd x))) ic) = Ok (res, m) ->
    existsb bad res = existsb bad_block ic || existsb bad acc.
  Proof using HmF.
    induction ic as [|[a k] ic IH]; intros acc n res m H; cbn [map merge_all fst snd] in H.
    - injection H as <- <-. reflexivity.
    - rewrite HmF in H. cbn [obind fst snd] in H. cbn [existsb]. unfold bad_block at 1. cbn [fst]. destruct a as [|x a].
      + rewrite (IH _ _ _ _ H). reflexivity.
      + rewrite (IH _ _ _ _ H). rewrite existsb_app. destruct (existsb bad_block ic), (existsb bad (x :: a)), (existsb bad acc); reflexivity.
  Qed.
End ParSim.

Lemma merge_all_inv' {I} (mk : list I -> N -> block) (mrg : list I * N -> outcome block -> outcome (list I * N)) :
  (forall acc r acc', mrg acc r = Ok acc' -> exists items count, r = Ok (mk items count)) ->
  forall l acc res, merge_all mrg acc l = Ok res -> exists ic, l = map (fun x => Ok (mk (fst x) (snd x))) ic.
Proof.
  intros Hm. induction l as [|r l IH]; intros acc res H; cbn in H; [exists []; reflexivity|].
  apply obind_ok in H as (acc' & H1 & H2). destruct (Hm _ _ _ H1) as (items & count & ->).
  destruct (IH _ _ H2) as (ic & ->). exists ((items, count) :: ic). reflexivity.
Qed.

Section SimPara.
  Variable E : penv.
  Variable si : split_info.
  Variable get : N -> outcome view.
  Notation R := (b_env E).
  Notation content := (r_content (b_env E)).
  Notation sh := (echo content (b_buf E)).
  Notation she := (echo_entry content (b_buf E)).
  Notation bade := (fun e : bytes * obj => custom_obj (snd e)).
  Hypothesis Hget : forall id v, get id = Ok v -> v_buf v = b_buf E.

  Lemma block_key_buf s kv s1 : run get (block_key E s) = Ok (kv, s1) -> v_buf kv = b_buf E.
  Proof using Hget.
    unfold block_key. intros H. destruct (ModelParse.b_map E).
    - sstep H. destruct x as [id s2]. cbn [run] in H. apply obind_ok in H as (v & Hg & [= -> _]). eapply Hget; exact Hg.
    - sstep H. destruct x as [id s2]. sstep H. cbn [run] in H. injection H as <- _. reflexivity.
  Qed.

  Lemma existsb_rev {A} (f : A -> bool) l : existsb f (rev l) = existsb f l.
  Proof using. apply eq_true_iff_eq. rewrite !existsb_exists. split; intros (y & Hy & Hc'); exists y; (split; [apply in_rev; rewrite ?rev_involutive; exact Hy|exact Hc']). Qed.

  Lemma para_sim fuel :
    (forall i o j, run get (ParseArray E si fuel false i) = Ok (o, j) ->
       if custom_obj o then run get (ParseArray E si fuel true i) = Throw ERuntime
       else exists o', run get (ParseArray E si fuel true i) = Ok (o', j) /\ sh o' o) /\
    (forall i o j, run get (ParseMap E si fuel false i) = Ok (o, j) ->
       if custom_obj o then run get (ParseMap E si fuel true i) = Throw ERuntime
       else exists o', run get (ParseMap E si fuel true i) = Ok (o', j) /\ sh o' o) /\
    (forall s o s', run get (block_value E si fuel false s) = Ok (o, s') ->
       if custom_obj o then run get (block_value E si fuel true s) = Throw ERuntime
       else exists o', run get (block_value E si fuel true s) = Ok (o', s') /\ sh o' o) /\
    (forall e s acc accr n r, run get (ParseArrayBlock E si fuel false e s acc n) = Ok r ->
       exists new m, r = BArr (rev acc ++ new) m /\
       if existsb custom_obj new then run get (ParseArrayBlock E si fuel true e s accr n) = Throw ERuntime
       else exists new', run get (ParseArrayBlock E si fuel true e s accr n) = Ok (BArr (rev accr ++ new') m) /\ Forall2 sh new' new) /\
    (forall e s acc accr n r, run get (ParseMapBlock E si fuel e s acc n) = Ok r ->
       exists new m, r = BMap (rev acc ++ new) m /\
       if existsb bade new then run get (ParseMapViewBlock E si fuel e s accr n) = Throw ERuntime
       else exists new', run get (ParseMapViewBlock E si fuel e s accr n) = Ok (BMapView (rev accr ++ new') m) /\ Forall2 she new' new).
  Proof using Hget.
    induction fuel as [|f (IHA & IHM & IHV & IHAB & IHMB)]; [split; [|split; [|split; [|split]]]; intros; discriminate|].
    split; [|split; [|split; [|split]]].
    - intros i o j H. rewrite ParseArray_S in H |- *. cbv zeta in H |- *.
      sstep H. destruct x as [n s1]. same H0. clear H0. sstep H. destruct x as [id s2]. same H0. clear H0. sstep H. rename x into sizes. same H0. clear H0.
      destruct (ranges (idx s2) sizes) as [rs last]. rewrite run_PPar in H. destruct (hard_failure _) eqn:Hh; [destruct f0; discriminate|]. clear Hh.
      sstep H. destruct x as [items size]. cbn [run] in H. injection H as <- <-.
      pose proof H0 as Hmg. apply (merge_all_inv' BArr) in H0 as (ic & Hic).
      2:{ clear. intros acc [[]| | | |] acc' H; cbn in H; try discriminate. eauto. }
      rewrite Hic in Hmg.
      assert (Hic' : map (fun t => run get t) (map (fun be => ParseArrayBlock E si f false (snd be) {| idx := fst be; off := fst be |} [] 0) rs) =
                     map (fun x => Ok (BArr (fst x) (snd x))) (rev ic)).
      { rewrite <- (rev_involutive (map (fun t => run get t) _)). rewrite Hic. now rewrite map_rev. }
      assert (HT : Forall2 (tsim get BArr BArr custom_obj sh)
        (map (fun be => ParseArrayBlock E si f false (snd be) {| idx := fst be; off := fst be |} [] 0) rs)
        (map (fun be => ParseArrayBlock E si f true (snd be) {| idx := fst be; off := fst be |} [] 0) rs)).
      { clear - IHAB. induction rs as [|be rs IH]; cbn [map]; constructor; [|exact IH]. intros r Hr.
        apply (IHAB _ _ [] []) in Hr as (new & m & -> & HN). exists new, m. split; [reflexivity|exact HN]. }
      apply (tasks_sim get BArr BArr custom_obj sh) with (ic := rev ic) in HT as (Q1 & Q2 & Q3); [|intros ? ? ? ? [= -> ->]; auto|exact Hic'].
      rewrite run_PPar, Q1. rewrite run_bind, run_lift. cbn [custom_obj].
      assert (Hbad : existsb custom_obj items = existsb (bad_block custom_obj) (rev ic)).
      { rewrite (merge_bad BArr merge_arr custom_obj) with (1 := fun acc items count => eq_refl) (2 := Hmg). now rewrite existsb_rev, orb_false_r. }
      rewrite Hbad. destruct (existsb (bad_block custom_obj) (rev ic)).
      + rewrite (merge_throw BArr merge_arr); [reflexivity|intros; reflexivity|intros; reflexivity| |].
        * apply Forall_rev. exact Q2.
        * apply -> in_rev. exact Q3.
      + destruct Q3 as (ic' & -> & HF). apply Forall2_rev in HF. rewrite rev_involutive in HF.
        destruct (merge_sim BArr BArr merge_arr merge_arr sh) with (1 := fun acc items count => eq_refl (merge_arr acc (Ok (BArr items count)))) (2 := fun acc items count => eq_refl (merge_arr acc (Ok (BArr items count)))) (3 := HF) (4 := Forall2_nil sh) (5 := Hmg) as (res' & Hr & HS).
        rewrite <- map_rev, Hr. cbn [obind run]. eexists. split; [reflexivity|]. now constructor.
    - intros i o j H. rewrite ParseMap_S in H |- *. cbv zeta in H |- *.
      sstep H. destruct x as [n s1]. same H0. clear H0. sstep H. destruct x as [id s2]. same H0. clear H0. sstep H. rename x into sizes. same H0. clear H0.
      destruct (ranges (idx s2) sizes) as [rs last]. cbv iota in H |- *. rewrite run_PPar in H. destruct (hard_failure _) eqn:Hh; [destruct f0; discriminate|]. clear Hh.
      sstep H. destruct x as [items size]. cbn [run] in H. injection H as <- <-.
      pose proof H0 as Hmg. apply (merge_all_inv' BMap) in H0 as (ic & Hic).
      2:{ clear. intros acc [[]| | | |] acc' H; cbn in H; try discriminate. eauto. }
      rewrite Hic in Hmg.
      assert (HT : Forall2 (tsim get BMap BMapView bade she)
        (map (fun be => ParseMapBlock E si f (snd be) {| idx := fst be; off := fst be |} [] 0) rs)
        (map (fun be => ParseMapViewBlock E si f (snd be) {| idx := fst be; off := fst be |} [] 0) rs)).
      { clear - IHMB. induction rs as [|be rs IH]; cbn [map]; constructor; [|exact IH]. intros r Hr.
        apply (IHMB _ _ [] []) in Hr as (new & m & -> & HN). exists new, m. split; [reflexivity|exact HN]. }
      apply (tasks_sim get BMap BMapView bade she) with (ic := ic) in HT as (Q1 & Q2 & Q3); [|intros ? ? ? ? [= -> ->]; auto|exact Hic].
      rewrite run_PPar, Q1. rewrite run_bind, run_lift. cbn [custom_obj].
      assert (Hbad : existsb bade items = existsb (bad_block bade) ic).
      { rewrite (merge_bad BMap merge_map bade) with (1 := fun acc items count => eq_refl) (2 := Hmg). now rewrite orb_false_r. }
      rewrite Hbad. destruct (existsb (bad_block bade) ic).
      + rewrite (merge_throw BMapView merge_mapview); [reflexivity|intros; reflexivity|intros; reflexivity|exact Q2|exact Q3].
      + destruct Q3 as (ic' & -> & HF).
        destruct (merge_sim BMap BMapView merge_map merge_mapview she) with (1 := fun acc items count => eq_refl (merge_map acc (Ok (BMap items count)))) (2 := fun acc items count => eq_refl (merge_mapview acc (Ok (BMapView items count)))) (3 := HF) (4 := Forall2_nil she) (5 := Hmg) as (res' & Hr & HS).
        rewrite Hr. cbn [obind run]. eexists. split; [reflexivity|]. constructor. exact HS.
    - intros s o s' H. rewrite block_value_S in H |- *. sstep H. destruct x as [[t fl] s1]. same H0. clear H0. destruct fl.
      + destruct t; [discriminate| |].
        * sstep H. destruct x as [o0 e]. cbn [run] in H. injection H as <- <-. apply IHM in H0. destruct (custom_obj o0); [same H0; reflexivity|].
          destruct H0 as (o' & H0 & He). same H0. eexists. split; [reflexivity|exact He].
        * sstep H. destruct x as [o0 e]. cbn [run] in H. injection H as <- <-. apply IHA in H0. destruct (custom_obj o0); [same H0; reflexivity|].
          destruct H0 as (o' & H0 & He). same H0. eexists. split; [reflexivity|exact He].
      + destruct (values_sim E get CoroFrame Hget f) as (VS & _ & _). now apply VS.
    - intros e s acc accr n r H. rewrite ParseArrayBlock_S in H |- *. destruct (off s <? e).
      + sstep H. destruct x as [o s1]. apply IHV in H0. rewrite run_bind. destruct (custom_obj o) eqn:Hc.
        * rewrite H0. cbn [obind]. apply (IHAB _ _ (o :: acc) []) in H as (new & m & -> & _). exists (o :: new), m. cbn [rev existsb]. rewrite <- app_assoc, Hc. split; reflexivity.
        * destruct H0 as (o' & -> & Ho). cbn [obind]. apply (IHAB _ _ (o :: acc) (o' :: accr)) in H as (new & m & -> & HN).
          exists (o :: new), m. cbn [rev existsb] in *. rewrite <- app_assoc, Hc. split; [reflexivity|]. cbn [orb]. destruct (existsb custom_obj new); [exact HN|].
          destruct HN as (new' & -> & HF). exists (o' :: new'). rewrite <- app_assoc. split; [reflexivity|]. now constructor.
      + cbn [run] in H |- *. injection H as <-. exists [], n. rewrite app_nil_r. split; [reflexivity|]. exists []. rewrite app_nil_r. split; [reflexivity|constructor].
    - intros e s acc accr n r H. rewrite ParseMapBlock_S in H. rewrite ParseMapViewBlock_S. destruct (off s <? e).
      + sstep H. destruct x as [kv s1]. rewrite run_bind, H0. cbn [obind]. apply block_key_buf in H0 as Hkv. clear H0.
        sstep H. rename x into key. rename H0 into Hkey. sstep H. destruct x as [o s2]. apply IHV in H0. rewrite run_bind. destruct (custom_obj o) eqn:Hc.
        * rewrite H0. cbn [obind]. apply (IHMB _ _ ((key, o) :: acc) []) in H as (new & m & -> & _). exists ((key, o) :: new), m. cbn [rev existsb snd]. rewrite <- app_assoc, Hc. split; reflexivity.
        * destruct H0 as (o' & -> & Ho). cbn [obind]. apply (IHMB _ _ ((key, o) :: acc) ((kv, o') :: accr)) in H as (new & m & -> & HN).
          exists ((key, o) :: new), m. cbn [rev existsb snd] in *. rewrite <- app_assoc, Hc. split; [reflexivity|]. cbn [orb]. destruct (existsb bade new); [exact HN|].
          destruct HN as (new' & -> & HF). exists ((kv, o') :: new'). rewrite <- app_assoc. split; [reflexivity|]. constructor; [|exact HF]. split; [exact Hkv|]. split; [exact Hkey|exact Ho].
      + cbn [run] in H |- *. injection H as <-. exists [], n. rewrite app_nil_r. split; [reflexivity|]. exists []. rewrite app_nil_r. split; [reflexivity|constructor].
  Qed.
End SimPara.
