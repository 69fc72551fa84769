(** * Properties C104 and C107: how many objects a parse inside a running program leaves. *)
From Verif Require Import Base BaseLemmas ModelVarint ModelData ModelSecondary ModelObject ModelPool ModelParse ModelWrapper ModelStorage ModelFrames
  ModelAlloc ModelParaAlloc ModelClient ModelSession Spec SpecApi SpecClient ParseLemmas DocProofs ParaProofs RoundTrip Samples PropPool PropFrames PropAlloc ParaAllocProofs PropParaAlloc PropPara ClientProofs PropClient
  SessionProofs ParaSessionProofs ParaSessionProofs2 PropSession PropStable PropProgramMemory ParaFrameProofs PropParaSession PropParaFrames.
From Coq Require Import ZifyBool ZifyNat ZifyN Permutation.
Local Open Scope out_scope.

(** ** Specification *)

(** The objects of class [k] the program's pools hold at the moment: constructed, and
    neither destroyed nor their memory freed. *)
Definition held_now (s : session) (k : cls) (x : slot_id) : Prop :=
  exists h, heap_run (require_destruct k) heap0 (w_trace (k_pools (se_client s) k)) = Some h /\ h_live h x = true.
(** From [s] to [s'] nothing goes away, and of each class as many objects come as there
    are in [l]. *)
Definition gains (s s' : session) (l : list cls) : Prop :=
  forall k, exists new, NoDup new /\ length new = count_occ cls_dec l k /\ (forall x, In x new -> ~ held_now s k x) /\
    forall x, held_now s' k x <-> held_now s k x \/ In x new.

(** ** Proofs *)
Definition is_pool (p : option blocks) : bool := match p with Some _ => true | None => false end.
Definition alive_of (w : pworld) : list bool := map is_pool (w_pools w).
Lemma alive_get w i v : get_pool w i = Ok v -> nth_error (alive_of w) i = Some true.
Proof. unfold get_pool, alive_of. rewrite nth_error_map. destruct (nth_error (w_pools w) i) as [[]|]; try discriminate. reflexivity. Qed.
Lemma map_put {A B} (f : A -> B) x : forall l i, map f (put i x l) = put i (f x) (map f l).
Proof. induction l as [|a l IH]; intros [|i]; cbn; try reflexivity. now rewrite IH. Qed.
Lemma put_same {A} (x : A) : forall l i, nth_error l i = Some x -> put i x l = l.
Proof. induction l as [|a l IH]; intros [|i] H; cbn in *; try discriminate; [congruence|]. now rewrite IH. Qed.
Lemma step_legal rd w op w' r : pool_step rd w op = Ok (w', r) -> legal (alive_of w) op /\ alive_of w' = alive_after (alive_of w) op.
Proof.
  destruct op; cbn [pool_step legal alive_after]; intros H.
  - inversion H; subst. split; [exact I|]. unfold alive_of. cbn. now rewrite map_app.
  - apply obind_ok in H as (v & Hv & H). apply obind_ok in H as ([[[? v'] ?] ?] & _ & H). injection H as <- <-. apply alive_get in Hv. split; [exact Hv|]. unfold alive_of. cbn [w_pools]. rewrite map_put. now apply put_same.
  - apply obind_ok in H as (v & Hv & H). apply obind_ok in H as (o & Ho & H). destruct (Nat.eqb_spec i j); [discriminate H|]. destruct (Pool_Merge rd v o) as [[? ?] ?]. injection H as <- <-.
    apply alive_get in Hv, Ho. split; [auto|]. unfold alive_of in *. cbn [w_pools]. rewrite !map_put. cbn [is_pool]. rewrite (put_same true _ _ Hv). now apply put_same.
  - apply obind_ok in H as (v & Hv & H). destruct (Pool_Clear rd v) as [? ?]. injection H as <- <-. apply alive_get in Hv. split; [exact Hv|]. unfold alive_of. cbn [w_pools]. rewrite map_put. now apply put_same.
  - apply obind_ok in H as (v & Hv & H). injection H as <- <-. apply alive_get in Hv. split; [exact Hv|]. unfold alive_of in *. cbn [w_pools]. rewrite map_app, map_put. cbn [is_pool map]. now rewrite (put_same true _ _ Hv).
  - apply obind_ok in H as (v & Hv & H). apply obind_ok in H as (o & Ho & H). destruct (Nat.eqb_spec i j); [discriminate H|]. injection H as <- <-.
    apply alive_get in Hv, Ho. split; [auto|]. unfold alive_of in *. cbn [w_pools]. rewrite !map_put. cbn [is_pool]. rewrite (put_same true _ _ Hv). now apply put_same.
  - apply obind_ok in H as (v & Hv & H). injection H as <- <-. apply alive_get in Hv. split; [exact Hv|]. unfold alive_of. cbn [w_pools]. now rewrite map_put.
Qed.
Lemma run_legal rd ops : forall w w' rs, pool_run rd w ops = Ok (w', rs) -> legal_run (alive_of w) ops /\ alive_of w' = fold_left alive_after ops (alive_of w).
Proof.
  induction ops as [|op ops IH]; intros w w' rs H; cbn [pool_run legal_run fold_left] in *; [inversion H; subst; auto|].
  apply obind_ok in H as ([w1 r] & H1 & H). apply obind_ok in H as ([w2 r2] & H2 & H). injection H as <- <-.
  destruct (step_legal _ _ _ _ _ H1) as [L1 A1]. destruct (IH _ _ _ H2) as [L2 A2]. rewrite <- A1. auto.
Qed.

Lemma live_own w al own h x : inv w al own h -> (h_live h x = true <-> exists i, own x = Some i).
Proof.
  intros I. split.
  - intros Hl. destruct (i_heap_only _ _ _ _ I (fst x) (i_live_only _ _ _ _ I x Hl)) as (i & b & Hin & Hb). exists i. apply (i_own _ _ _ _ I). exists b. split; [exact Hin|]. split; [exact Hb|].
    pose proof (i_heap _ _ _ _ I i b Hin) as Hh. unfold heap_has in Hh. rewrite Hb in Hh. destruct Hh as [_ Hk]. specialize (Hk (snd x)). rewrite <- surjective_pairing in Hk. rewrite Hl in Hk. symmetry in Hk. now apply N.ltb_lt in Hk.
  - intros (i & Ho). apply (i_own _ _ _ _ I) in Ho as (b & Hin & Hb & Ht). pose proof (i_heap _ _ _ _ I i b Hin) as Hh. unfold heap_has in Hh. rewrite Hb in Hh. destruct Hh as [_ Hk].
    rewrite (surjective_pairing x), Hk. now apply N.ltb_lt.
Qed.
Lemma live_constructed rd x : forall l h h', heap_run rd h l = Some h' -> h_live h' x = true -> h_live h x = true \/ In x (constructed l).
Proof.
  induction l as [|e l IH]; intros h h' H Hl; cbn [heap_run] in H; [inversion H; subst; auto|].
  destruct (heap_step rd h e) as [h1|] eqn:E; [|discriminate H]. destruct (IH _ _ H Hl) as [H1|H1]; [|right; unfold constructed in *; cbn [flat_map]; apply in_or_app; auto].
  destruct e as [b cap|s|s|b]; cbn [heap_step] in E; unfold constructed; cbn [flat_map app In].
  - destruct (h_buf h b); [discriminate E|]. inversion E; subst. auto.
  - destruct (h_buf h (fst s)); [|discriminate E]. destruct (_ && _); [|discriminate E]. inversion E; subst. cbn [h_live] in H1. destruct (slot_eqb_spec x s) as [->|]; auto.
  - destruct (h_live h s); [|discriminate E]. inversion E; subst. cbn [h_live] in H1. destruct (slot_eqb x s); [discriminate H1|auto].
  - destruct (h_buf h b); [|discriminate E]. destruct (_ && _); [discriminate E|]. inversion E; subst. cbn [h_live] in H1. destruct (Nat.eqb (fst x) b); [discriminate H1|auto].
Qed.

Lemma nodup_apart {A} (a b : list A) x : NoDup (a ++ b) -> In x a -> ~ In x b.
Proof. induction a as [|y a IH]; cbn; intros HN []; inversion HN; subst; [intros Hb; apply H2, in_or_app; auto|auto]. Qed.

(** A program before and after some operations on its pools; [own1] and [own2] say who owns what. *)
Lemma two_states c fuel ops s rs l s' : se_run c fuel session0 ops = Ok (s, rs) -> pooled_run (se_client s) l (se_client s') ->
  exists pre, (forall k, legal_run [] (member_run k pre) /\ fold_left alive_after (member_run k pre) [] = alive_of (k_pools (se_client s) k)) /\
    forall k, exists rs1 rs2 h1 h2 own1 own2,
      pool_run (require_destruct k) pworld0 (member_run k pre) = Ok (k_pools (se_client s) k, rs1) /\
      pool_run (require_destruct k) (k_pools (se_client s) k) (member_run k l) = Ok (k_pools (se_client s') k, rs2) /\
      own1 = own_run 0 (member_run k pre) rs1 (fun _ => None) /\
      own2 = own_run (length (w_pools (k_pools (se_client s) k))) (member_run k l) rs2 own1 /\
      heap_run (require_destruct k) heap0 (w_trace (k_pools (se_client s) k)) = Some h1 /\
      heap_run (require_destruct k) heap0 (w_trace (k_pools (se_client s') k)) = Some h2 /\
      Forall2 good_result (member_run k l) rs2 /\ NoDup (slots_returned rs2) /\
      (forall x, h_live h1 x = true <-> exists i, own1 x = Some i) /\ (forall x, h_live h2 x = true <-> exists i, own2 x = Some i) /\
      (forall x, In x (slots_returned rs2) -> h_live h1 x = false).
Proof.
  intros Hrun HP. destruct (C104_sessions_are_programs c fuel ops s rs Hrun) as (r & Hr). destruct (run_does _ _ _ _ Hr) as (ls & _ & P). set (pre := concat ls) in *.
  exists pre. assert (HL : forall k, legal_run [] (member_run k pre) /\ fold_left alive_after (member_run k pre) [] = alive_of (k_pools (se_client s) k)).
  { intros k. destruct (P k) as (r0 & H0). change (k_pools client0 k) with pworld0 in H0. destruct (run_legal _ _ _ _ _ H0) as [L A]. change (alive_of pworld0) with (@nil bool) in *. auto. }
  split; [exact HL|]. intros k. destruct (P k) as (rs1 & H1). change (k_pools client0 k) with pworld0 in H1. destruct (HP k) as (rs2 & H2). destruct (HL k) as [L1 A1]. destruct (run_legal _ _ _ _ _ H2) as [L2 A2].
  destruct (run_ok (require_destruct k) (member_run k pre) pworld0 [] (fun _ => None) heap0 inv0 eq_refl ltac:(constructor) L1) as (w1 & q1 & h1 & Hr1 & Hg1 & Hh1 & Hc1 & HN1 & I1).
  rewrite H1 in Hr1. injection Hr1 as <- <-. rewrite A1 in I1.
  destruct (run_ok (require_destruct k) (member_run k l) _ _ _ _ I1 Hh1 HN1 L2) as (w2 & q2 & h2 & Hr2 & Hg2 & Hh2 & Hc2 & HN2 & I2).
  rewrite H2 in Hr2. injection Hr2 as <- <-. unfold alive_of in I2 at 2. rewrite map_length in I2.
  eexists rs1, rs2, h1, h2, _, _. split; [exact H1|]. split; [exact H2|]. split; [reflexivity|]. split; [reflexivity|]. split; [exact Hh1|]. split; [exact Hh2|]. split; [exact Hg2|].
  rewrite Hc2 in HN2. split; [apply NoDup_app_remove_l in HN2; exact HN2|]. split; [intros x; eapply live_own; exact I1|]. split; [intros x; eapply live_own; exact I2|].
  intros x Hx. apply Bool.not_true_iff_false. intros Hl. destruct (live_constructed _ _ _ _ _ Hh1 Hl) as [X|X]; [discriminate X|].
  eapply nodup_apart; eauto.
Qed.

Lemma held_is s k h x : heap_run (require_destruct k) heap0 (w_trace (k_pools (se_client s) k)) = Some h -> (held_now s k x <-> h_live h x = true).
Proof. intros H. split; [intros (h' & H' & Hl); congruence|intros Hl; exists h; auto]. Qed.

(** ... by allocations from one pool. *)
Lemma own_allocs i x : forall n (rs : list pool_result) m own, Forall2 good_result (repeat (OpAlloc i false) n) rs ->
  length (slots_returned rs) = n /\
  (In x (slots_returned rs) -> exists j, own_run m (repeat (OpAlloc i false) n) rs own x = Some j) /\
  (~ In x (slots_returned rs) -> own_run m (repeat (OpAlloc i false) n) rs own x = own x).
Proof.
  induction n as [|n IH]; intros rs m own H; cbn [repeat] in *; inversion H as [|? r ? rs' Hg HF]; subst; [cbn; tauto|].
  destruct Hg as (s0 & ->). cbn [own_run own_step pools_after slots_returned flat_map app]. fold (slots_returned rs').
  destruct (IH rs' m (fun y => if slot_eqb y s0 then Some i else own y) HF) as (L & H1 & H2). cbn [length In]. split; [now rewrite L|].
  destruct (in_dec slot_dec x (slots_returned rs')) as [Hin|Hni]; [split; [auto|tauto]|]. rewrite (H2 Hni). destruct (slot_eqb_spec x s0) as [->|Hne].
  - split; [eauto|intros Hx; exfalso; apply Hx; now left].
  - split; [intros [->|Hx]; [congruence|contradiction]|reflexivity].
Qed.
Lemma member_allocs k i l : member_run k (map (fun k' => BpAlloc i k' false) l) = repeat (OpAlloc i false) (count_occ cls_dec l k).
Proof.
  unfold member_run. induction l as [|a l IH]; [reflexivity|]. cbn [map flat_map member_ops count_occ]. rewrite IH. rewrite app_nil_r.
  destruct (cls_dec a k) as [E1|E1], (cls_eqb_spec k a) as [E2|E2]; try congruence; reflexivity.
Qed.
Lemma allocs_gain c fuel ops s rs i l s' : se_run c fuel session0 ops = Ok (s, rs) -> pooled_run (se_client s) (map (fun k => BpAlloc i k false) l) (se_client s') -> gains s s' l.
Proof.
  intros Hrun HP. destruct (two_states _ _ _ _ _ _ _ Hrun HP) as (pre & _ & H). intros k. destruct (H k) as (rs1 & rs2 & h1 & h2 & own1 & own2 & R1 & R2 & _ & O2 & G1 & G2 & F & ND & L1 & L2 & Hn).
  rewrite member_allocs in F, O2. exists (slots_returned rs2). split; [exact ND|]. split; [apply (own_allocs i (0%nat, 0) _ _ 0 own1 F)|]. split.
  - intros x Hx Hh. rewrite (held_is _ _ _ _ G1), (Hn x Hx) in Hh. discriminate Hh.
  - intros x. rewrite (held_is _ _ _ _ G1), (held_is _ _ _ _ G2), L1, L2. destruct (own_allocs i x _ _ (length (w_pools (k_pools (se_client s) k))) own1 F) as (_ & A1 & A2). rewrite <- O2 in A1, A2.
    destruct (in_dec slot_dec x (slots_returned rs2)) as [Hin|Hni]; [tauto|]. rewrite (A2 Hni). tauto.
Qed.
Lemma gains_perm s s' l l' : Permutation l l' -> gains s s' l -> gains s s' l'.
Proof. intros HP H k. destruct (H k) as (new & H1 & H2 & H3). exists new. rewrite <- (proj1 (Permutation_count_occ cls_dec l l') HP k). auto. Qed.

Lemma pool_alive s i k : defined (cl_step (se_client s) (CPool (BpClear i))) -> nth_error (alive_of (k_pools (se_client s) k)) i = Some true.
Proof.
  intros ([w' a] & H). destruct (step_does _ _ _ _ H) as (l & Hl & HP). cbn [does] in Hl. destruct Hl as [-> _]. destruct (HP k) as (rs & Hr). rewrite member_run_one in Hr.
  destruct (run_legal _ _ _ _ _ Hr) as [HL _]. destruct k; exact (proj1 HL).
Qed.
Lemma pool_count c fuel ops s rs k : se_run c fuel session0 ops = Ok (s, rs) -> len (se_done s) < W64 ->
  length (w_pools (k_pools (se_client s) KData)) = length (w_pools (k_pools (se_client s) k)).
Proof.
  intros Hrun Hlen. destruct (C104_sessions_are_programs c fuel ops s rs Hrun) as (r & Hr). destruct (after (se_done s) _ _ Hlen Hr) as (st & srs & owns & G & t & _ & R & _).
  destruct (r_pools _ _ _ _ _ R k) as (h & I & _). destruct (r_pools _ _ _ _ _ R KData) as (h2 & I2 & _). now rewrite <- (i_len _ _ _ _ I), <- (i_len _ _ _ _ I2).
Qed.

(** One execution of the coroutines, and the delivery. *)
Lemma done_gains c fuel ops s rs i j run m r s' l : se_run c fuel session0 ops = Ok (s, rs) -> len (se_done s) < W64 ->
  defined (cl_step (se_client s) (CPool (BpClear i))) ->
  fsteps (length (w_pools (k_pools (se_client s) KData))) (FNew j) run m (FDone r) ->
  pooled_run (se_client s) (run ++ deliver i r) (se_client s') -> delivers j l -> gains s s' l.
Proof.
  intros Hrun Hlen Hi Hf HP HD. destruct (two_states _ _ _ _ _ _ _ Hrun HP) as (pre & HL & H). intros k.
  destruct (HL k) as [L0 A0]. destruct (HD k pre i (length (w_pools (k_pools (se_client s) KData))) L0) as [_ HD2].
  { rewrite A0. now apply pool_alive. } { rewrite A0. unfold alive_of. rewrite map_length. eapply pool_count; eauto. }
  destruct (HD2 _ _ _ Hf) as (rs1' & rs2' & own1' & own2' & w & h & (w1 & Q1 & Q2 & Q3 & Q4 & Q5) & Hn & Hin & Hout).
  destruct (H k) as (rs1 & rs2 & h1 & h2 & own1 & own2 & R1 & R2 & O1 & O2 & G1 & G2 & F & ND & L1 & L2 & Hnew).
  rewrite R1 in Q1. injection Q1 as <- <-. rewrite R2 in Q2. injection Q2 as <- <-. rewrite G2 in Q3. injection Q3 as <-.
  assert (E1 : own1' = own1) by congruence. assert (E2 : own2' = own2) by (rewrite O2, <- E1; exact Q5). rewrite E1, E2 in Hout. rewrite E2 in Hin. clear Q4 Q5 O1 O2 E1 E2.
  exists (slots_returned rs2). split; [exact ND|]. split; [exact Hn|]. split.
  - intros x Hx Hh. rewrite (held_is _ _ _ _ G1), (Hnew x Hx) in Hh. discriminate Hh.
  - intros x. rewrite (held_is _ _ _ _ G1), (held_is _ _ _ _ G2). destruct (in_dec slot_dec x (slots_returned rs2)) as [Hx|Hx]; [destruct (Hin x Hx); tauto|].
    rewrite L1, L2, (Hout x Hx). tauto.
Qed.
Lemma failed_gains c fuel ops s rs j run m s' : se_run c fuel session0 ops = Ok (s, rs) -> len (se_done s) < W64 ->
  fsteps (length (w_pools (k_pools (se_client s) KData))) (FNew j) run m FFail ->
  pooled_run (se_client s) run (se_client s') -> delivers_nothing j -> gains s s' [].
Proof.
  intros Hrun Hlen Hf HP HD. destruct (two_states _ _ _ _ _ _ _ Hrun HP) as (pre & HL & H). intros k.
  destruct (HL k) as [L0 A0]. destruct (HD k pre (length (w_pools (k_pools (se_client s) KData))) L0) as [_ HD2].
  { rewrite A0. unfold alive_of. rewrite map_length. eapply pool_count; eauto. }
  destruct (HD2 _ _ Hf) as (rs1' & rs2' & own1' & own2' & w & h & (w1 & Q1 & Q2 & Q3 & Q4 & Q5) & Hin & Hout).
  destruct (H k) as (rs1 & rs2 & h1 & h2 & own1 & own2 & R1 & R2 & O1 & O2 & G1 & G2 & F & ND & L1 & L2 & Hnew).
  rewrite R1 in Q1. injection Q1 as <- <-. rewrite R2 in Q2. injection Q2 as <- <-. rewrite G2 in Q3. injection Q3 as <-.
  assert (E1 : own1' = own1) by congruence. assert (E2 : own2' = own2) by (rewrite O2, <- E1; exact Q5). rewrite E1, E2 in Hout. rewrite E2 in Hin. clear Q4 Q5 O1 O2 E1 E2.
  exists []. split; [constructor|]. split; [reflexivity|]. split; [intros ? []|].
  intros x. rewrite (held_is _ _ _ _ G1), (held_is _ _ _ _ G2). destruct (in_dec slot_dec x (slots_returned rs2)) as [Hx|Hx].
  - destruct (Hin x Hx) as [_ ->]. rewrite (Hnew x Hx). cbn [In]. split; [discriminate|intros [X|[]]; discriminate X].
  - rewrite L1, L2, (Hout x Hx). cbn [In]. tauto.
Qed.
Lemma no_more_fail n l m f : fsteps n FFail l m f -> f = FFail.
Proof. intros H. remember FFail as f0 eqn:E. induction H; [reflexivity|]. specialize (IHfsteps E). subst. match goal with H : fstep _ FFail _ _ _ |- _ => inversion H end. Qed.

(** ** The theorems *)

(** C104.  A sequential parse inside a program, of whatever bytes and whether it returns
    an object or throws: no object goes away, and those that come are, class by class, the
    ones of C98. *)
Theorem C104_objects : forall c fuel ops s rs i b pr content s' x,
  se_run c fuel session0 ops = Ok (s, rs) -> se_mem s b = Some content ->
  se_step c fuel s (SLoad i b pr) = Ok (s', x) -> len (se_done s') < W64 ->
  gains s s' (Parse_allocs c fuel content b (PoolId i) pr).
Proof.
  intros c fuel ops s rs i b pr content s' x Hrun Hmem H Hlen. eapply allocs_gain; [exact Hrun|]. eapply C104_pools_of_a_load; eauto.
Qed.

(** C104 and C107.  Parsing what Serialize has written - sequentially or in parallel,
    copying or in place - adds exactly the objects of the document: one for every node, one
    for every element and entry, and the root map with its entry.  Of the objects and pools
    the coroutines have used meanwhile, none is left. *)
Theorem C107_objects : forall cs cp mem ty p o v content fuel ops s rs i b pr op s' x,
  sane cs -> sane cp -> denotes mem o v -> (pr = true -> no_custom v) ->
  Serialize cs mem ty p o = Ok content -> fits cp content -> (length content <= fuel)%nat ->
  se_run cp fuel session0 ops = Ok (s, rs) -> se_mem s b = Some content ->
  defined (cl_step (se_client s) (CPool (BpClear i))) -> op = SLoad i b pr \/ op = SLoadPara i b pr ->
  se_step cp fuel s op = Ok (s', x) -> len (se_done s') < W64 ->
  gains s s' (objects pr (VMap [(root_key, v)])).
Proof.
  intros cs cp mem ty p o v content fuel ops s rs i b pr op s' x Hcs Hcp Hd Hnc Hs Hfit Hfuel Hrun Hmem Hi Hop H Hlen.
  pose proof (done_grows _ _ _ _ _ _ H) as Hg.
  assert (HA : Permutation (Parse_allocs cp fuel content b (PoolId i) pr) (objects pr (VMap [(root_key, v)]))) by exact (C98_serialized cs cp mem ty p o v content b fuel (PoolId i) pr Hcs Hcp Hd Hnc Hs Hfit Hfuel).
  destruct Hop as [->| ->].
  - eapply gains_perm; [exact HA|]. eapply C104_objects; eauto.
  - pose proof (C107_execution _ _ _ _ _ _ _ _ _ _ _ Hrun Hmem H Hlen) as HE. destruct (Parse_job cp fuel content b pr) as [j|] eqn:Ej.
    + assert (HD : delivers j (objects pr (VMap [(root_key, v)]))) by exact (C99_serialized cs cp mem ty p o v content b fuel pr j Hcs Hcp Hd Hnc Hs Hfit Hfuel Ej).
      destruct HE as (run & m & f & Hf & Hdone & HP). destruct f as [j0|i0 j0|i0 bw fs j0|r|]; try discriminate Hdone; [eapply done_gains; eauto; lia|]. exfalso.
      (* the coroutines of such a document do not fail *)
      destruct (C104_sessions_are_programs _ _ _ _ _ Hrun) as (r0 & Hr0). destruct (run_does _ _ _ _ Hr0) as (ls & _ & P). destruct (P KData) as (q & Hq). change (k_pools client0 KData) with pworld0 in Hq.
      destruct (run_legal _ _ _ _ _ Hq) as [L A]. change (alive_of pworld0) with (@nil bool) in *.
      destruct (HD KData (concat ls) i (length (w_pools (k_pools (se_client s) KData))) L) as [HD1 _]; [rewrite <- A; now apply pool_alive|rewrite <- A; unfold alive_of; now rewrite map_length|].
      destruct (HD1 _ _ _ Hf) as (o1 & m1 & r1 & HF). apply no_more_fail in HF. discriminate HF.
    + eapply gains_perm; [exact HA|]. eapply allocs_gain; [exact Hrun|exact HE].
Qed.

(** C107.  A parallel parse that ends with an exception - of whatever bytes - leaves the
    program with exactly the objects it had. *)
Theorem C107_failed_load : forall c fuel ops s rs i b pr content s' e,
  se_run c fuel session0 ops = Ok (s, rs) -> se_mem s b = Some content -> b2n (nth 9 content x00) = 10 ->
  se_step c fuel s (SLoadPara i b pr) = Ok (s', SThrown e) -> len (se_done s') < W64 ->
  forall k x, held_now s' k x <-> held_now s k x.
Proof.
  intros c fuel ops s rs i b pr content s' e Hrun Hmem H9 H Hlen. pose proof (done_grows _ _ _ _ _ _ H) as Hg.
  assert (HG : gains s s' []).
  { pose proof (C107_execution _ _ _ _ _ _ _ _ _ _ _ Hrun Hmem H Hlen) as HE. unfold Parse_job in HE. cbn [se_step] in H. rewrite Hmem in H. unfold se_load, Coro_check in H.
    apply obind_ok in H as ([s1 r1] & H1 & H). destruct (initFromContent c fuel content b) as [sc| | | |] eqn:Hsc; try discriminate H.
    2: { unfold Parse_allocs in HE. rewrite Hsc in HE. eapply (allocs_gain _ _ _ _ _ i []); [exact Hrun|exact HE]. }
    cbn [obind] in H. rewrite (init_flag _ _ _ _ _ Hsc), H9 in H, HE. cbn [N.eqb Pos.eqb] in H, HE. destruct HE as (run0 & m & f & Hf & Hdone & HP).
    destruct (jobs_exact (doc_env c content b sc) (sc_split sc) (getter c (sc_map sc)) pr fuel) as (_ & JM & _). destruct (JM meta_size) as [J1 _].
    assert (HC : forallb clean (map_job (doc_env c content b sc) (sc_split sc) (getter c (sc_map sc)) fuel pr meta_size) = false).
    { change (cleanj (map_job (doc_env c content b sc) (sc_split sc) (getter c (sc_map sc)) fuel pr meta_size) = false). rewrite J1.
      destruct (run (getter c (sc_map sc)) (ParseMap (doc_env c content b sc) (sc_split sc) fuel pr meta_size)) as [[o0 e0]| | | |]; try reflexivity. exfalso. cbn [obind] in H.
      apply obind_ok in H as ([s2 r2] & _ & H). destruct r2 as [|a []]; discriminate H. }
    destruct f as [j0|i0 j0|i0 bw fs j0|r|]; try discriminate Hdone.
    - pose proof (fsteps_clean _ _ _ _ _ Hf) as C1. cbn [fclean] in C1. rewrite HC in C1. discriminate C1.
    - rewrite app_nil_r in HP. eapply failed_gains; eauto; [lia|]. now apply dirty_delivers. }
  intros k x. destruct (HG k) as (new & _ & Hn & _ & HI). destruct new; [|discriminate Hn]. rewrite HI. cbn. tauto.
Qed.

(** ** Met *)
(** The session of [C107_met]: the same document parsed four ways, and a damaged one. *)
Definition how_many (s : session) : list nat :=
  map (fun k => match heap_run (require_destruct k) heap0 (w_trace (k_pools (se_client s) k)) with
                | Some h => length (filter (h_live h) (constructed (w_trace (k_pools (se_client s) k)))) | None => 0%nat end) members.
Definition class_counts (l : list cls) : list nat := map (count_occ cls_dec l) members.
Definition more (a b : list nat) : list nat := map (fun p => (fst p + snd p)%nat) (combine a b).
Example C107_objects_met :
  Serialize tiny (se_mem para_s) REPLACE (PoolId 0) (para_tree 0) = Ok para_content /\
  denotes (se_mem para_s) (para_tree 0) para_value /\ no_custom para_value /\
  fits tiny para_content /\ (length para_content <= 200)%nat /\ b2n (nth 9 bad_content x00) = 10 /\
  (match cl_step (se_client bad_s) (CPool (BpClear 1)) with Ok _ => true | _ => false end) = true /\
  Forall (fun op => how_many (run_tiny bad_s [op]) = more (how_many bad_s) [3; 0; 1; 2; 2; 3; 0; 0]%nat) [SLoad 1 3 false; SLoadPara 1 3 false] /\
  Forall (fun op => how_many (run_tiny bad_s [op]) = more (how_many bad_s) [0; 3; 1; 2; 0; 0; 2; 3]%nat) [SLoad 1 3 true; SLoadPara 1 3 true] /\
  class_counts (objects false (VMap [(root_key, para_value)])) = [3; 0; 1; 2; 2; 3; 0; 0]%nat /\
  class_counts (objects true (VMap [(root_key, para_value)])) = [0; 3; 1; 2; 0; 0; 2; 3]%nat /\
  (* the damaged document: the parallel parser leaves nothing behind, the sequential one what it had made *)
  tiny_answers bad_s [SLoadPara 1 3 true; SLoadPara 1 5 false; SLoad 1 5 false] = Some [SAns (AnPtr (Some (KMapView, (3%nat, 0)))); SThrown ERuntime; SThrown ERuntime] /\
  how_many (run_tiny bad_s [SLoadPara 1 3 true; SLoadPara 1 5 false]) = [0; 3; 1; 2; 0; 0; 2; 3]%nat /\
  how_many (run_tiny bad_s [SLoadPara 1 3 true; SLoad 1 5 false]) = [3; 3; 2; 3; 2; 1; 2; 3]%nat /\
  class_counts (Parse_allocs tiny 200 bad_content 5 (PoolId 1) false) = [3; 0; 1; 1; 2; 1; 0; 0]%nat.
Proof.
  split; [vm_compute; reflexivity|].
  split; [unfold para_tree, para_value; repeat (first [ apply den_map | apply den_array | apply den_data | apply dd_num | apply Forall2_cons | apply Forall2_nil | split | reflexivity ])|].
  split; [unfold para_value; repeat (first [ apply nc_map | apply nc_arr | (apply nc_scalar; discriminate) | apply Forall_cons | apply Forall_nil ])|].
  split; [vm_compute; reflexivity|]. split; [vm_compute; lia|]. split; [vm_compute; reflexivity|]. split; [vm_compute; reflexivity|].
  split; [repeat constructor; vm_compute; reflexivity|]. split; [repeat constructor; vm_compute; reflexivity|].
  do 5 (split; [vm_compute; reflexivity|]). vm_compute. reflexivity.
Qed.
