(** * Property C106: the memory of programs.

    C31, C32 and C96 are about pools alone.  Here: whole programs, which build, edit,
    parse and serialize, and whose pools are merged, moved, cleared and destroyed. *)
From Verif Require Import Base BaseLemmas ModelVarint ModelData ModelSecondary ModelObject ModelParse ModelWrapper ModelPool ModelStorage ModelFrames
  ModelAlloc ModelClient ModelSession Spec SpecApi SpecClient ParseLemmas Samples PropPool PropPoolGrowth PropFrames ClientProofs PropClient SessionProofs PropSession.
From Coq Require Import ZifyBool ZifyNat ZifyN.
Local Open Scope out_scope.

(** ** A program is, for every class of objects, a history of pools *)

(** What a call does to the pools. *)
Definition does (op : ccall) (l : list bp_op) : Prop :=
  match op with
  | CPool o => l = [o] /\ is_alloc o = false
  | CData i v _ => l = [BpAlloc i (if v then KDataView else KData) false]
  | CCont i k | CScratch i k => l = [BpAlloc i k false]
  | CInsert _ _ _ | CAppend _ _ _ _ => exists i k, l = [BpAlloc i k false]
  | _ => l = []
  end.

Definition pooled_run (w : client) (l : list bp_op) (w' : client) : Prop :=
  forall k, exists rs, pool_run (require_destruct k) (k_pools w k) (member_run k l) = Ok (k_pools w' k, rs).

Lemma bp_members_run op ks : NoDup ks -> forall ps ps' rs, bp_members ks op ps = Ok (ps', rs) ->
  (forall k, In k ks -> exists r, pool_run (require_destruct k) (ps k) (member_ops k op) = Ok (ps' k, r)) /\ (forall k, ~ In k ks -> ps' k = ps k).
Proof.
  induction 1 as [|k ks Hk HN IH]; intros ps ps' rs H; cbn [bp_members] in H; [inversion H; subst; split; [intros ? []|auto]|].
  apply obind_ok in H as ([p r1] & H1 & H). apply obind_ok in H as ([ps1 r2] & H2 & H). inversion H; subst. destruct (IH _ _ _ H2) as [Hi Hn]. split.
  - intros k' [<-|Hin].
    + exists r1. rewrite (Hn k Hk). unfold set_pool. destruct (cls_eqb_spec k k); [exact H1|congruence].
    + destruct (Hi k' Hin) as (r & Hr). exists r. unfold set_pool in Hr. destruct (cls_eqb_spec k' k); [congruence|exact Hr].
  - intros k' Hni. rewrite Hn by (intros Hx; apply Hni; now right). unfold set_pool. destruct (cls_eqb_spec k' k) as [->|]; [|reflexivity]. exfalso. apply Hni. now left.
Qed.
Lemma member_run_one k op : member_run k [op] = member_ops k op.
Proof. unfold member_run. cbn. apply app_nil_r. Qed.
Lemma bp_do_run w op w' rs : bp_do w op = Ok (w', rs) -> pooled_run w [op] w'.
Proof.
  intros H. unfold bp_do in H. apply obind_ok in H as ([ps r] & H1 & H). inversion H; subst. intros k. rewrite member_run_one. cbn [k_pools].
  destruct (bp_members_run op members members_nodup _ _ _ H1) as [Hi _]. apply Hi, members_all.
Qed.
Lemma alloc_run w i k c w' s : alloc w i k c = Ok (w', s) -> pooled_run w [BpAlloc i k false] w'.
Proof.
  intros H. unfold alloc in H. apply obind_ok in H as ([w1 r] & H1 & H). apply bp_do_run in H1. destruct r as [|[] []]; try discriminate H. inversion H; subst. exact H1.
Qed.
Lemma store_pools w a c w' : store w a c = Ok w' -> k_pools w' = k_pools w.
Proof. unfold store. destruct (touchable w a); [|discriminate]. intros H. now inversion H. Qed.
Lemma pooled_same w l w' w2 : k_pools w2 = k_pools w' -> pooled_run w l w' -> pooled_run w l w2.
Proof. intros E H k. rewrite E. apply H. Qed.
Lemma pooled_none w w' : k_pools w' = k_pools w -> pooled_run w [] w'.
Proof. intros E k. exists []. cbn. now rewrite E. Qed.

Lemma step_does w op w' a : cl_step w op = Ok (w', a) -> exists l, does op l /\ pooled_run w l w'.
Proof.
  assert (Hcreate : forall i k c, create w i k c = Ok (w', a) -> pooled_run w [BpAlloc i k false] w').
  { intros i k c H. unfold create in H. apply obind_ok in H as ([w1 s] & H1 & H). apply alloc_run in H1. inversion H; subst. exact H1. }
  intros H. destruct op; cbn [cl_step does] in *.
  - assert (Ea : is_alloc op = false) by (destruct op; [reflexivity|discriminate H|reflexivity..]).
    assert (H' : '(w', _) <- bp_do w op ;; Ok (w', AnNone) = Ok (w', a)) by (destruct op; try exact H; discriminate Ea). apply obind_ok in H' as ([w1 r] & H1 & H'). inversion H'; subst.
    exists [op]. split; [auto|]. eapply bp_do_run; exact H1.
  - eexists. split; [reflexivity|]. eauto.
  - destruct (item_cls k); [|discriminate H]. eexists. split; [reflexivity|]. eauto.
  - apply obind_ok in H as ([w1 s] & H1 & H). inversion H; subst. eexists. split; [reflexivity|]. eapply alloc_run; exact H1.
  - apply obind_ok in H as (x & _ & H). apply obind_ok in H as (v' & _ & H). apply obind_ok in H as (w1 & H1 & H). inversion H; subst. unfold cl_Insert in H1.
    apply obind_ok in H1 as ([[[ik p] ?] ?] & _ & H1). destruct (negb _); [discriminate H1|]. apply obind_ok in H1 as ([w2 s] & H2 & H1). apply obind_ok in H1 as (w3 & H3 & H1).
    apply obind_ok in H1 as ([[[? ?] last] size] & _ & H1). apply obind_ok in H1 as (w4 & H4 & H1). exists [BpAlloc p ik false]. split; [eauto|].
    eapply pooled_same; [|eapply alloc_run; exact H2]. rewrite (store_pools _ _ _ _ H1), <- (store_pools _ _ _ _ H3).
    destruct last; [|now inversion H4]. apply obind_ok in H4 as ([[? ?] ?] & _ & H4). eapply store_pools; exact H4.
  - apply obind_ok in H as (x & _ & H). apply obind_ok in H as (v' & _ & H). apply obind_ok in H as (w1 & H1 & H). inversion H; subst. unfold cl_Append in H1.
    apply obind_ok in H1 as ([[[ik p] ?] ?] & _ & H1). destruct (negb _); [discriminate H1|]. apply obind_ok in H1 as (tl & _ & H1). apply obind_ok in H1 as ([w2 s] & H2 & H1). apply obind_ok in H1 as (w3 & H3 & H1).
    exists [BpAlloc j ik false]. split; [eauto|]. eapply pooled_same; [|eapply alloc_run; exact H2]. rewrite <- (store_pools _ _ _ _ H3).
    destruct tl as [s0|]; [|eapply store_pools; exact H1]. apply obind_ok in H1 as ([[? ?] ?] & _ & H1). apply obind_ok in H1 as (w4 & H4 & H1).
    now rewrite (store_pools _ _ _ _ H1), (store_pools _ _ _ _ H4).
  - apply obind_ok in H as (x & _ & H). apply obind_ok in H as (w1 & H1 & H). inversion H; subst. unfold cl_Clear in H1. apply obind_ok in H1 as ([[[? ?] ?] ?] & _ & H1).
    exists []. split; [reflexivity|]. apply pooled_none. eapply store_pools; exact H1.
  - apply obind_ok in H as (p0 & _ & H). apply obind_ok in H as (x & _ & H). apply obind_ok in H as ([v w1] & H1 & H). inversion H; subst. unfold cl_take in H1.
    apply obind_ok in H1 as ([[[? ?] ?] ?] & _ & H1). apply obind_ok in H1 as (p & _ & H1). exists []. split; [reflexivity|]. apply pooled_none.
    destruct p as [s|]; [|now inversion H1]. apply obind_ok in H1 as ([[? ?] ?] & _ & H1). apply obind_ok in H1 as (w2 & H2 & H1). inversion H1; subst. eapply store_pools; exact H2.
  - apply obind_ok in H as (x & _ & H). apply obind_ok in H as (y & _ & H). inversion H; subst. exists []. split; [reflexivity|]. now apply pooled_none.
  - apply obind_ok in H as (p0 & _ & H). apply obind_ok in H as (x & _ & H). apply obind_ok in H as (y & _ & H). inversion H; subst. exists []. split; [reflexivity|]. now apply pooled_none.
  - apply obind_ok in H as (p0 & _ & H). apply obind_ok in H as (x & _ & H). apply obind_ok in H as (y & _ & H). inversion H; subst. exists []. split; [reflexivity|]. now apply pooled_none.
  - apply obind_ok in H as (x & _ & H). apply obind_ok in H as (y & _ & H). inversion H; subst. exists []. split; [reflexivity|]. now apply pooled_none.
  - apply obind_ok in H as (x & _ & H). apply obind_ok in H as (y & _ & H). inversion H; subst. exists []. split; [reflexivity|]. now apply pooled_none.
  - apply obind_ok in H as (y & _ & H). apply obind_ok in H as (w1 & H1 & H). inversion H; subst. unfold cl_assign in H1. apply obind_ok in H1 as (c & _ & H1). exists []. split; [reflexivity|].
    apply pooled_none. destruct c; try discriminate H1. eapply store_pools; exact H1.
  - apply obind_ok in H as (x & _ & H). apply obind_ok in H as (y & _ & H). inversion H; subst. exists []. split; [reflexivity|]. now apply pooled_none.
Qed.

Lemma pool_run_app rd a : forall b w, pool_run rd w (a ++ b) =
  ('(w1, r1) <- pool_run rd w a ;; '(w2, r2) <- pool_run rd w1 b ;; Ok (w2, r1 ++ r2)).
Proof.
  induction a as [|op a IH]; intros b w; cbn [app pool_run].
  - cbn [obind]. destruct (pool_run rd w b) as [[? ?]| | | |]; reflexivity.
  - destruct (pool_step rd w op) as [[w1 x]| | | |]; cbn [obind]; try reflexivity. rewrite IH.
    destruct (pool_run rd w1 a) as [[w2 r2]| | | |]; cbn [obind]; try reflexivity. destruct (pool_run rd w2 b) as [[? ?]| | | |]; reflexivity.
Qed.
Lemma run_does ops : forall w w' rs, cl_run w ops = Ok (w', rs) -> exists ls, Forall2 does ops ls /\ pooled_run w (concat ls) w'.
Proof.
  induction ops as [|op ops IH]; intros w w' rs H; cbn [cl_run] in H; [inversion H; subst; exists []; split; [constructor|now apply pooled_none]|].
  apply obind_ok in H as ([w1 a] & H1 & H). apply obind_ok in H as ([w2 r] & H2 & H). inversion H; subst.
  destruct (step_does _ _ _ _ H1) as (l & Hl & P1). destruct (IH _ _ _ H2) as (ls & Hls & P2). exists (l :: ls). split; [now constructor|].
  intros k. cbn [concat]. rewrite member_run_app, pool_run_app. destruct (P1 k) as (r1 & E1). destruct (P2 k) as (r2 & E2). rewrite E1. cbn [obind]. rewrite E2. cbn [obind]. eauto.
Qed.

(** ** How much memory *)
Definition opens (op : pool_op) : N := match op with OpNew | OpMoveNew _ => 1 | _ => 0 end.
Definition ends (op : pool_op) : N := match op with OpDestroy _ => 1 | _ => 0 end.
Definition takes (op : pool_op) : N := match op with OpAlloc _ _ => 1 | _ => 0 end.

Lemma alloc_objects rd throws fresh v r v' evs e : Pool_Alloc rd throws fresh v = Ok (r, v', evs, e) -> pool_objects (Some v') <= pool_objects (Some v) + 1.
Proof.
  intros H. unfold Pool_Alloc in H. cbn [pool_objects].
  assert (HB : forall before b x cap ev, rev x = b :: before ->
    obind (Block_Alloc throws b) (fun '(r0, b', evs', e0) => Ok (r0, {| v_elems := rev (b' :: before); v_capacity := cap |}, ev ++ evs', e0)) = Ok (r, v', evs, e) ->
    sum (map b_top (v_elems v')) <= sum (map b_top x) + 1).
  { intros before b x cap ev Hx H'. apply (f_equal (@rev block)) in Hx. rewrite rev_involutive in Hx. cbn [rev] in Hx. subst x.
    apply obind_ok in H' as ([[[r1 b'] evs'] e1] & HA & H'). injection H' as <- <- <- <-. cbn [v_elems rev]. rewrite !map_app, !sum_app. cbn [map sum fold_right].
    assert (b_top b' <= b_top b + 1); [|lia]. unfold Block_Alloc in HA. destruct (Full b); [injection HA as <- <- <- <-; lia|].
    destruct (b_buf b); [|discriminate]. destruct (N.ltb_spec (b_top b) (b_cap b)); [|discriminate]. destruct throws; injection HA as <- <- <- <-; [lia|].
    cbn [b_top]. unfold u64. pose proof (N.mod_le (b_top b + 1) W64). rewrite W64_val in *. lia. }
  destruct (last_full v) eqn:HL.
  - rewrite growth_next in H. unfold Block_new in H. pose proof (growth_pos (length (v_elems v))). replace (0 <? growth (length (v_elems v))) with true in H by lia.
    set (nb := {| b_buf := Some fresh; b_top := 0; b_cap := growth (length (v_elems v)) |}) in H.
    destruct (emplace_back_ok rd v nb) as (cap & HE). rewrite HE in H. cbn [v_elems v_capacity] in H.
    destruct (rev (v_elems v ++ [nb])) as [|b before] eqn:Hr; [discriminate|]. apply HB with (x := v_elems v ++ [nb]) in H; [|exact Hr].
    rewrite map_app, sum_app in H. cbn [map sum fold_right nb b_top] in H. lia.
  - destruct (rev (v_elems v)) as [|b before] eqn:Hr; [discriminate|]. now apply HB with (x := v_elems v) in H.
Qed.

Lemma step_counts rd w op w' r : pool_step rd w op = Ok (w', r) ->
  all_pools pool_objects w' <= all_pools pool_objects w + takes op /\
  all_pools pool_alive w' + ends op = all_pools pool_alive w + opens op.
Proof.
  intros H. unfold all_pools. destruct op as [|i throws|i j|i|j|i j|i]; cbn [pool_step takes opens ends] in *.
  - injection H as <- <-. cbn [w_pools]. rewrite !map_app, !sum_app. cbn. lia.
  - apply obind_ok in H as (v & Hv & H). apply get_pool_nth in Hv. apply obind_ok in H as ([[[r1 v'] evs] e] & HA & H). injection H as <- <-. cbn [w_pools].
    apply alloc_objects in HA. pose proof (sum_put pool_objects _ _ (Some v') _ Hv). pose proof (sum_put pool_alive _ _ (Some v') _ Hv). cbn [pool_alive] in *. lia.
  - apply obind_ok in H as (v & Hv & H). apply get_pool_nth in Hv. apply obind_ok in H as (o & Ho & H). apply get_pool_nth in Ho.
    destruct (Nat.eqb_spec i j) as [|Hij]; [discriminate|]. destruct (merge_ok rd v o) as (cap & HM). rewrite HM in H. injection H as <- <-. cbn [w_pools].
    set (v' := {| v_elems := v_elems v ++ v_elems o; v_capacity := cap |}). set (o' := {| v_elems := []; v_capacity := v_capacity o |}).
    pose proof (sum_put pool_objects _ _ (Some v') _ Hv) as E1. pose proof (sum_put pool_alive _ _ (Some v') _ Hv) as A1. rewrite <- (put_other i j (Some v')) in Ho by exact Hij.
    pose proof (sum_put pool_objects _ _ (Some o') _ Ho) as E2. pose proof (sum_put pool_alive _ _ (Some o') _ Ho) as A2.
    assert (pool_objects (Some v') = pool_objects (Some v) + pool_objects (Some o)) by (cbn; now rewrite map_app, sum_app). change (pool_objects (Some o')) with 0 in E2. cbn [pool_alive] in *. lia.
  - apply obind_ok in H as (v & Hv & H). apply get_pool_nth in Hv. unfold Pool_Clear in H. injection H as <- <-. cbn [w_pools]. set (v' := {| v_elems := []; v_capacity := v_capacity v |}).
    pose proof (sum_put pool_objects _ _ (Some v') _ Hv) as E1. pose proof (sum_put pool_alive _ _ (Some v') _ Hv) as A1. change (pool_objects (Some v')) with 0 in E1. cbn [pool_alive] in *. lia.
  - apply obind_ok in H as (v & Hv & H). apply get_pool_nth in Hv. injection H as <- <-. cbn [w_pools]. rewrite !map_app, !sum_app. set (v' := {| v_elems := []; v_capacity := 0 |}).
    pose proof (sum_put pool_objects _ _ (Some v') _ Hv) as E1. pose proof (sum_put pool_alive _ _ (Some v') _ Hv) as A1. change (pool_objects (Some v')) with 0 in E1. rewrite !sum_map_cons. change (sum (map pool_objects [])) with 0. change (sum (map pool_alive [])) with 0. cbn [pool_alive] in *. lia.
  - apply obind_ok in H as (v & Hv & H). apply get_pool_nth in Hv. apply obind_ok in H as (o & Ho & H). apply get_pool_nth in Ho.
    destruct (Nat.eqb_spec i j) as [|Hij]; [discriminate|]. injection H as <- <-. cbn [w_pools]. set (o' := {| v_elems := []; v_capacity := 0 |}).
    pose proof (sum_put pool_objects _ _ (Some o) _ Hv) as E1. pose proof (sum_put pool_alive _ _ (Some o) _ Hv) as A1. rewrite <- (put_other i j (Some o)) in Ho by exact Hij.
    pose proof (sum_put pool_objects _ _ (Some o') _ Ho) as E2. pose proof (sum_put pool_alive _ _ (Some o') _ Ho) as A2. change (pool_objects (Some o')) with 0 in E2. cbn [pool_alive] in *. lia.
  - apply obind_ok in H as (v & Hv & H). apply get_pool_nth in Hv. injection H as <- <-. cbn [w_pools].
    pose proof (sum_put pool_objects _ _ None _ Hv) as E1. pose proof (sum_put pool_alive _ _ None _ Hv) as A1. cbn [pool_alive pool_objects] in *. lia.
Qed.
Definition total {A} (f : A -> N) (l : list A) : N := sum (map f l).
Lemma total_app {A} (f : A -> N) a b : total f (a ++ b) = total f a + total f b.
Proof. unfold total. rewrite map_app. apply sum_app. Qed.
Lemma total_cons {A} (f : A -> N) x l : total f (x :: l) = f x + total f l.
Proof. reflexivity. Qed.
Lemma run_counts rd ops : forall w w' rs, pool_run rd w ops = Ok (w', rs) ->
  all_pools pool_objects w' <= all_pools pool_objects w + total takes ops /\
  all_pools pool_alive w' + total ends ops = all_pools pool_alive w + total opens ops.
Proof.
  induction ops as [|op ops IH]; intros w w' rs H; cbn [pool_run] in H; [inversion H; subst; unfold total; cbn; lia|].
  apply obind_ok in H as ([w1 r] & H1 & H). apply obind_ok in H as ([w2 rs2] & H2 & H). inversion H; subst.
  apply step_counts in H1. apply IH in H2. rewrite !total_cons. lia.
Qed.

(** ** Programs *)
(** Counting calls: objects and entries made, pools opened, ended and merged. *)
Definition makes (op : ccall) : N :=
  match op with CData _ _ _ | CCont _ _ | CScratch _ _ | CInsert _ _ _ | CAppend _ _ _ _ => 1 | _ => 0 end.
Definition opens_pool (op : ccall) : N := match op with CPool BpNew | CPool (BpMove _) => 1 | _ => 0 end.
Definition ends_pool (op : ccall) : N := match op with CPool (BpDestroy _) => 1 | _ => 0 end.
Definition merges_pools (op : ccall) : N := match op with CPool (BpMerge _ _) => 1 | _ => 0 end.
(** The slots of all buffers the program's pools hold. *)
Definition slots_held (w : client) : N := total (fun k => all_pools pool_slots (k_pools w k)) members.

Lemma total_le {A} (f g : A -> N) l : (forall x, In x l -> f x <= g x) -> total f l <= total g l.
Proof. induction l as [|x l IH]; intros H; [reflexivity|]. rewrite !total_cons. specialize (IH (fun y Hy => H y (or_intror Hy))). specialize (H x (or_introl eq_refl)). lia. Qed.
Lemma total_sum {A} (f g : A -> N) l : total (fun x => f x + g x) l = total f l + total g l.
Proof. induction l as [|x l IH]; [reflexivity|]. rewrite !total_cons, IH. lia. Qed.
Lemma total_map {A B} (f : B -> N) (g : A -> B) l : total f (map g l) = total (fun x => f (g x)) l.
Proof. unfold total. now rewrite map_map. Qed.
Lemma filter_total ops : len (filter is_merge ops) = total (fun op => if is_merge op then 1 else 0) ops.
Proof. induction ops as [|op ops IH]; [reflexivity|]. cbn [filter]. rewrite total_cons. destruct (is_merge op); rewrite ?len_cons; lia. Qed.

Lemma does_counts op l : does op l ->
  (total (fun k => total takes (member_run k l)) members = makes op) /\
  (forall k, total opens (member_run k l) = opens_pool op /\ total ends (member_run k l) = ends_pool op /\
     total (fun op => if is_merge op then 1 else 0) (member_run k l) = merges_pools op).
Proof.
  assert (HA : forall i k, total (fun k' => total takes (member_run k' [BpAlloc i k false])) members = 1 /\
    forall k', total opens (member_run k' [BpAlloc i k false]) = 0 /\ total ends (member_run k' [BpAlloc i k false]) = 0 /\
      total (fun op => if is_merge op then 1 else 0) (member_run k' [BpAlloc i k false]) = 0).
  { intros i k. split; [destruct k; reflexivity|]. intros k'. destruct k, k'; repeat split; reflexivity. }
  destruct op; cbn [does makes opens_pool ends_pool merges_pools].
  - intros [-> Ho]. destruct op; try discriminate Ho; (split; [reflexivity|]; intros k; destruct k; repeat split; reflexivity).
  - intros ->. apply HA.
  - intros ->. apply HA.
  - intros ->. apply HA.
  - intros (i & k & ->). apply HA.
  - intros (i & k & ->). apply HA.
  - intros ->. split; [reflexivity|]. intros k; repeat split.
  - intros ->. split; [reflexivity|]. intros k; repeat split.
  - intros ->. split; [reflexivity|]. intros k; repeat split.
  - intros ->. split; [reflexivity|]. intros k; repeat split.
  - intros ->. split; [reflexivity|]. intros k; repeat split.
  - intros ->. split; [reflexivity|]. intros k; repeat split.
  - intros ->. split; [reflexivity|]. intros k; repeat split.
  - intros ->. split; [reflexivity|]. intros k; repeat split.
  - intros ->. split; [reflexivity|]. intros k; repeat split.
Qed.
Lemma run_does_counts ops ls : Forall2 does ops ls ->
  total (fun k => total takes (member_run k (concat ls))) members = total makes ops /\
  (forall k, total opens (member_run k (concat ls)) = total opens_pool ops /\ total ends (member_run k (concat ls)) = total ends_pool ops /\
     total (fun op => if is_merge op then 1 else 0) (member_run k (concat ls)) = total merges_pools ops).
Proof.
  induction 1 as [|op l ops ls H _ [IH1 IH2]]; [split; [reflexivity|intros k; repeat split]|]. destruct (does_counts op l H) as [D1 D2]. cbn [concat]. split.
  - rewrite total_cons, <- D1, <- IH1, <- total_sum. unfold total at 1 3. f_equal. apply map_ext. intros k. rewrite member_run_app. apply total_app.
  - intros k. specialize (IH2 k) as (Q1 & Q2 & Q3). destruct (D2 k) as (P1 & P2 & P3). rewrite !total_cons, member_run_app, !total_app. rewrite P1, P2, P3, Q1, Q2, Q3. auto.
Qed.

Lemma held ops w rs : cl_run client0 ops = Ok (w, rs) ->
  slots_held w + 81920 * total ends_pool ops <= total makes ops + 81920 * (total opens_pool ops + total merges_pools ops).
Proof.
  intros H. destruct (run_does ops _ _ _ H) as (ls & Hls & P). destruct (run_does_counts ops ls Hls) as [D1 D2].
  assert (HK : forall k, all_pools pool_slots (k_pools w k) + 10240 * total ends_pool ops <= total takes (member_run k (concat ls)) + 10240 * (total opens_pool ops + total merges_pools ops)).
  { intros k. destruct (P k) as (r & Hr). cbn [client0 k_pools] in Hr. destruct (D2 k) as (P1 & P2 & P3). pose proof (C96_any_history _ _ _ _ Hr) as B. destruct (run_counts _ _ _ _ _ Hr) as [C1 C2].
    rewrite filter_total, P3 in B. rewrite P1, P2 in C2. change (all_pools pool_objects pworld0) with 0 in C1. change (all_pools pool_alive pworld0) with 0 in C2. lia. }
  rewrite <- D1. unfold slots_held. unfold members, total at 1 3. cbn [map sum fold_right].
  pose proof (HK KData). pose proof (HK KDataView). pose proof (HK KArray). pose proof (HK KArrayItem). pose proof (HK KMap). pose proof (HK KMapItem). pose proof (HK KMapView). pose proof (HK KMapViewItem). lia.
Qed.

(** C106.  However a program builds, edits, parses and serializes, and however its pools
    are merged, moved, cleared and ended: the slots its pools hold never exceed the objects
    and entries made so far - by the program itself and by the parser, including parses
    that threw - by more than 81920 (10240 for each of the eight classes) for every pool
    that exists and every merge so far. *)
Theorem C106_bounded : forall c fuel ops s rs, se_run c fuel session0 ops = Ok (s, rs) ->
  total ends_pool (se_done s) <= total opens_pool (se_done s) /\
  slots_held (se_client s) <= total makes (se_done s) +
    81920 * (total opens_pool (se_done s) - total ends_pool (se_done s) + total merges_pools (se_done s)).
Proof.
  intros c fuel ops s rs H. destruct (C104_sessions_are_programs c fuel ops s rs H) as (r & Hr). pose proof (held _ _ _ Hr) as HH.
  assert (total ends_pool (se_done s) <= total opens_pool (se_done s)); [|lia].
  destruct (run_does _ _ _ _ Hr) as (ls & Hls & P). destruct (run_does_counts _ ls Hls) as [_ D2]. destruct (P KData) as (r2 & Hr2). destruct (D2 KData) as (P1 & P2 & _).
  destruct (run_counts _ _ _ _ _ Hr2) as [_ C2]. rewrite P1, P2 in C2. change (all_pools pool_alive (k_pools client0 KData)) with 0 in C2. lia.
Qed.

(** C106.  At every moment the history of the memory of every class of objects is a legal
    one: no buffer is freed twice, no object constructed in memory that is not there or
    over another one, no object destroyed twice, and none of a class with a destructor
    (Data, Map) goes away without it.  Once the program's pools have all ended, every
    buffer has been returned and no object is left, whatever the program did - parses that
    threw included. *)
Theorem C106_returned : forall c fuel ops s rs k, se_run c fuel session0 ops = Ok (s, rs) -> len (se_done s) + 1 < W64 ->
  exists h, heap_run (require_destruct k) heap0 (w_trace (k_pools (se_client s) k)) = Some h /\
    ((forall i, ~ defined (cl_step (se_client s) (CPool (BpClear i)))) ->
       (forall b, h_buf h b = None) /\ (forall x, h_live h x = false) /\
       (require_destruct k = true -> forall x, times x (constructed (w_trace (k_pools (se_client s) k))) = times x (destroyed (w_trace (k_pools (se_client s) k))))).
Proof.
  intros c fuel ops s rs k H Hlen. destruct (C104_sessions_are_programs c fuel ops s rs H) as (r & Hr).
  destruct (after (se_done s) _ _ ltac:(lia) Hr) as (st & srs & owns & G & t & _ & R & Ht). destruct (r_pools _ _ _ _ _ R k) as (h & I & Hh). exists h. split; [exact Hh|].
  intros Hno. assert (Hnone : forall b, h_buf h b = None).
  { intros b. destruct (h_buf h b) as [cap|] eqn:E; [|reflexivity]. exfalso.
    destruct (i_heap_only _ _ _ _ I b) as (i & blk & Hin & _); [congruence|]. unfold pool_at in Hin.
    destruct (nth_error (w_pools (k_pools (se_client s) k)) i) as [[v|]|] eqn:En; [|contradiction|contradiction].
    pose proof (proj2 (i_alive _ _ _ _ I i) (ex_intro _ v En)) as Ha. apply (Hno i).
    apply (defined_iff _ st owns G t _ R ltac:(lia)). cbn [spec_step pool_call]. unfold only, exists_pool. rewrite Ha. eexists. reflexivity. }
  assert (Hlive : forall x, h_live h x = false) by (intros x; apply Bool.not_true_iff_false; intros Hl; apply (i_live_only _ _ _ _ I x Hl), Hnone).
  split; [exact Hnone|]. split; [exact Hlive|]. intros Erd x. rewrite Erd in Hh.
  destruct (heap_counts (w_trace (k_pools (se_client s) k)) heap0 h x Hh) as [Hc _]; [discriminate|]. rewrite Hlive in Hc. cbn [h_live heap0] in Hc. lia.
Qed.

(** ** Met *)
(** The session of C104; its three pools, one of them ended already, are then ended. *)
Definition memory_rest : list scall := sample_rest ++ [SCall (CPool (BpMerge 1 2)); SCall (CPool (BpDestroy 2)); SCall (CPool (BpDestroy 1))].
Definition memory_s : session := run_or sample_s1 memory_rest.
Example C106_met :
  (exists rs, se_run x86_release 100 session0 (sample_session ++ SSave 5 NORMAL 0%nat 0%nat 3%nat :: memory_rest) = Ok (memory_s, rs)) /\
  (len (se_done memory_s) + 1 < W64) /\ (forall i, ~ defined (cl_step (se_client memory_s) (CPool (BpClear i)))) /\
  slots_held (se_client sample_s2) = 10 /\ total makes (se_done sample_s2) = 13 /\
  slots_held (se_client memory_s) = 0 /\ total opens_pool (se_done memory_s) = 3 /\ total ends_pool (se_done memory_s) = 3 /\
  length (constructed (w_trace (k_pools (se_client memory_s) KData))) = 1%nat.
Proof.
  split; [eexists; vm_compute; reflexivity|]. split; [vm_compute; reflexivity|]. split.
  { intros i (x & Hx). cbn [cl_step] in Hx. apply obind_ok in Hx as ([w1 r1] & H1 & _). unfold bp_do in H1. apply obind_ok in H1 as ([ps r2] & H1 & _). unfold members in H1. cbn [bp_members] in H1.
    apply obind_ok in H1 as ([p r3] & H1 & _). rewrite (member_one KData (BpClear i) eq_refl), pool_run_one in H1. apply obind_ok in H1 as ([p1 r4] & H1 & _). cbn [pool_of pool_step] in H1. apply obind_ok in H1 as (v & H1 & _).
    unfold get_pool in H1. replace (w_pools (k_pools (se_client memory_s) KData)) with ([None; None; None] : list (option blocks)) in H1 by (vm_compute; reflexivity). do 3 (destruct i as [|i]; [discriminate H1|]). destruct i; discriminate H1. }
  repeat split; vm_compute; reflexivity.
Qed.
