(** * Proofs about the parallel parser on the thread pool (ModelPoolParse). *)
From Verif Require Import Base BaseLemmas ModelVarint ModelData ModelSecondary ModelObject
  ModelParse ModelConcurrent PropConcurrent ModelExec PropExec ModelPoolParse.
From Coq Require Import ZifyBool ZifyNat ZifyN Wellfounded.Transitive_Closure Relations.Relation_Operators.

Fixpoint ltree_ind' (P : forall A, ltree A -> Prop)
  (H1 : forall A p, P A (LIdle p)) (H2 : forall A k p, P A (LQueued k p)) (H3 : forall A p, P A (LLost p))
  (H4 : forall A w p, P A (LRun w p)) (H5 : forall A w id f, P A (LBuild w id f))
  (H6 : forall A w a ts f, Forall (P block) ts -> P A (LFork w a ts f))
  (H7 : forall A ts f, Forall (P block) ts -> P A (LWait ts f)) (H8 : forall A r, P A (LDone r))
  A (t : ltree A) {struct t} : P A t :=
  let go := fix go (l : list (ltree block)) : Forall (P block) l :=
    match l with [] => Forall_nil _ | x :: l' => Forall_cons _ (ltree_ind' P H1 H2 H3 H4 H5 H6 H7 H8 block x) (go l') end in
  match t with
  | LIdle p => H1 A p
  | LQueued k p => H2 A k p
  | LLost p => H3 A p
  | LRun w p => H4 A w p
  | LBuild w id f => H5 A w id f
  | LFork w a ts f => H6 A w a ts f (go ts)
  | LWait ts f => H7 A ts f (go ts)
  | LDone r => H8 A r
  end.

(** ** Forgetting the pool *)
Fixpoint lforget {A} (t : ltree A) : tree A :=
  match t with
  | LIdle p | LQueued _ p | LLost p | LRun _ p => TRun p
  | LBuild _ id f => TBuild id f
  | LFork _ _ ts f | LWait ts f => TWait (map (fun x => lforget x) ts) f
  | LDone r => TRun (lift r)
  end.

Definition pweight (a : pact) : nat := match a with PIdle => 10 | PHold => 9 | PUnl => 19 | PNotify => 18 end.
Fixpoint lweight {A} (t : ltree A) : nat :=
  match t with
  | LIdle _ => 20
  | LQueued _ _ => 8
  | LLost _ => 0
  | LRun _ _ | LBuild _ _ _ => 1
  | LFork _ a ts _ => pweight a + list_sum (map (fun x => lweight x) ts)
  | LWait ts _ => list_sum (map (fun x => lweight x) ts)
  | LDone _ => 0
  end.

Definition l_done {A} (t : ltree A) : bool := match t with LDone _ => true | _ => false end.
Fixpoint sound {A} (t : ltree A) : Prop :=
  match t with
  | LFork _ a ts _ => fold_right and True (map (fun x => sound x) ts) /\ (a = PHold -> existsb is_idle ts = true)
  | LWait ts _ => fold_right and True (map (fun x => sound x) ts) /\ existsb (fun x => negb (l_done x)) ts = true /\
      forallb (fun x => negb (is_idle x)) ts = true
  | LDone r => exists p, result p = Some r
  | _ => True
  end.

Lemma sound_list (ts : list (ltree block)) : fold_right and True (map (fun x => sound x) ts) <-> Forall sound ts.
Proof. induction ts as [|x ts IH]; cbn; [split; [constructor|auto]|]. rewrite IH. split; [intros []; now constructor|intros H; inversion H; auto]. Qed.

Lemma l_done_iff (t : ltree block) : (forall r, t <> LDone r) <-> l_done t = false.
Proof. destruct t; cbn; split; try reflexivity; try congruence; intros H; try (intros; discriminate). now destruct (H r). Qed.

Lemma lstep_idle look l A sh (t : ltree A) sh' t' : lstep look l sh t sh' t' -> is_idle t = false /\ is_idle t' = false.
Proof. induction 1; cbn; auto. Qed.

Definition dropping (l : lab) : bool := match l with QDrop _ => true | _ => false end.

Lemma ex_mid {X} (f : X -> bool) l1 x y l2 : (f x = true -> f y = true) -> existsb f (l1 ++ x :: l2) = true -> existsb f (l1 ++ y :: l2) = true.
Proof. rewrite !existsb_app. cbn. destruct (f x), (f y), (existsb f l1), (existsb f l2); cbn; auto; intros H; discriminate (H eq_refl). Qed.

Lemma lstep_sound look l A sh (t : ltree A) sh' t' : lstep look l sh t sh' t' -> sound t -> sound t'.
Proof.
  induction 1 as [A k w p sh|A w id f|A w id f sh|A w id f|A w id f|A w f sh|A w p f sh|A w p q ps f sh|A w l1 p l2 f sh Hi
    |A w k l1 p l2 f sh Hi|A w l1 p l2 f sh Hi|A w ts f sh|A w ts f sh|A w ts f sh Hi Ho Hx|A w rs f sh
    |A w a l1 t l2 f l sh t' sh' St IH Hn|A l1 t l2 f l sh t' sh' St IH Hn|A v w a l1 p r l2 f sh Hr|A w l1 p r l2 f sh Hr (x & Hx & Hxn)
    |A w p rs1 r rs2 f sh Hr|A w p r sh Hr]; intros H; cbn [sound] in *; auto.
  - cbn. repeat split; auto; discriminate.
  - split; [|discriminate]. apply sound_list. apply Forall_map. apply Forall_forall. intros; exact I.
  - destruct H as [H _]. split; [exact H|]. intros _. rewrite existsb_app. cbn. now rewrite Bool.orb_true_r.
  - destruct H as [H _]. split; [|discriminate]. rewrite sound_list in *. apply Forall_app in H as [H1 H2]. inversion H2; subst.
    apply Forall_app. split; [exact H1|]. constructor; [exact I|assumption].
  - destruct H as [H _]. split; [|discriminate]. rewrite sound_list in *. apply Forall_app in H as [H1 H2]. inversion H2; subst.
    apply Forall_app. split; [exact H1|]. constructor; [exact I|assumption].
  - destruct H as [H _]. split; [exact H|discriminate].
  - destruct H as [H _]. split; [exact H|discriminate].
  - destruct H as [H _]. split; [exact H|]. split; [|exact Hi]. destruct Hx as (x & Hx & Hn). apply existsb_exists. exists x.
    apply l_done_iff in Hn. now rewrite Hn.
  - destruct H as [H Ha]. rewrite sound_list in *. apply Forall_app in H as [H1 H2]. inversion H2; subst. destruct (lstep_idle _ _ _ _ _ _ _ St) as [E1 E2].
    split; [apply Forall_app; split; auto|]. intros Hp. specialize (Ha Hp). revert Ha. apply ex_mid. congruence.
  - destruct H as [H [Ha Hb]]. rewrite sound_list in *. apply Forall_app in H as [H1 H2]. inversion H2; subst. destruct (lstep_idle _ _ _ _ _ _ _ St) as [E1 E2].
    split; [apply Forall_app; split; auto|]. apply l_done_iff in Hn. split.
    + rewrite existsb_app. cbn. rewrite Hn. cbn. now rewrite Bool.orb_true_r.
    + rewrite forallb_app in *. cbn in *. rewrite E2. rewrite E1 in Hb. exact Hb.
  - destruct H as [H Ha]. rewrite sound_list in *. apply Forall_app in H as [H1 H2]. inversion H2; subst.
    split; [apply Forall_app; split; [exact H1|constructor; [cbn; eauto|assumption]]|]. intros Hp. specialize (Ha Hp). revert Ha. now apply ex_mid.
  - destruct H as [H [Ha Hb]]. rewrite sound_list in *. apply Forall_app in H as [H1 H2]. inversion H2; subst.
    split; [apply Forall_app; split; [exact H1|constructor; [cbn; eauto|assumption]]|]. split.
    + apply existsb_exists. exists x. apply l_done_iff in Hxn. rewrite Hxn. split; [|reflexivity].
      apply in_app_or in Hx. apply in_or_app. cbn. tauto.
    + rewrite forallb_app in *. exact Hb.
  - eauto.
Qed.

Lemma finished_ldone rs : Forall (fun r => exists p : prog block, result p = Some r) rs ->
  map finished (map (fun x => lforget x) (map LDone rs)) = map Some rs.
Proof.
  induction 1 as [|r rs (p & Hp) H IH]; cbn; [reflexivity|]. rewrite IH. f_equal.
  destruct p as [b|[e| | |]| |]; cbn in Hp; try discriminate Hp; injection Hp as <-; reflexivity.
Qed.

Lemma sound_ldone rs : Forall sound (map (@LDone block) rs) -> Forall (fun r => exists p : prog block, result p = Some r) rs.
Proof. induction rs as [|r rs IH]; cbn; intros H; inversion H; subst; constructor; auto. Qed.

(** Cost of the wake-ups and of the way back into the loop that a step may cause. *)
Definition lab_cost (l : lab) : nat := match l with QTake _ _ => 6 | QNotify _ => 6 | _ => 0 end.

Lemma lstep_sim look l A sh (t : ltree A) sh' t' : lstep look l sh t sh' t' -> sound t ->
  (sh' = sh /\ lforget t' = lforget t /\ (lweight t' + lab_cost l < lweight t)%nat) \/
  (cplus look sh (lforget t) sh' (lforget t')).
Proof.
  induction 1 as [A k w p sh|A w id f|A w id f sh|A w id f|A w id f|A w f sh|A w p f sh|A w p q ps f sh|A w l1 p l2 f sh Hi
    |A w k l1 p l2 f sh Hi|A w l1 p l2 f sh Hi|A w ts f sh|A w ts f sh|A w ts f sh Hi Ho Hx|A w rs f sh
    |A w a l1 t l2 f l sh t' sh' St IH Hn|A l1 t l2 f l sh t' sh' St IH Hn|A v w a l1 p r l2 f sh Hr|A w l1 p r l2 f sh Hr Hx
    |A w p rs1 r rs2 f sh Hr|A w p r sh Hr]; intros H; cbn [lforget lweight lab_cost pweight].
  - left. repeat split. lia.
  - right. apply cp_one. constructor.
  - right. apply cp_one. constructor.
  - right. apply cp_one. constructor.
  - right. apply cp_one. constructor.
  - right. eapply cp_more; [apply cp_one; constructor|]. now apply c_join with (rs := []).
  - right. apply cp_one. constructor.
  - right. apply cp_one. rewrite map_map. constructor.
  - left. repeat split. lia.
  - left. rewrite !map_app, !list_sum_app. cbn. repeat split. lia.
  - left. rewrite !map_app, !list_sum_app. cbn. repeat split. lia.
  - left. repeat split. lia.
  - left. repeat split. lia.
  - left. repeat split. lia.
  - right. apply cp_one. apply c_join. apply finished_ldone. cbn [sound] in H. destruct H as [H _]. rewrite sound_list in H. now apply sound_ldone.
  - cbn [sound] in H. destruct H as [H _]. rewrite sound_list in H. apply Forall_app in H as [_ H]. inversion H as [|? ? Ht _]; subst.
    destruct (IH Ht) as [(-> & Hfg & Hw)|Hc].
    + left. split; [reflexivity|]. rewrite !map_app. cbn [map]. rewrite Hfg. split; [reflexivity|].
      rewrite !list_sum_app. cbn [list_sum fold_right]. lia.
    + right. rewrite !map_app. cbn [map]. now apply cplus_ctx.
  - cbn [sound] in H. destruct H as [H _]. rewrite sound_list in H. apply Forall_app in H as [_ H]. inversion H as [|? ? Ht _]; subst.
    destruct (IH Ht) as [(-> & Hfg & Hw)|Hc].
    + left. split; [reflexivity|]. rewrite !map_app. cbn [map]. rewrite Hfg. split; [reflexivity|].
      rewrite !list_sum_app. cbn [list_sum fold_right]. lia.
    + right. rewrite !map_app. cbn [map]. now apply cplus_ctx.
  - left. split; [reflexivity|]. rewrite !map_app. cbn [map lforget]. rewrite (result_lift _ _ _ Hr). split; [reflexivity|].
    rewrite !list_sum_app. cbn. lia.
  - left. split; [reflexivity|]. rewrite !map_app. cbn [map lforget]. rewrite (result_lift _ _ _ Hr). split; [reflexivity|].
    rewrite !list_sum_app. cbn. lia.
  - right. cbn [sound] in H. destruct H as [H _]. rewrite sound_list in H. apply Forall_app in H as [H1 H2]. inversion H2 as [|? ? _ H3]; subst.
    apply cp_one. apply c_join. rewrite !map_app. cbn [map lforget]. rewrite !finished_ldone by now apply sound_ldone.
    f_equal. f_equal. destruct p as [b|[e| | |]| |]; cbn in Hr; try discriminate Hr; injection Hr as <-; reflexivity.
  - left. rewrite (result_lift _ _ _ Hr). repeat split. lia.
Qed.

Lemma lcrashes_forget A (t : ltree A) : lcrashes t = true -> crashes (lforget t) = true.
Proof.
  induction t as [A p|A k p|A p|A w p|A w id f|A w a ts f IH|A ts f IH|A r] using ltree_ind'; cbn; try discriminate; auto.
  - rewrite !existsb_exists. intros (x & Hx & Hc). exists (lforget x). split; [now apply in_map with (f := fun x => lforget x)|].
    rewrite Forall_forall in IH. auto.
  - rewrite !existsb_exists. intros (x & Hx & Hc). exists (lforget x). split; [now apply in_map with (f := fun x => lforget x)|].
    rewrite Forall_forall in IH. auto.
Qed.

(** ** What the coroutines hold of the pool *)
Fixpoint qd {A} (k : nat) (t : ltree A) : nat :=
  match t with
  | LQueued k' _ => if Nat.eqb k' k then 1 else 0
  | LFork _ _ ts _ | LWait ts _ => list_sum (map (fun x => qd k x) ts)
  | _ => 0
  end.

Definition holding (a : pact) : bool := match a with PHold | PUnl => true | _ => false end.
Fixpoint hd {A} (w : nat) (t : ltree A) : nat :=
  match t with
  | LFork v a ts _ => (if Nat.eqb v w && holding a then 1 else 0) + list_sum (map (fun x => hd w x) ts)
  | LWait ts _ => list_sum (map (fun x => hd w x) ts)
  | _ => 0
  end.

Definition b2n (b : bool) : nat := if b then 1 else 0.
Definition takes (k : nat) (l : lab) : bool := match l with QTake k' _ => Nat.eqb k' k | _ => false end.
Definition stores (k : nat) (l : lab) : bool := match l with QStore _ k' => Nat.eqb k' k | _ => false end.
Definition locks (w : nat) (l : lab) : bool := match l with QLock v => Nat.eqb v w | _ => false end.
Definition unlocks (w : nat) (l : lab) : bool := match l with QUnlock v | QDrop v => Nat.eqb v w | _ => false end.
Definition lab_worker (l : lab) : nat := match l with QInt w | QTake _ w | QLock w | QStore w _ | QDrop w | QUnlock w | QNotify w => w end.

Lemma sum_zero {X} (f : X -> nat) l : (forall x, In x l -> f x = 0%nat) -> list_sum (map f l) = 0%nat.
Proof.
  induction l as [|x l IH]; intros H; [reflexivity|]. cbn [map list_sum fold_right]. rewrite (H x) by (now left).
  apply IH. intros y Hy. apply H. now right.
Qed.

Lemma lstep_counts look l A sh (t : ltree A) sh' t' : lstep look l sh t sh' t' ->
  (forall k, qd k t' + b2n (takes k l) = qd k t + b2n (stores k l))%nat /\
  (forall w, hd w t' + b2n (unlocks w l) = hd w t + b2n (locks w l))%nat.
Proof.
  induction 1 as [A k w p sh|A w id f|A w id f sh|A w id f|A w id f|A w f sh|A w p f sh|A w p q ps f sh|A w l1 p l2 f sh Hi
    |A w k l1 p l2 f sh Hi|A w l1 p l2 f sh Hi|A w ts f sh|A w ts f sh|A w ts f sh Hi Ho Hx|A w rs f sh
    |A w a l1 t l2 f l sh t' sh' St IH Hn|A l1 t l2 f l sh t' sh' St IH Hn|A v w a l1 p r l2 f sh Hr|A w l1 p r l2 f sh Hr Hx
    |A w p rs1 r rs2 f sh Hr|A w p r sh Hr]; split; intros v0; cbn [qd hd takes stores locks unlocks holding]; unfold b2n;
    rewrite ?map_app, ?list_sum_app; cbn [map list_sum fold_right qd hd]; rewrite ?Bool.andb_true_r, ?Bool.andb_false_r;
    try destruct IH as [IH1 IH2]; try specialize (IH1 v0); try specialize (IH2 v0); unfold b2n in *; try lia.
  all: try (rewrite !sum_zero; [lia| intros x Hx; rewrite map_map in *; apply in_map_iff in Hx as (? & <- & _); reflexivity..]).
  all: try (rewrite !map_map; rewrite !sum_zero by reflexivity; cbn; lia).
  all: try (rewrite map_map; rewrite sum_zero by reflexivity; lia).
Qed.

Lemma ex_app_mid {X} (f : X -> bool) l1 x l2 : existsb f (l1 ++ x :: l2) = existsb f l1 || (f x || existsb f l2).
Proof. now rewrite existsb_app. Qed.

Lemma lstep_on look l A sh (t : ltree A) sh' t' : lstep look l sh t sh' t' ->
  forall v, on v t' = true -> on v t = true \/ exists k, l = QTake k v.
Proof.
  induction 1 as [A k w p sh|A w id f|A w id f sh|A w id f|A w id f|A w f sh|A w p f sh|A w p q ps f sh|A w l1 p l2 f sh Hi
    |A w k l1 p l2 f sh Hi|A w l1 p l2 f sh Hi|A w ts f sh|A w ts f sh|A w ts f sh Hi Ho Hx|A w rs f sh
    |A w a l1 t l2 f l sh t' sh' St IH Hn|A l1 t l2 f l sh t' sh' St IH Hn|A v w a l1 p r l2 f sh Hr|A w l1 p r l2 f sh Hr Hx
    |A w p rs1 r rs2 f sh Hr|A w p r sh Hr]; intros u; cbn [on]; rewrite ?ex_app_mid; cbn [on existsb]; intros H; auto.
  - right. exists k. apply Nat.eqb_eq in H. now subst.
  - left. destruct (Nat.eqb w u); [reflexivity|]. discriminate H.
  - left. destruct (Nat.eqb w u); [reflexivity|]. cbn in H. rewrite existsb_exists in H. destruct H as (x & Hx & Hc).
    apply in_map_iff in Hx as (? & <- & _). discriminate Hc.
  - left. now rewrite H, Bool.orb_true_r.
  - left. now rewrite H.
  - rewrite !Bool.orb_true_iff in *. destruct H as [H|[H|[H|H]]]; auto. destruct (IH u H) as [H'|H']; auto.
  - rewrite !Bool.orb_true_iff in *. destruct H as [H|[H|H]]; auto. destruct (IH u H) as [H'|H']; auto.
  - left. rewrite !Bool.orb_true_iff in *. cbn in H. intuition congruence.
  - left. rewrite !Bool.orb_true_iff in *. cbn in H. intuition congruence.
  - left. now rewrite H, Bool.orb_true_r.
  - discriminate H.
Qed.

Lemma hd_on A w (t : ltree A) : (1 <= hd w t)%nat -> on w t = true.
Proof.
  induction t as [A p|A k p|A p|A v p|A v id f|A v a ts f IH|A ts f IH|A r] using ltree_ind'; cbn; try lia.
  - intros H. destruct (Nat.eqb v w); [reflexivity|]. cbn in *. apply list_sum_pos in H as (l1 & x & l2 & -> & Hx).
    apply Forall_app in IH as [_ IH]. inversion IH as [|? ? IHx _]; subst. rewrite existsb_app. cbn. rewrite (IHx Hx). now rewrite Bool.orb_true_r.
  - intros H. apply list_sum_pos in H as (l1 & x & l2 & -> & Hx).
    apply Forall_app in IH as [_ IH]. inversion IH as [|? ? IHx _]; subst. rewrite existsb_app. cbn. rewrite (IHx Hx). now rewrite Bool.orb_true_r.
Qed.

(** ** Progress of the coroutines *)
Lemma first_idle (ts : list (ltree block)) : existsb is_idle ts = true ->
  exists l1 p l2, ts = l1 ++ LIdle p :: l2 /\ forallb (fun x => negb (is_idle x)) l1 = true.
Proof.
  induction ts as [|x ts IH]; cbn; [discriminate|]. destruct (is_idle x) eqn:Hx; cbn; intros H.
  - destruct x; try discriminate Hx. now exists [], p, ts.
  - destruct (IH H) as (l1 & p & l2 & -> & Hl). exists (x :: l1), p, l2. cbn. rewrite Hx. auto.
Qed.

Lemma no_idle (ts : list (ltree block)) : existsb is_idle ts = false -> forallb (fun x => negb (is_idle x)) ts = true.
Proof. induction ts as [|x ts IH]; cbn; [auto|]. destruct (is_idle x); [discriminate|auto]. Qed.

Lemma all_ldone (l : list (ltree block)) : existsb (fun x => negb (l_done x)) l = false -> exists rs, l = map LDone rs.
Proof.
  induction l as [|x l IH]; cbn; intros H; [now exists []|]. apply Bool.orb_false_iff in H as [H1 H2].
  destruct x; try discriminate H1. destruct (IH H2) as (rs & ->). now exists (r :: rs).
Qed.

Definition good_lab (w k : nat) (l : lab) : Prop := l = QInt w \/ l = QLock w \/ l = QStore w k \/ l = QUnlock w \/ l = QNotify w.

Lemma split_child {X} (f : X -> bool) (l : list X) : existsb f l = true -> exists l1 x l2, l = l1 ++ x :: l2 /\ f x = true.
Proof. rewrite existsb_exists. intros (x & Hx & Hf). apply in_split in Hx as (l1 & l2 & ->). eauto. Qed.

Lemma lstep_progress look w A (t : ltree A) : on w t = true -> sound t -> lcrashes t = false ->
  (exists p r, t = LRun w p /\ result p = Some r) \/
  (forall sh k, exists l sh' t', lstep look l sh t sh' t' /\ l_done t' = false /\ good_lab w k l).
Proof.
  unfold good_lab.
  induction t as [A p|A k p|A p|A v p|A v id f|A v a ts f IH|A ts f IH|A r] using ltree_ind'; intros Ho Hs Hc; try discriminate Ho.
  - cbn in Ho. apply Nat.eqb_eq in Ho. subst v. destruct p as [b|[e| | |]|id k|ts k]; try discriminate Hc.
    + left. now exists (PRet b), (Ok b).
    + left. now exists (PFail (FThrow e)), (Throw e).
    + right. intros [| |] k0; do 3 eexists; (split; [constructor|split; [reflexivity|auto]]).
    + right. intros sh k0. destruct ts as [|p [|q ps]]; do 3 eexists; (split; [constructor|split; [reflexivity|auto]]).
  - cbn in Ho. apply Nat.eqb_eq in Ho. subst v. right. intros sh k. do 3 eexists. split; [constructor|split; [reflexivity|auto]].
  - right. intros sh k. destruct (existsb (fun x => on w x) ts) eqn:Hon.
    + apply split_child in Hon as (l1 & x & l2 & -> & Hx). apply Forall_app in IH as [_ IH]. inversion IH as [|? ? IHx _]; subst.
      cbn [lcrashes] in Hc. rewrite existsb_app in Hc. cbn [existsb] in Hc. apply Bool.orb_false_iff in Hc as [_ Hc].
      apply Bool.orb_false_iff in Hc as [Hc _]. destruct Hs as [Hs _]. rewrite sound_list in Hs. apply Forall_app in Hs as [_ Hs]. inversion Hs; subst.
      destruct IHx as [(p & r & -> & Hp)|Hst]; auto.
      * do 3 eexists. split; [apply l_report_fork; exact Hp|]. split; [reflexivity|auto].
      * destruct (Hst sh k) as (l & sh' & t' & St & Hd & Hg). exists l, sh', (LFork v a (l1 ++ t' :: l2) f). split; [|split; [reflexivity|exact Hg]].
        apply l_task_fork; [exact St|]. now apply l_done_iff.
    + cbn in Ho. rewrite Hon in Ho. rewrite Bool.orb_false_r in Ho. apply Nat.eqb_eq in Ho. subst v. destruct a.
      * destruct (existsb is_idle ts) eqn:Hi.
        -- apply first_idle in Hi as (l1 & p & l2 & -> & Hl). do 3 eexists. split; [apply l_lock; exact Hl|]. split; [reflexivity|auto].
        -- destruct (existsb (fun x => negb (l_done x)) ts) eqn:Hd.
           ++ do 3 eexists. split; [apply l_suspend; [now apply no_idle|exact Hon|]|]; [|split; [reflexivity|auto]].
              apply existsb_exists in Hd as (x & Hx & Hd). exists x. split; [exact Hx|]. apply l_done_iff. now destruct (l_done x).
           ++ apply all_ldone in Hd as (rs & ->). do 3 eexists. split; [apply l_through|]. split; [reflexivity|auto].
      * destruct Hs as [_ Hs]. apply first_idle in Hs as (l1 & p & l2 & -> & Hl); [|reflexivity].
        do 3 eexists. split; [apply l_store with (k := k); exact Hl|]. split; [reflexivity|auto].
      * do 3 eexists. split; [apply l_unlock|]. split; [reflexivity|auto].
      * do 3 eexists. split; [apply l_notify|]. split; [reflexivity|auto 6].
  - right. intros sh k. cbn in Ho.
    apply split_child in Ho as (l1 & x & l2 & -> & Hx). apply Forall_app in IH as [_ IH]. inversion IH as [|? ? IHx _]; subst.
    cbn [lcrashes] in Hc. rewrite existsb_app in Hc. cbn [existsb] in Hc. apply Bool.orb_false_iff in Hc as [_ Hc].
    apply Bool.orb_false_iff in Hc as [Hc _]. destruct Hs as [Hs _]. rewrite sound_list in Hs. apply Forall_app in Hs as [_ Hs]. inversion Hs; subst.
    destruct IHx as [(p & r & -> & Hp)|Hst]; auto.
    + destruct (existsb (fun x => negb (l_done x)) (l1 ++ l2)) eqn:He.
      * apply existsb_exists in He as (y & Hy & Hyn). do 3 eexists. split; [apply l_report; [exact Hp|]|]; [|split; [reflexivity|auto]].
        exists y. split; [exact Hy|]. apply l_done_iff. now destruct (l_done y).
      * rewrite existsb_app in He. apply Bool.orb_false_iff in He as [He1 He2].
        apply all_ldone in He1 as (rs1 & ->). apply all_ldone in He2 as (rs2 & ->).
        do 3 eexists. split; [apply l_last; exact Hp|]. split; [reflexivity|auto].
    + destruct (Hst sh k) as (l & sh' & t' & St & Hd & Hg). exists l, sh', (LWait (l1 ++ t' :: l2) f). split; [|split; [reflexivity|exact Hg]].
      apply l_task; [exact St|]. now apply l_done_iff.
Qed.

Lemma holder_progress look w A (t : ltree A) : (1 <= hd w t)%nat -> sound t ->
  forall sh k, exists l t', lstep look l sh t sh t' /\ l_done t' = false /\ (l = QStore w k \/ l = QUnlock w).
Proof.
  induction t as [A p|A kq p|A p|A v p|A v id f|A v a ts f IH|A ts f IH|A r] using ltree_ind'; intros Hh Hs sh k; cbn in Hh; try lia.
  - destruct (Nat.eqb v w && holding a)%bool eqn:Hva.
    + apply Bool.andb_true_iff in Hva as [Hv Ha]. apply Nat.eqb_eq in Hv. subst v. destruct a; try discriminate Ha.
      * destruct Hs as [_ Hs]. apply first_idle in Hs as (l1 & p & l2 & -> & Hl); [|reflexivity].
        do 2 eexists. split; [apply l_store with (k := k); exact Hl|]. split; [reflexivity|auto].
      * do 2 eexists. split; [apply l_unlock|]. split; [reflexivity|auto].
    + cbn in Hh. apply list_sum_pos in Hh as (l1 & x & l2 & -> & Hx). apply Forall_app in IH as [_ IH]. inversion IH as [|? ? IHx _]; subst.
      destruct Hs as [Hs _]. rewrite sound_list in Hs. apply Forall_app in Hs as [_ Hs]. inversion Hs; subst.
      destruct (IHx Hx ltac:(assumption) sh k) as (l & t' & St & Hd & Hg). exists l, (LFork v a (l1 ++ t' :: l2) f). split; [|split; [reflexivity|exact Hg]].
      apply l_task_fork; [exact St|]. now apply l_done_iff.
  - apply list_sum_pos in Hh as (l1 & x & l2 & -> & Hx). apply Forall_app in IH as [_ IH]. inversion IH as [|? ? IHx _]; subst.
    destruct Hs as [Hs _]. rewrite sound_list in Hs. apply Forall_app in Hs as [_ Hs]. inversion Hs; subst.
    destruct (IHx Hx ltac:(assumption) sh k) as (l & t' & St & Hd & Hg). exists l, (LWait (l1 ++ t' :: l2) f). split; [|split; [reflexivity|exact Hg]].
    apply l_task; [exact St|]. now apply l_done_iff.
Qed.

(** A queued coroutine can be taken. *)
Lemma take_progress look k w A (t : ltree A) : (1 <= qd k t)%nat -> forall sh, exists t', lstep look (QTake k w) sh t sh t' /\ l_done t' = false.
Proof.
  induction t as [A p|A k' p|A p|A v p|A v id f|A v a ts f IH|A ts f IH|A r] using ltree_ind'; intros Hh sh; cbn in Hh; try lia.
  - destruct (Nat.eqb k' k) eqn:Hk; [|lia]. apply Nat.eqb_eq in Hk. subst. eexists. split; [constructor|reflexivity].
  - apply list_sum_pos in Hh as (l1 & x & l2 & -> & Hx). apply Forall_app in IH as [_ IH]. inversion IH as [|? ? IHx _]; subst.
    destruct (IHx Hx sh) as (t' & St & Hd). eexists. split; [apply l_task_fork; [exact St|now apply l_done_iff]|reflexivity].
  - apply list_sum_pos in Hh as (l1 & x & l2 & -> & Hx). apply Forall_app in IH as [_ IH]. inversion IH as [|? ? IHx _]; subst.
    destruct (IHx Hx sh) as (t' & St & Hd). eexists. split; [apply l_task; [exact St|now apply l_done_iff]|reflexivity].
Qed.

(** Something of an unfinished coroutine is running or queued, or was dropped. *)
Lemma live A (t : ltree A) : sound t -> l_done t = false -> is_idle t = false -> lost t = false ->
  (exists w, on w t = true) \/ exists k, (1 <= qd k t)%nat.
Proof.
  induction t as [A p|A k p|A p|A w p|A w id f|A w a ts f IH|A ts f IH|A r] using ltree_ind'; intros Hs Hd Hi Hl; cbn in *; try discriminate; try tauto.
  - right. exists k. rewrite Nat.eqb_refl. lia.
  - left. exists w. apply Nat.eqb_refl.
  - left. exists w. apply Nat.eqb_refl.
  - left. exists w. now rewrite Nat.eqb_refl.
  - destruct Hs as (Hs & He & Hf). apply split_child in He as (l1 & x & l2 & -> & Hx). rewrite sound_list in Hs.
    apply Forall_app in Hs as [_ Hs]. inversion Hs; subst. apply Forall_app in IH as [_ IH]. inversion IH as [|? ? IHx _]; subst.
    rewrite forallb_app in Hf. cbn in Hf. apply Bool.andb_true_iff in Hf as [_ Hf]. apply Bool.andb_true_iff in Hf as [Hf _].
    rewrite existsb_app in Hl. cbn in Hl. apply Bool.orb_false_iff in Hl as [_ Hl]. apply Bool.orb_false_iff in Hl as [Hl _].
    destruct IHx as [(w & Hw)|(k & Hk)]; auto; try (now destruct (l_done x)); try (now destruct (is_idle x)).
    + left. exists w. rewrite existsb_app. cbn. rewrite Hw. now rewrite Bool.orb_true_r.
    + right. exists k. rewrite list_sum_mid. lia.
Qed.

(** ** Dropped coroutines *)
Lemma lost_done rs : existsb (fun x => lost x) (map (@LDone block) rs) = false.
Proof. induction rs; cbn; auto. Qed.

Lemma lstep_lost look l A sh (t : ltree A) sh' t' : lstep look l sh t sh' t' ->
  lost t' = (lost t || dropping l)%bool.
Proof.
  induction 1 as [A k w p sh|A w id f|A w id f sh|A w id f|A w id f|A w f sh|A w p f sh|A w p q ps f sh|A w l1 p l2 f sh Hi
    |A w k l1 p l2 f sh Hi|A w l1 p l2 f sh Hi|A w ts f sh|A w ts f sh|A w ts f sh Hi Ho Hx|A w rs f sh
    |A w a l1 t l2 f l sh t' sh' St IH Hn|A l1 t l2 f l sh t' sh' St IH Hn|A v w a l1 p r l2 f sh Hr|A w l1 p r l2 f sh Hr Hx
    |A w p rs1 r rs2 f sh Hr|A w p r sh Hr]; cbn [lost dropping]; rewrite ?ex_app_mid; cbn [lost existsb]; rewrite ?lost_done, ?Bool.orb_false_r; auto.
  - induction ps as [|p0 ps IH]; cbn; auto.
  - cbn. now rewrite !Bool.orb_true_r.
  - rewrite IH. destruct (existsb (fun x => lost x) l1), (lost t), (dropping l), (existsb (fun x => lost x) l2); reflexivity.
  - rewrite IH. destruct (existsb (fun x => lost x) l1), (lost t), (dropping l), (existsb (fun x => lost x) l2); reflexivity.
Qed.

Lemma lost_not_done A (t : ltree A) : lost t = true -> l_done t = false.
Proof. now destruct t. Qed.

Lemma store_or_drop look w k A sh (t : ltree A) sh' t' : lstep look (QStore w k) sh t sh' t' ->
  exists t2, lstep look (QDrop w) sh t sh' t2 /\ l_done t2 = false.
Proof.
  intros H. remember (QStore w k) as l. induction H; try discriminate Heql.
  - injection Heql as <- <-. eexists. split; [now apply l_drop|reflexivity].
  - destruct (IHlstep Heql) as (t2 & St & Hd). eexists. split; [apply l_task_fork; [exact St|now apply l_done_iff]|reflexivity].
  - destruct (IHlstep Heql) as (t2 & St & Hd). eexists. split; [apply l_task; [exact St|now apply l_done_iff]|reflexivity].
Qed.
