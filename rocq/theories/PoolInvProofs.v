(** * The invariant of the pool with parses on it (ModelPoolParse). *)
From Verif Require Import Base BaseLemmas ModelVarint ModelData ModelSecondary ModelObject
  ModelParse ModelConcurrent PropConcurrent ModelExec PropExec ModelPoolParse PoolParseProofs.
From Coq Require Import ZifyBool ZifyNat ZifyN.

Lemma nth_upd_eq {A} i (x y : A) l : nth_error l i = Some y -> nth_error (upd i x l) i = Some x.
Proof. revert i. induction l as [|z l IH]; intros [|i] H; cbn in *; try discriminate; auto. Qed.
Lemma nth_upd_ne {A} i k (x : A) l : k <> i -> nth_error (upd i x l) k = nth_error l k.
Proof. revert i k. induction l as [|z l IH]; intros [|i] [|k] H; cbn; auto; try congruence. Qed.
Lemma nth_upd_inv {A} i k (x z y : A) l : nth_error l i = Some y -> nth_error (upd i x l) k = Some z ->
  (k = i /\ z = x) \/ (k <> i /\ nth_error l k = Some z).
Proof.
  intros Hi H. destruct (Nat.eq_dec k i) as [-> |Hne].
  - left. rewrite (nth_upd_eq _ _ _ _ Hi) in H. now injection H as <-.
  - right. now rewrite nth_upd_ne in H.
Qed.
Lemma sum_upd {A} (f : A -> nat) i x y l : nth_error l i = Some x ->
  (list_sum (map f (upd i y l)) + f x = list_sum (map f l) + f y)%nat.
Proof.
  revert i. induction l as [|z l IH]; intros [|i] H; cbn in *; try discriminate.
  - injection H as <-. unfold list_sum. cbn. lia.
  - specialize (IH i H). unfold list_sum in *. cbn. lia.
Qed.
Lemma length_upd {A} i (x : A) l : length (upd i x l) = length l.
Proof. revert i. induction l as [|z l IH]; intros [|i]; cbn; auto. Qed.

Definition lockpc (p : wpc) : nat := match p with WTest | WSleep | WTake | WGot _ | WExiting => 1 | _ => 0 end.
Definition lockw (ws : list wpc) (w : nat) : nat := match nth_error ws w with Some p => lockpc p | None => 0 end.
Definition chold (c : cpc) : nat := match c with CPush PHold | CPush PUnl => 1 | _ => 0 end.
Definition lockc (js : list job) (i : nat) : nat := match nth_error js i with Some j => chold (j_pc j) | None => 0 end.
Definition got (k : nat) (p : wpc) : nat := match p with WGot k' => b2n (Nat.eqb k' k) | _ => 0 end.
Definition jsum (f : ltree obj -> nat) (js : list job) : nat := list_sum (map (fun j => f (j_tree j)) js).
Definition cnt (k : nat) (q : list nat) : nat := count_occ Nat.eq_dec q k.
Definition same (o o' : owner) : bool :=
  match o, o' with OWorker w, OWorker v => Nat.eqb w v | OCaller i, OCaller j => Nat.eqb i j | _, _ => false end.
Definition mine (m : option owner) (o : owner) : nat := match m with Some o' => b2n (same o' o) | None => 0 end.
Definition pc_ok (st : bool) (q : list nat) (p : wpc) : Prop :=
  match p with
  | WSleep => q = [] /\ st = false
  | WWait => st = false
  | WTake => q <> [] \/ st = true
  | WExiting | WExit => q = [] /\ st = true
  | _ => True
  end.
Definition awake (p : wpc) : bool := match p with WSleep | WWait | WExiting | WExit => false | _ => true end.
Definition pushing (c : cpc) : bool := match c with CPush PUnl | CPush PNotify => true | _ => false end.
Definition job_ok (j : job) : Prop :=
  sound (j_tree j) /\
  match j_pc j with
  | CPush PIdle | CPush PHold => is_idle (j_tree j) = true
  | CReturned => l_done (j_tree j) = true
  | _ => is_idle (j_tree j) = false
  end.
Definition up (ws : list wpc) (js : list job) : Prop :=
  (exists w p, nth_error ws w = Some p /\ awake p = true) \/ (exists i j, nth_error js i = Some j /\ pushing (j_pc j) = true).

Record qinv (s : qstate) : Prop := {
  v_n : (1 <= length (q_workers s))%nat;
  v_w : forall w, (lockw (q_workers s) w + jsum (fun t => hd w t) (q_jobs s) = mine (q_mtx s) (OWorker w))%nat;
  v_c : forall i, lockc (q_jobs s) i = mine (q_mtx s) (OCaller i);
  v_q : forall k, (jsum (fun t => qd k t) (q_jobs s) = cnt k (q_queue s) + list_sum (map (got k) (q_workers s)))%nat;
  v_on : forall i j w, nth_error (q_jobs s) i = Some j -> on w (j_tree j) = true -> nth_error (q_workers s) w = Some WBusy;
  v_pc : forall w p, nth_error (q_workers s) w = Some p -> pc_ok (q_stop s) (q_queue s) p;
  v_up : q_queue s <> [] -> up (q_workers s) (q_jobs s);
  v_j : forall i j, nth_error (q_jobs s) i = Some j -> job_ok j
}.

Lemma mine_one m o : mine m o = 1%nat -> m = Some o.
Proof.
  destruct m as [[v|v]|], o as [w|w]; cbn; try discriminate; unfold b2n; destruct (Nat.eqb v w) eqn:E; try discriminate; apply Nat.eqb_eq in E; congruence.
Qed.
Lemma mine_self o : mine (Some o) o = 1%nat.
Proof. destruct o; cbn; now rewrite Nat.eqb_refl. Qed.
Lemma mine_le m o : (mine m o <= 1)%nat.
Proof. destruct m as [[v|v]|], o as [w|w]; cbn; unfold b2n; try destruct (Nat.eqb v w); lia. Qed.
Lemma mine_other o o' : o <> o' -> mine (Some o) o' = 0%nat.
Proof. destruct o as [v|v], o' as [w|w]; cbn; intros H; try reflexivity; destruct (Nat.eqb v w) eqn:E; try reflexivity; apply Nat.eqb_eq in E; congruence. Qed.

(** ** Worker steps *)
Lemma inv_worker s w p p' q m :
  qinv s -> nth_error (q_workers s) w = Some p ->
  (p <> WBusy \/ forall i j, nth_error (q_jobs s) i = Some j -> on w (j_tree j) = false) ->
  (forall w', w' <> w -> mine m (OWorker w') = mine (q_mtx s) (OWorker w')) ->
  (lockpc p' + mine (q_mtx s) (OWorker w) = mine m (OWorker w) + lockpc p)%nat ->
  (forall i, mine m (OCaller i) = mine (q_mtx s) (OCaller i)) ->
  (forall k, cnt k q + got k p' = cnt k (q_queue s) + got k p)%nat ->
  pc_ok (q_stop s) q p' ->
  (forall w' p'', w' <> w -> nth_error (q_workers s) w' = Some p'' -> pc_ok (q_stop s) q p'') ->
  (q <> [] -> awake p' = true \/ (q_queue s <> [] /\ awake p = false)) ->
  qinv {| q_queue := q; q_stop := q_stop s; q_mtx := m; q_workers := upd w p' (q_workers s); q_jobs := q_jobs s; q_next := q_next s |}.
Proof.
  intros I Hw Hb Hm Hmw Hmc Hc Hp Hps Hup. constructor; cbn [q_queue q_stop q_mtx q_workers q_jobs q_next].
  - rewrite length_upd. apply v_n, I.
  - intros w'. pose proof (v_w s I w') as Hv. unfold lockw in *. destruct (Nat.eq_dec w' w) as [-> |Hne].
    + rewrite (nth_upd_eq _ _ _ _ Hw). rewrite Hw in Hv. lia.
    + rewrite nth_upd_ne by exact Hne. rewrite Hm by exact Hne. exact Hv.
  - intros i. rewrite Hmc. apply v_c, I.
  - intros k. pose proof (v_q s I k) as Hv. pose proof (sum_upd (got k) w p p' _ Hw) as Hs. specialize (Hc k). lia.
  - intros i j w' Hj Ho. destruct (Nat.eq_dec w' w) as [-> |Hne].
    + exfalso. destruct Hb as [Hb|Hb]; [pose proof (v_on s I _ _ _ Hj Ho) as HB; rewrite Hw in HB; congruence|]. rewrite (Hb _ _ Hj) in Ho. discriminate.
    + rewrite nth_upd_ne by exact Hne. eapply v_on; eassumption.
  - intros w' p'' Hn. destruct (nth_upd_inv _ _ _ _ _ _ Hw Hn) as [[-> ->]|[Hne Hn']]; [exact Hp|]. eapply Hps; eassumption.
  - intros Hq. destruct (Hup Hq) as [Ha|[Hq' Ha]].
    + left. exists w, p'. split; [eapply nth_upd_eq; eassumption|exact Ha].
    + destruct (v_up s I Hq') as [(w' & p'' & Hn & Ha')|Hr]; [|right; exact Hr].
      left. exists w', p''. split; [|exact Ha']. rewrite nth_upd_ne; [exact Hn|]. intros ->. rewrite Hw in Hn. congruence.
  - apply v_j, I.
Qed.

(** ** Steps of the coroutines and of the callers *)
Lemma jsum_upd f i j j' js : nth_error js i = Some j -> (jsum f (upd i j' js) + f (j_tree j) = jsum f js + f (j_tree j'))%nat.
Proof. apply (sum_upd (fun j => f (j_tree j))). Qed.

Lemma inv_job s i j j' q m ws nx :
  qinv s -> nth_error (q_jobs s) i = Some j -> job_ok j' ->
  length ws = length (q_workers s) ->
  (forall w, hd w (j_tree j') + mine (q_mtx s) (OWorker w) + lockw ws w = hd w (j_tree j) + mine m (OWorker w) + lockw (q_workers s) w)%nat ->
  chold (j_pc j') = mine m (OCaller i) ->
  (forall i', i' <> i -> mine m (OCaller i') = mine (q_mtx s) (OCaller i')) ->
  (forall k, qd k (j_tree j') + cnt k (q_queue s) + list_sum (map (got k) (q_workers s)) =
             qd k (j_tree j) + cnt k q + list_sum (map (got k) ws))%nat ->
  (forall w, on w (j_tree j') = true -> nth_error ws w = Some WBusy) ->
  (forall w, nth_error (q_workers s) w = Some WBusy -> nth_error ws w = Some WBusy) ->
  (forall w p, nth_error ws w = Some p -> pc_ok (q_stop s) q p) ->
  (q <> [] -> up ws (upd i j' (q_jobs s))) ->
  qinv {| q_queue := q; q_stop := q_stop s; q_mtx := m; q_workers := ws; q_jobs := upd i j' (q_jobs s); q_next := nx |}.
Proof.
  intros I Hj Hok Hlen Hm Hmi Hmc Hc Ho Hb Hp Hup. constructor; cbn [q_queue q_stop q_mtx q_workers q_jobs q_next]; auto.
  - rewrite Hlen. apply v_n, I.
  - intros w. pose proof (v_w s I w) as Hv. pose proof (jsum_upd (fun t => hd w t) i j j' _ Hj) as Hs. specialize (Hm w). cbn beta in Hs. lia.
  - intros i'. unfold lockc. destruct (Nat.eq_dec i' i) as [-> |Hne].
    + rewrite (nth_upd_eq _ _ _ _ Hj). exact Hmi.
    + rewrite nth_upd_ne by exact Hne. rewrite Hmc by exact Hne. apply (v_c s I i').
  - intros k. pose proof (v_q s I k) as Hv. pose proof (jsum_upd (fun t => qd k t) i j j' _ Hj) as Hs. specialize (Hc k). cbn beta in Hs. lia.
  - intros i' j'' w Hn Ho'. destruct (nth_upd_inv _ _ _ _ _ _ Hj Hn) as [[-> ->]|[Hne Hn']]; [auto|]. apply Hb. eapply v_on; eassumption.
  - intros i' j'' Hn. destruct (nth_upd_inv _ _ _ _ _ _ Hj Hn) as [[-> ->]|[Hne Hn']]; [exact Hok|]. eapply v_j; eassumption.
Qed.

Lemma lstep_store_holds look w k A sh (t : ltree A) sh' t' : lstep look (QStore w k) sh t sh' t' -> (1 <= hd w t)%nat.
Proof.
  intros H. remember (QStore w k) as l. induction H; try discriminate Heql; cbn [hd].
  - injection Heql as <- <-. rewrite Nat.eqb_refl. cbn. lia.
  - rewrite list_sum_mid. specialize (IHlstep Heql). lia.
  - rewrite list_sum_mid. specialize (IHlstep Heql). lia.
Qed.

Lemma one_holder s w : qinv s -> (1 <= lockw (q_workers s) w + jsum (fun t => hd w t) (q_jobs s))%nat -> q_mtx s = Some (OWorker w).
Proof. intros I H. apply mine_one. pose proof (v_w s I w). pose proof (mine_le (q_mtx s) (OWorker w)). lia. Qed.

Lemma caller_holder s i j : qinv s -> nth_error (q_jobs s) i = Some j -> chold (j_pc j) = 1%nat -> q_mtx s = Some (OCaller i).
Proof. intros I Hj H. apply mine_one. rewrite <- (v_c s I i). unfold lockc. now rewrite Hj. Qed.

Lemma worker_holder s w p : qinv s -> nth_error (q_workers s) w = Some p -> lockpc p = 1%nat -> q_mtx s = Some (OWorker w).
Proof. intros I Hw H. apply one_holder; [exact I|]. unfold lockw. rewrite Hw. lia. Qed.

Lemma jsum_ge f js i j : nth_error js i = Some j -> (f (j_tree j) <= jsum f js)%nat.
Proof.
  unfold jsum, list_sum. revert i. induction js as [|x js IH]; intros [|i] H; cbn in *; try discriminate.
  - injection H as ->. lia.
  - specialize (IH i H). lia.
Qed.

Lemma tree_holder s i j w : qinv s -> nth_error (q_jobs s) i = Some j -> (1 <= hd w (j_tree j))%nat -> q_mtx s = Some (OWorker w).
Proof. intros I Hj H. apply one_holder; [exact I|]. pose proof (jsum_ge (fun t => hd w t) _ _ _ Hj). cbn beta in *. lia. Qed.

(** Storing keeps the positions of the others, since only one thread holds the mutex. *)
Lemma store_pc_ok s o : qinv s -> q_stop s = false -> q_mtx s = Some o -> (forall w, o = OWorker w -> exists p, nth_error (q_workers s) w = Some p /\ lockpc p = 0%nat) ->
  forall w p, nth_error (q_workers s) w = Some p -> pc_ok (q_stop s) (q_queue s ++ [q_next s]) p.
Proof.
  intros I Hst Hm Ho w p Hn. pose proof (v_pc s I _ _ Hn) as Hp. destruct p; cbn in *; auto; try (destruct Hp; congruence).
  - pose proof (worker_holder s w WSleep I Hn eq_refl) as Hm'. rewrite Hm in Hm'. injection Hm' as ->.
    destruct (Ho w eq_refl) as (p & Hp' & Hl). rewrite Hn in Hp'. injection Hp' as <-. discriminate Hl.
  - left. intros H. destruct (q_queue s); discriminate.
Qed.

Lemma cnt_snoc k q x : cnt k (q ++ [x]) = (cnt k q + b2n (Nat.eqb x k))%nat.
Proof.
  unfold cnt. rewrite count_occ_app. cbn. destruct (Nat.eq_dec x k) as [-> |H]; [now rewrite Nat.eqb_refl|].
  apply Nat.eqb_neq in H. now rewrite H.
Qed.

Lemma notify_fields s s' : notify s s' -> q_queue s' = q_queue s /\ q_stop s' = q_stop s /\ q_mtx s' = q_mtx s /\ q_jobs s' = q_jobs s /\ q_next s' = q_next s.
Proof. intros [w H|H]; cbn; auto. Qed.

Lemma notify_workers s s' : notify s s' ->
  s' = s /\ (forall w, nth_error (q_workers s) w <> Some WWait) \/
  exists w, nth_error (q_workers s) w = Some WWait /\ q_workers s' = upd w WLock (q_workers s).
Proof. intros [w H|H]; [right|left]; eauto. Qed.

(** A notification leaves a worker awake, if something is queued. *)
Lemma notify_up s s' : qinv s -> notify s s' -> q_queue s <> [] -> exists w p, nth_error (q_workers s') w = Some p /\ awake p = true.
Proof.
  intros I HN Hq. destruct (notify_workers _ _ HN) as [(-> & Hno)|(w & Hw & Hs')].
  - pose proof (v_n s I) as Hn. destruct (nth_error (q_workers s) 0) as [p|] eqn:H0; [|apply nth_error_None in H0; lia].
    exists 0%nat, p. split; [exact H0|]. pose proof (v_pc s I _ _ H0) as Hp. destruct p; cbn in *; auto; try (destruct Hp; congruence). now destruct (Hno 0%nat).
  - exists w, WLock. rewrite Hs'. split; [eapply nth_upd_eq; exact Hw|reflexivity].
Qed.

Lemma notify_props s s' : qinv s -> notify s s' ->
  length (q_workers s') = length (q_workers s) /\ (forall w, lockw (q_workers s') w = lockw (q_workers s) w) /\
  (forall k, list_sum (map (got k) (q_workers s')) = list_sum (map (got k) (q_workers s))) /\
  (forall w, nth_error (q_workers s) w = Some WBusy -> nth_error (q_workers s') w = Some WBusy) /\
  (forall w p, nth_error (q_workers s') w = Some p -> pc_ok (q_stop s) (q_queue s) p).
Proof.
  intros I HN. destruct (notify_workers _ _ HN) as [(-> & Hno)|(v & Hv & Hs')].
  - repeat split; auto. apply I.
  - rewrite Hs'. split; [apply length_upd|]. split; [|split; [|split]].
    + intros w. unfold lockw. destruct (Nat.eq_dec w v) as [-> |Hne]; [rewrite (nth_upd_eq _ _ _ _ Hv), Hv; reflexivity|now rewrite nth_upd_ne].
    + intros k. pose proof (sum_upd (got k) v WWait WLock _ Hv) as H. cbn in H. lia.
    + intros w Hw. rewrite nth_upd_ne; [exact Hw|]. intros ->. congruence.
    + intros w p Hn. destruct (nth_upd_inv _ _ _ _ _ _ Hv Hn) as [[-> ->]|[Hne Hn']]; [exact Logic.I|]. eapply v_pc; eassumption.
Qed.

Lemma up_other ws js i j j' : nth_error js i = Some j -> up ws js -> pushing (j_pc j) = false \/ pushing (j_pc j') = true -> up ws (upd i j' js).
Proof.
  intros Hj [H|(i0 & j0 & H & Hp)] Hor; [left; exact H|]. right. destruct (Nat.eq_dec i0 i) as [-> |Hne].
  - rewrite Hj in H. injection H as <-. destruct Hor as [Hor|Hor]; [congruence|]. exists i, j'. split; [eapply nth_upd_eq; exact Hj|exact Hor].
  - exists i0, j0. split; [|exact Hp]. now rewrite nth_upd_ne.
Qed.

Lemma lockw_busy s w : nth_error (q_workers s) w = Some WBusy -> lockw (q_workers s) w = 0%nat.
Proof. intros H. unfold lockw. now rewrite H. Qed.

Lemma inv_coro s i pc look sh t l s' sh' t' : qinv s ->
  nth_error (q_jobs s) i = Some {| j_pc := pc; j_look := look; j_sh := sh; j_tree := t |} ->
  lstep look l sh t sh' t' -> effect s l s' ->
  qinv (set_j s' i {| j_pc := pc; j_look := look; j_sh := sh'; j_tree := t' |}).
Proof.
  intros I Hj St He. set (j := {| j_pc := pc; j_look := look; j_sh := sh; j_tree := t |}) in *.
  set (j' := {| j_pc := pc; j_look := look; j_sh := sh'; j_tree := t' |}).
  pose proof (v_j s I _ _ Hj) as [Hs Hpc]. cbn [j j_tree j_pc] in Hs, Hpc.
  assert (Hs' : sound t') by (eapply lstep_sound; eassumption).
  pose proof (lstep_idle _ _ _ _ _ _ _ St) as [Hi Hi'].
  destruct (lstep_counts _ _ _ _ _ _ _ St) as [Hq Hh].
  pose proof (lstep_on _ _ _ _ _ _ _ St) as Hon.
  assert (Hdone : l_done t = false) by (destruct t; try reflexivity; inversion St).
  assert (Hok : job_ok j').
  { split; [exact Hs'|]. cbn [j' j_pc j_tree]. destruct pc as [[| | |]| |]; try congruence. }
  pose proof (v_c s I i) as Hci. unfold lockc in Hci. rewrite Hj in Hci. cbn [j j_pc] in Hci.
  assert (Hup0 : up (q_workers s) (q_jobs s) -> up (q_workers s) (upd i j' (q_jobs s))).
  { intros H. apply (up_other _ _ i j j' Hj H). cbn [j j' j_pc]. destruct (pushing pc); auto. }
  assert (Hon0 : forall w, on w t = true -> nth_error (q_workers s) w = Some WBusy) by (intros w; exact (v_on s I i j w Hj)).
  unfold set_j. destruct He as [w Hw|k w Hw|w Hw Hm|w Hw Hst|w Hw Hst|w Hw|w s' Hw HN];
    cbn [q_queue q_stop q_mtx q_workers q_jobs q_next set_w set_m store] in *; cbn [takes stores locks unlocks] in Hq, Hh; unfold b2n in Hq, Hh.
  - apply (inv_job s i j j'); auto; cbn [j j' j_tree j_pc].
    + intros v. specialize (Hh v). lia.
    + intros k. specialize (Hq k). lia.
    + intros v Hv. destruct (Hon v Hv) as [H|(k & H)]; [auto|discriminate].
    + apply I.
    + intros Hqe. apply Hup0. now apply I.
  - pose proof (worker_holder s w _ I Hw eq_refl) as Hm.
    apply (inv_job s i j j'); auto; cbn [j j' j_tree j_pc].
    + apply length_upd.
    + intros v. specialize (Hh v). rewrite Hm. unfold lockw. destruct (Nat.eq_dec v w) as [-> |Hne].
      * rewrite (nth_upd_eq _ _ _ _ Hw), Hw. cbn. rewrite Nat.eqb_refl. cbn. lia.
      * rewrite nth_upd_ne by exact Hne. rewrite mine_other by congruence. cbn. lia.
    + rewrite Hci, Hm. reflexivity.
    + intros i' _. now rewrite Hm.
    + intros k0. specialize (Hq k0). pose proof (sum_upd (got k0) w (WGot k) WBusy _ Hw) as H. cbn in H. unfold b2n in H. destruct (Nat.eqb k k0); lia.
    + intros v Hv. destruct (Nat.eq_dec v w) as [-> |Hne]; [eapply nth_upd_eq; exact Hw|]. rewrite nth_upd_ne by exact Hne.
      destruct (Hon v Hv) as [H|(k0 & H)]; [auto|congruence].
    + intros v Hv. rewrite nth_upd_ne; [exact Hv|]. intros ->. congruence.
    + intros v p Hn. destruct (nth_upd_inv _ _ _ _ _ _ Hw Hn) as [[-> ->]|[Hne Hn']]; [exact Logic.I|]. eapply v_pc; eassumption.
    + intros _. left. exists w, WBusy. split; [eapply nth_upd_eq; exact Hw|reflexivity].
  - apply (inv_job s i j j'); auto; cbn [j j' j_tree j_pc].
    + intros v. specialize (Hh v). rewrite Hm. destruct (Nat.eq_dec v w) as [-> |Hne].
      * rewrite mine_self. rewrite Nat.eqb_refl in Hh. cbn [mine]. lia.
      * rewrite mine_other by congruence. cbn [mine]. apply Nat.eqb_neq in Hne. rewrite Nat.eqb_sym, Hne in Hh. lia.
    + rewrite Hci, Hm. cbn. reflexivity.
    + intros i' _. now rewrite Hm.
    + intros k. specialize (Hq k). lia.
    + intros v Hv. destruct (Hon v Hv) as [H|(k & H)]; [auto|discriminate].
    + apply I.
    + intros Hqe. apply Hup0. now apply I.
  - pose proof (tree_holder s i j w I Hj ltac:(cbn [j j_tree]; eapply lstep_store_holds; exact St)) as Hm.
    apply (inv_job s i j j'); auto; cbn [j j' j_tree j_pc].
    + intros v. specialize (Hh v). lia.
    + intros k. specialize (Hq k). rewrite cnt_snoc. unfold b2n. lia.
    + intros v Hv. destruct (Hon v Hv) as [H|(k & H)]; [auto|discriminate].
    + eapply store_pc_ok; [exact I|exact Hst|exact Hm|]. intros w' E. injection E as <-. exists WBusy. split; [exact Hw|reflexivity].
    + intros _. left. exists w, WBusy. split; [exact Hw|reflexivity].
  - assert (H1 : (1 <= hd w t)%nat) by (specialize (Hh w); rewrite Nat.eqb_refl in Hh; lia).
    pose proof (tree_holder s i j w I Hj H1) as Hm.
    apply (inv_job s i j j'); auto; cbn [j j' j_tree j_pc].
    + intros v. specialize (Hh v). rewrite Hm. destruct (Nat.eq_dec v w) as [-> |Hne].
      * rewrite mine_self. rewrite Nat.eqb_refl in Hh. cbn [mine]. lia.
      * rewrite mine_other by congruence. cbn [mine]. apply Nat.eqb_neq in Hne. rewrite Nat.eqb_sym, Hne in Hh. lia.
    + rewrite Hci, Hm. reflexivity.
    + intros i' _. now rewrite Hm.
    + intros k. specialize (Hq k). lia.
    + intros v Hv. destruct (Hon v Hv) as [H|(k & H)]; [auto|discriminate].
    + apply I.
    + intros Hqe. apply Hup0. now apply I.
  - assert (H1 : (1 <= hd w t)%nat) by (specialize (Hh w); rewrite Nat.eqb_refl in Hh; lia).
    pose proof (tree_holder s i j w I Hj H1) as Hm.
    apply (inv_job s i j j'); auto; cbn [j j' j_tree j_pc].
    + intros v. specialize (Hh v). rewrite Hm. destruct (Nat.eq_dec v w) as [-> |Hne].
      * rewrite mine_self. rewrite Nat.eqb_refl in Hh. cbn [mine]. lia.
      * rewrite mine_other by congruence. cbn [mine]. apply Nat.eqb_neq in Hne. rewrite Nat.eqb_sym, Hne in Hh. lia.
    + rewrite Hci, Hm. reflexivity.
    + intros i' _. now rewrite Hm.
    + intros k. specialize (Hq k). lia.
    + intros v Hv. destruct (Hon v Hv) as [H|(k & H)]; [auto|discriminate].
    + apply I.
    + intros Hqe. apply Hup0. now apply I.
  - destruct (notify_fields _ _ HN) as (E1 & E2 & E3 & E4 & E5). destruct (notify_props s s' I HN) as (P1 & P2 & P3 & P4 & P5).
    rewrite E1, E2, E3, E4, E5.
    apply (inv_job s i j j'); auto; cbn [j j' j_tree j_pc].
    + intros v. specialize (Hh v). rewrite P2. lia.
    + intros k. specialize (Hq k). rewrite P3. lia.
    + intros v Hv. destruct (Hon v Hv) as [H|(k & H)]; [auto|discriminate].
    + intros Hqe. left. eapply notify_up; eassumption.
Qed.

Lemma qstep_inv s b s' : qstep s b s' -> qinv s -> qinv s'.
Proof.
  intros St I. destruct St.
  - (* init *) apply (inv_worker s w WInit WLock (q_queue s) (q_mtx s)); auto; try (left; discriminate); try exact Logic.I.
    intros w' p'' _ Hn. eapply v_pc; eassumption.
  - (* lock *) apply (inv_worker s w WLock WTest (q_queue s) (Some (OWorker w))); auto; try (left; discriminate); try exact Logic.I.
    + intros w' Hne. rewrite HM, mine_other by congruence. reflexivity.
    + rewrite HM, mine_self. reflexivity.
    + intros i. now rewrite HM.
    + intros w' p'' _ Hn. eapply v_pc; eassumption.
  - (* test *) set (p' := if qready s then WTake else WSleep).
    assert (Hr : p' = WTake /\ (q_queue s <> [] \/ q_stop s = true) \/ p' = WSleep /\ q_queue s = [] /\ q_stop s = false).
    { unfold p', qready. destruct (q_stop s), (q_queue s); cbn; auto; left; split; auto; left; discriminate. }
    apply (inv_worker s w WTest p' (q_queue s) (q_mtx s)); auto; try (left; discriminate).
    + destruct Hr as [[-> _]|[-> _]]; cbn; lia.
    + intros k. destruct Hr as [[-> _]|[-> _]]; reflexivity.
    + destruct Hr as [[-> H1]|[-> H1]]; exact H1.
    + intros w' p'' _ Hn. eapply v_pc; eassumption.
    + intros Hq. left. destruct Hr as [[-> _]|[_ [H1 _]]]; [reflexivity|congruence].
  - (* sleep *) pose proof (worker_holder s w _ I H eq_refl) as Hm. pose proof (v_pc s I _ _ H) as Hq. cbn in Hq.
    apply (inv_worker s w WSleep WWait (q_queue s) None); auto; try (left; discriminate); try exact Logic.I.
    + intros w' Hne. rewrite Hm, mine_other by congruence. reflexivity.
    + rewrite Hm, mine_self. reflexivity.
    + intros i. now rewrite Hm.
    + exact (proj2 Hq).
    + intros w' p'' _ Hn. eapply v_pc; eassumption.
  - (* spurious *) apply (inv_worker s w WWait WLock (q_queue s) (q_mtx s)); auto; try (left; discriminate); try exact Logic.I.
    intros w' p'' _ Hn. eapply v_pc; eassumption.
  - (* exit *) apply (inv_worker s w WTake WExiting (q_queue s) (q_mtx s)); auto; try (left; discriminate).
    + cbn. lia.
    + now split.
    + intros w' p'' _ Hn. eapply v_pc; eassumption.
  - (* exited *) pose proof (worker_holder s w _ I H eq_refl) as Hm. pose proof (v_pc s I _ _ H) as Hq.
    apply (inv_worker s w WExiting WExit (q_queue s) None); auto; try (left; discriminate).
    + intros w' Hne. rewrite Hm, mine_other by congruence. reflexivity.
    + rewrite Hm, mine_self. reflexivity.
    + intros i. now rewrite Hm.
    + intros w' p'' _ Hn. eapply v_pc; eassumption.
  - (* pop *) pose proof (worker_holder s w _ I H eq_refl) as Hm.
    apply (inv_worker s w WTake (WGot k) q (q_mtx s)); auto; try (left; discriminate); try exact Logic.I.
    + cbn. lia.
    + intros k0. rewrite HQ. unfold cnt. cbn [count_occ got]. destruct (Nat.eq_dec k k0) as [-> |Hne]; [rewrite Nat.eqb_refl; cbn [b2n]; lia|].
      apply Nat.eqb_neq in Hne. rewrite Hne. cbn [b2n]. lia.
    + intros w' p'' Hne Hn. pose proof (v_pc s I _ _ Hn) as Hp. destruct p''; cbn in *; auto.
      * rewrite HQ in Hp. destruct Hp. discriminate.
      * pose proof (worker_holder s w' _ I Hn eq_refl) as Hm'. congruence.
      * rewrite HQ in Hp. destruct Hp. discriminate.
      * rewrite HQ in Hp. destruct Hp. discriminate.
  - (* return *) apply (inv_worker s w WBusy WLock (q_queue s) (q_mtx s)); auto; try exact Logic.I.
    + right. intros i j Hj. apply HO. eapply nth_error_In; exact Hj.
    + intros w' p'' _ Hn. eapply v_pc; eassumption.
  - eapply inv_coro; eassumption.
  - (* clock *) pose proof (v_j s I _ _ H) as [Hs Hpc]. pose proof (v_c s I i) as Hci.
    apply (inv_job s i _ {| j_pc := CPush PHold; j_look := look; j_sh := sh; j_tree := t |} (q_queue s) (Some (OCaller i)) (q_workers s) (q_next s) I H);
      cbn [j_tree j_pc] in *; auto.
    + split; assumption.
    + intros w. rewrite HM. cbn. lia.
    + now rewrite mine_self.
    + intros i' Hne. rewrite HM, mine_other by congruence. reflexivity.
    + intros w Hw. eapply v_on; [exact I|exact H|exact Hw].
    + apply I.
    + intros Hq. eapply up_other; [exact H|now apply I|now left].
  - (* cstore *) pose proof (caller_holder s i _ I H eq_refl) as Hm.
    apply (inv_job s i _ {| j_pc := CPush PUnl; j_look := look; j_sh := sh; j_tree := LQueued (q_next s) p |} (q_queue s ++ [q_next s]) (q_mtx s) (q_workers s) (S (q_next s)) I H);
      cbn [j_tree j_pc] in *; auto.
    + split; cbn; auto.
    + rewrite Hm, mine_self. reflexivity.
    + intros k. cbn [qd]. rewrite cnt_snoc. unfold b2n. lia.
    + cbn. discriminate.
    + eapply store_pc_ok; [exact I|exact HS|exact Hm|]. intros w' E. discriminate E.
    + intros _. right. exists i. eexists. split; [eapply nth_upd_eq; exact H|reflexivity].
  - (* cdrop *) pose proof (caller_holder s i _ I H eq_refl) as Hm. pose proof (v_j s I _ _ H) as [Hs Hpc].
    apply (inv_job s i _ {| j_pc := CAwait; j_look := look; j_sh := sh; j_tree := LLost p |} (q_queue s) None (q_workers s) (q_next s) I H);
      cbn [j_tree j_pc] in *; auto.
    + split; cbn; auto.
    + intros w. rewrite Hm. cbn. lia.
    + intros i' Hne. rewrite Hm, mine_other by congruence. reflexivity.
    + cbn. discriminate.
    + apply I.
    + intros Hq. eapply up_other; [exact H|now apply I|now left].
  - (* cunlock *) pose proof (caller_holder s i _ I H eq_refl) as Hm. pose proof (v_j s I _ _ H) as [Hs Hpc].
    apply (inv_job s i _ {| j_pc := CPush PNotify; j_look := look; j_sh := sh; j_tree := t |} (q_queue s) None (q_workers s) (q_next s) I H);
      cbn [j_tree j_pc] in *; auto.
    + split; assumption.
    + intros w. rewrite Hm. cbn. lia.
    + intros i' Hne. rewrite Hm, mine_other by congruence. reflexivity.
    + intros w Hw. eapply v_on; [exact I|exact H|exact Hw].
    + apply I.
    + intros Hq. right. exists i. eexists. split; [eapply nth_upd_eq; exact H|reflexivity].
  - (* cnotify *) pose proof (v_j s I _ _ H) as [Hs Hpc]. pose proof (v_c s I i) as Hci. unfold lockc in Hci. rewrite H in Hci.
    destruct (notify_fields _ _ HN) as (E1 & E2 & E3 & E4 & E5). destruct (notify_props s s' I HN) as (P1 & P2 & P3 & P4 & P5).
    unfold set_j. rewrite E1, E2, E3, E4, E5.
    apply (inv_job s i _ {| j_pc := CAwait; j_look := look; j_sh := sh; j_tree := t |} (q_queue s) (q_mtx s) (q_workers s') (q_next s) I H);
      cbn [j_tree j_pc] in *; auto.
    + split; assumption.
    + intros w Hw. apply P4. eapply v_on; [exact I|exact H|exact Hw].
    + intros Hq. left. eapply notify_up; eassumption.
  - (* creturn *) pose proof (v_j s I _ _ H) as [Hs Hpc]. pose proof (v_c s I i) as Hci. unfold lockc in Hci. rewrite H in Hci.
    apply (inv_job s i _ {| j_pc := CReturned; j_look := look; j_sh := sh; j_tree := LDone r |} (q_queue s) (q_mtx s) (q_workers s) (q_next s) I H);
      cbn [j_tree j_pc] in *; auto.
    + split; cbn; auto.
    + cbn. discriminate.
    + apply I.
    + intros Hq. eapply up_other; [exact H|now apply I|now left].
Qed.

(** ** The beginning *)
Lemma nth_repeat_inv {A} (x y : A) n i : nth_error (repeat x n) i = Some y -> y = x.
Proof. intros H. apply nth_error_In in H. now apply repeat_spec in H. Qed.

Lemma qinit_inv n st calls : (1 <= n)%nat -> qinv (qinit n st calls).
Proof.
  intros Hn. constructor; cbn [qinit q_queue q_stop q_mtx q_workers q_jobs q_next].
  - now rewrite repeat_length.
  - intros w. unfold lockw. destruct (nth_error (repeat WInit n) w) eqn:E.
    + apply nth_repeat_inv in E. subst. cbn. unfold jsum. rewrite map_map. now apply sum_zero.
    + cbn. unfold jsum. rewrite map_map. now apply sum_zero.
  - intros i. unfold lockc. rewrite nth_error_map. destruct (nth_error calls i); reflexivity.
  - intros k. unfold jsum. rewrite map_map. rewrite !sum_zero; [reflexivity| |reflexivity].
    intros x Hx. apply repeat_spec in Hx. now subst.
  - intros i j w Hj. rewrite nth_error_map in Hj. destruct (nth_error calls i); [|discriminate]. injection Hj as <-. discriminate.
  - intros w p Hp. apply nth_repeat_inv in Hp. subst. exact Logic.I.
  - congruence.
  - intros i j Hj. rewrite nth_error_map in Hj. destruct (nth_error calls i); [|discriminate]. injection Hj as <-. split; cbn; auto.
Qed.

Lemma qsteps_inv s0 s : qsteps s0 s -> qinv s0 -> qinv s.
Proof. induction 1 as [|s s1 b s2 H IH St]; intros H0; [exact H0|]. eapply qstep_inv; [exact St|auto]. Qed.

(** Stop: every worker goes on. *)
Lemma qstop_inv s s' : qstop s s' -> qinv s -> qinv s'.
Proof.
  intros (Hm & _ & ->) I. set (g := fun p => match p with WWait => WLock | _ => p end).
  assert (Hl : forall p, lockpc (g p) = lockpc p) by (intros []; reflexivity).
  assert (Hg : forall k p, got k (g p) = got k p) by (intros k []; reflexivity).
  constructor; cbn [q_queue q_stop q_mtx q_workers q_jobs q_next].
  - rewrite map_length. apply I.
  - intros w. pose proof (v_w s I w) as Hv. rewrite Hm in Hv. unfold lockw in *. rewrite nth_error_map. destruct (nth_error (q_workers s) w); cbn [option_map] in *; [rewrite Hl|]; exact Hv.
  - intros i. pose proof (v_c s I i) as Hv. now rewrite Hm in Hv.
  - intros k. rewrite (v_q s I k). f_equal. rewrite map_map. f_equal. apply map_ext. intros p. now rewrite Hg.
  - intros i j w Hj Ho. rewrite nth_error_map. now rewrite (v_on s I _ _ _ Hj Ho).
  - intros w p Hn. rewrite nth_error_map in Hn. destruct (nth_error (q_workers s) w) as [p0|] eqn:H0; [|discriminate]. injection Hn as <-.
    pose proof (v_pc s I _ _ H0) as Hp. destruct p0; cbn in *; auto; try (destruct Hp; auto; fail).
    pose proof (worker_holder s w _ I H0 eq_refl). congruence.
  - intros Hq. left. pose proof (v_n s I) as Hn. destruct (nth_error (q_workers s) 0) as [p|] eqn:H0; [|apply nth_error_None in H0; lia].
    exists 0%nat, (g p). rewrite nth_error_map, H0. split; [reflexivity|]. pose proof (v_pc s I _ _ H0) as Hp. destruct p; cbn in *; auto; try (destruct Hp; congruence).
  - apply I.
Qed.
