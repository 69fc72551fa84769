(** * Property C92: parallel parses on the thread pool, lock by lock. *)
From Verif Require Import Base BaseLemmas ModelVarint ModelData ModelSecondary ModelObject
  ModelParse ModelWrapper Spec SpecApi VarintProofs Wire NumProofs DocProofs ObjInd
  ParseLemmas NormalProofs SecondaryProofs ValueProofs ParaProofs RoundTrip GeneralProofs ApiProofs EndianProofs Samples
  PropRoundTrip ModelConcurrent PropConcurrent ModelExec PropExec PropExec2 ModelPoolParse PoolParseProofs PoolInvProofs.
From Coq Require Import ZifyBool ZifyNat ZifyN Wellfounded.Transitive_Closure Relations.Relation_Operators.

(** ** Something can always happen *)
Lemma notify_exists s : exists s', notify s s'.
Proof.
  destruct (existsb (fun p => match p with WWait => true | _ => false end) (q_workers s)) eqn:E.
  - apply existsb_exists in E as (p & Hin & Hp). apply In_nth_error in Hin as (w & Hw). destruct p; try discriminate. eexists. eapply n_one. exact Hw.
  - exists s. apply n_none. intros w Hw. apply nth_error_In in Hw.
    assert (X : existsb (fun p => match p with WWait => true | _ => false end) (q_workers s) = true) by (apply existsb_exists; eauto). congruence.
Qed.

Lemma jsum_pos f js : (1 <= jsum f js)%nat -> exists i j, nth_error js i = Some j /\ (1 <= f (j_tree j))%nat.
Proof.
  intros H. apply (list_sum_pos (fun j => f (j_tree j))) in H as (l1 & j & l2 & -> & Hj). exists (length l1), j.
  split; [|exact Hj]. rewrite nth_error_app2 by lia. now rewrite Nat.sub_diag.
Qed.

Lemma got_pos k ws : (1 <= list_sum (map (got k) ws))%nat -> exists w, nth_error ws w = Some (WGot k).
Proof.
  intros H. apply list_sum_pos in H as (l1 & p & l2 & -> & Hp). exists (length l1). rewrite nth_error_app2 by lia. rewrite Nat.sub_diag. cbn.
  destruct p; cbn in Hp; try lia. unfold b2n in Hp. destruct (Nat.eqb k0 k) eqn:E; [|lia]. apply Nat.eqb_eq in E. now subst.
Qed.

Definition sane_jobs (s : qstate) : Prop := forall i j, nth_error (q_jobs s) i = Some j -> lcrashes (j_tree j) = false.

Lemma coro_step s i j l sh' t' s' : nth_error (q_jobs s) i = Some j -> lstep (j_look j) l (j_sh j) (j_tree j) sh' t' -> effect s l s' ->
  exists s'', qstep s false s''.
Proof. destruct j as [pc look sh t]. intros H St He. eexists. eapply q_coro; eassumption. Qed.

Lemma store_moves s i j w sh' t' : nth_error (q_jobs s) i = Some j -> nth_error (q_workers s) w = Some WBusy ->
  lstep (j_look j) (QStore w (q_next s)) (j_sh j) (j_tree j) sh' t' -> exists s', qstep s false s'.
Proof.
  intros Hi Hw St. destruct (q_stop s) eqn:Hs.
  - destruct (store_or_drop _ _ _ _ _ _ _ _ St) as (t2 & St2 & _). eapply coro_step; [exact Hi|exact St2|now constructor].
  - eapply coro_step; [exact Hi|exact St|now constructor].
Qed.

Lemma worker_moves s w : qinv s -> sane_jobs s -> q_mtx s = None -> nth_error (q_workers s) w = Some WBusy -> exists s', qstep s false s'.
Proof.
  intros I Hc Hm Hw.
  destruct (existsb (fun j => on w (j_tree j)) (q_jobs s)) eqn:E.
  - apply existsb_exists in E as (j & Hin & Ho). apply In_nth_error in Hin as (i & Hi).
    destruct (lstep_progress (j_look j) w _ (j_tree j) Ho (proj1 (v_j s I _ _ Hi)) (Hc _ _ Hi)) as [(p & r & Ht & Hr)|Hst].
    + eapply (coro_step s i j (QInt w) (j_sh j) (LDone r)); [exact Hi|rewrite Ht; now constructor|now constructor].
    + destruct (Hst (j_sh j) (q_next s)) as (l & sh' & t' & St & _ & Hg).
      destruct Hg as [-> |[-> |[-> |[-> | -> ]]]].
      * eapply coro_step; [exact Hi|exact St|now constructor].
      * eapply coro_step; [exact Hi|exact St|now constructor].
      * eapply store_moves; eassumption.
      * eapply coro_step; [exact Hi|exact St|now constructor].
      * destruct (notify_exists s) as (s' & HN). eapply coro_step; [exact Hi|exact St|econstructor; eassumption].
  - eexists. eapply q_return; [exact Hw|]. intros j Hj. destruct (on w (j_tree j)) eqn:Ho; [|reflexivity].
    assert (X : existsb (fun j => on w (j_tree j)) (q_jobs s) = true) by (apply existsb_exists; eauto). congruence.
Qed.

Definition returned (j : job) : bool := match j_pc j with CReturned => true | _ => false end.

Lemma qstep_exists s : qinv s -> sane_jobs s -> (forall j, In j (q_jobs s) -> returned j = true \/ lost (j_tree j) = true) \/ exists s', qstep s false s'.
Proof.
  intros I Hc. destruct (q_mtx s) as [[w|i]|] eqn:Hm.
  - (* a worker holds the mutex *)
    right. pose proof (v_w s I w) as Hv. rewrite Hm, mine_self in Hv.
    destruct (lockw (q_workers s) w) eqn:Hl.
    + destruct (jsum_pos (fun t => hd w t) (q_jobs s)) as (i & j & Hj & Hh); [lia|].
      destruct (holder_progress (j_look j) w _ (j_tree j) Hh (proj1 (v_j s I _ _ Hj)) (j_sh j) (q_next s)) as (l & t' & St & _ & Hor).
      pose proof (v_on s I _ _ _ Hj (hd_on _ _ _ Hh)) as Hw.
      destruct Hor as [-> | -> ]; [eapply store_moves; eassumption|eapply coro_step; [exact Hj|exact St|now constructor]].
    + unfold lockw in Hl. destruct (nth_error (q_workers s) w) as [p|] eqn:Hw; [|discriminate].
      pose proof (v_pc s I _ _ Hw) as Hp. destruct p; cbn in Hl, Hp; try discriminate; try contradiction.
      * eexists. eapply q_test; exact Hw.
      * eexists. eapply q_sleep; exact Hw.
      * destruct (q_queue s) as [|k q] eqn:Hq; [|eexists; eapply q_pop; [exact Hw|exact Hq]].
        destruct Hp as [Hp|Hp]; [congruence|]. eexists. eapply q_exit; eassumption.
      * pose proof (v_q s I k) as Hk. assert (Hg : (1 <= list_sum (map (got k) (q_workers s)))%nat).
        { apply nth_error_split in Hw as (l1 & l2 & -> & _). rewrite list_sum_mid. cbn. rewrite Nat.eqb_refl. cbn. lia. }
        destruct (jsum_pos (fun t => qd k t) (q_jobs s)) as (i & j & Hj & Hd); [lia|].
        destruct (take_progress (j_look j) k w _ (j_tree j) Hd (j_sh j)) as (t' & St & _).
        eapply coro_step; [exact Hj|exact St|now constructor].
      * eexists. eapply q_exited; exact Hw.
  - (* a caller holds it *)
    right. pose proof (v_c s I i) as Hv. rewrite Hm, mine_self in Hv. unfold lockc in Hv.
    destruct (nth_error (q_jobs s) i) as [[pc look sh t]|] eqn:Hj; [|discriminate].
    pose proof (v_j s I _ _ Hj) as [Hs Hpc]. cbn [j_pc j_tree] in *. destruct pc as [[| | |]| |]; try discriminate.
    + destruct t; try discriminate. destruct (q_stop s) eqn:Hst; eexists; [eapply q_cdrop|eapply q_cstore]; eassumption.
    + eexists. eapply q_cunlock; exact Hj.
  - (* free *)
    destruct (forallb (fun j => returned j || lost (j_tree j)) (q_jobs s)) eqn:Hall.
    { left. rewrite forallb_forall in Hall. intros j Hj. specialize (Hall j Hj). now apply Bool.orb_true_iff in Hall. }
    right.
    assert (E : exists j, In j (q_jobs s) /\ (returned j || lost (j_tree j) = false)%bool).
    { clear -Hall. induction (q_jobs s) as [|j js IH]; cbn in Hall; [discriminate|]. destruct (returned j || lost (j_tree j))%bool eqn:E; [|exists j; cbn; auto].
      destruct (IH Hall) as (x & Hx & Hr). exists x. cbn; auto. }
    destruct E as (j & Hin & Hr). apply Bool.orb_false_iff in Hr as [Hr Hlo]. apply In_nth_error in Hin as (i & Hj).
    pose proof (v_j s I _ _ Hj) as [Hs Hpc]. destruct j as [pc look sh t]. unfold returned in Hr. cbn [j_pc j_tree] in *.
    assert (Hnc : forall i j, nth_error (q_jobs s) i = Some j -> chold (j_pc j) = 0%nat).
    { intros i0 j0 H0. pose proof (v_c s I i0) as Hv. unfold lockc in Hv. rewrite H0, Hm in Hv. exact Hv. }
    destruct pc as [[| | |]| |]; try discriminate.
    + eexists. eapply q_clock; [exact Hj|exact Hm].
    + specialize (Hnc _ _ Hj). discriminate.
    + specialize (Hnc _ _ Hj). discriminate.
    + destruct (notify_exists s) as (s' & HN). eexists. eapply q_cnotify; eassumption.
    + destruct (l_done t) eqn:Hd.
      * destruct t; try discriminate Hd. eexists. eapply q_creturn; exact Hj.
      * destruct (live _ t Hs Hd Hpc Hlo) as [(w & Hw)|(k & Hk)].
        -- eapply worker_moves; try eassumption. eapply v_on; [exact I|exact Hj|exact Hw].
        -- pose proof (v_q s I k) as Hv. pose proof (jsum_ge (fun t => qd k t) _ _ _ Hj) as Hge. cbn [j_tree] in Hge.
           assert (Hg : list_sum (map (got k) (q_workers s)) = 0%nat).
           { destruct (list_sum (map (got k) (q_workers s))) eqn:E; [reflexivity|].
             destruct (got_pos k (q_workers s)) as (w & Hw); [lia|]. pose proof (worker_holder s w _ I Hw eq_refl). congruence. }
           assert (Hq : q_queue s <> []). { intros Hq. rewrite Hq, Hg in Hv. cbn in Hv. lia. }
           destruct (v_up s I Hq) as [(w & p & Hw & Ha)|(i0 & [pc0 look0 sh0 t0] & H0 & Hp0)].
           ++ destruct p; try discriminate Ha.
              ** eexists. eapply q_init; exact Hw.
              ** eexists. eapply q_lock; eassumption.
              ** pose proof (worker_holder s w _ I Hw eq_refl). congruence.
              ** pose proof (worker_holder s w _ I Hw eq_refl). congruence.
              ** pose proof (worker_holder s w _ I Hw eq_refl). congruence.
              ** eapply worker_moves; eassumption.
           ++ cbn [j_pc] in Hp0. destruct pc0 as [[| | |]| |]; try discriminate.
              ** specialize (Hnc _ _ H0). discriminate.
              ** destruct (notify_exists s) as (s' & HN). eexists. eapply q_cnotify; eassumption.
Qed.

(** ** It comes to an end *)
Definition wweight (p : wpc) : nat :=
  match p with WInit => 6 | WLock => 5 | WTest => 4 | WTake => 3 | WGot _ => 2 | WSleep => 2 | WWait => 0 | WBusy => 6 | WExiting => 2 | WExit => 0 end.
Definition cweight (c : cpc) : nat :=
  match c with CPush PIdle => 13 | CPush PHold => 12 | CPush PUnl => 11 | CPush PNotify => 10 | CAwait => 1 | CReturned => 0 end.
Definition jweight (j : job) : nat := cweight (j_pc j) + lweight (j_tree j).
Definition qweight (s : qstate) : nat := list_sum (map wweight (q_workers s)) + list_sum (map jweight (q_jobs s)).
Definition key (s : qstate) : list ((N -> outcome view) * tree obj) := map (fun j => (j_look j, lforget (j_tree j))) (q_jobs s).
Definition after (x' x : (N -> outcome view) * tree obj) : Prop := fst x' = fst x /\ clos_trans _ (smaller (fst x)) (snd x') (snd x).
Definition forth (l' l : list ((N -> outcome view) * tree obj)) : Prop :=
  exists l1 x l2 x', l = l1 ++ x :: l2 /\ l' = l1 ++ x' :: l2 /\ after x' x.

Lemma map_upd {A B} (f : A -> B) i x l : map f (upd i x l) = upd i (f x) (map f l).
Proof. revert i. induction l as [|y l IH]; intros [|i]; cbn; auto. now rewrite IH. Qed.
Lemma upd_same {A} i (x : A) l : nth_error l i = Some x -> upd i x l = l.
Proof. revert i. induction l as [|y l IH]; intros [|i] H; cbn in *; try discriminate; auto; [congruence|]. now rewrite IH. Qed.
Lemma upd_split {A} i (x y : A) l : nth_error l i = Some y -> exists l1 l2, l = l1 ++ y :: l2 /\ upd i x l = l1 ++ x :: l2.
Proof.
  revert i. induction l as [|z l IH]; intros [|i] H; cbn in *; try discriminate.
  - injection H as ->. now exists [], l.
  - destruct (IH i H) as (l1 & l2 & -> & ->). now exists (z :: l1), l2.
Qed.

Lemma effect_weight s l s' : effect s l s' -> q_jobs s' = q_jobs s /\
  (list_sum (map wweight (q_workers s')) <= list_sum (map wweight (q_workers s)) + lab_cost l)%nat.
Proof.
  intros He. destruct He as [w Hw|k w Hw|w Hw Hm|w Hw Hst|w Hw Hst|w Hw|w s' Hw HN]; cbn [set_w set_m store q_jobs q_workers lab_cost]; try (split; [reflexivity|lia]).
  - split; [reflexivity|]. pose proof (sum_upd wweight w _ WBusy _ Hw) as H. cbn in H. lia.
  - destruct (notify_fields _ _ HN) as (_ & _ & _ & E & _). split; [exact E|]. destruct (notify_workers _ _ HN) as [(-> & _)|(v & Hv & ->)]; [lia|].
    pose proof (sum_upd wweight v _ WLock _ Hv) as H. cbn in H. lia.
Qed.

Lemma qstep_down s s' : qstep s false s' -> qinv s -> (key s' = key s /\ (qweight s' < qweight s)%nat) \/ forth (key s') (key s).
Proof.
  intros St I. unfold qweight, key. remember false as b. destruct St; try discriminate Heqb.
  1-4,5-8: left; split; [reflexivity|]; cbn [set_w set_m set_q q_workers q_jobs];
    match goal with H : nth_error _ ?w = Some ?p0 |- context [upd ?w ?p _] => pose proof (sum_upd wweight w p0 p _ H) as X end;
    (cbn in X; lia) || (destruct (qready s); cbn in X |- *; lia).
  - destruct (effect_weight _ _ _ HE) as [Ej Ew]. cbn [set_j q_workers q_jobs]. rewrite Ej.
    pose proof (proj1 (v_j s I _ _ H)) as Hs. cbn [j_tree] in Hs.
    assert (Hk : nth_error (map (fun j => (j_look j, lforget (j_tree j))) (q_jobs s)) i = Some (look, lforget t)) by (rewrite nth_error_map, H; reflexivity).
    rewrite map_upd. cbn [j_look j_tree].
    destruct (lstep_sim _ _ _ _ _ _ _ HL Hs) as [(-> & Hf & Hw)|Hp].
    + left. rewrite Hf. split; [now apply upd_same|].
      pose proof (sum_upd jweight i _ {| j_pc := pc; j_look := look; j_sh := sh; j_tree := t' |} _ H) as X. unfold jweight at 2 4 in X. cbn [j_pc j_tree] in X. lia.
    + right. destruct (upd_split i (look, lforget t') (look, lforget t) _ Hk) as (l1 & l2 & -> & ->).
      exists l1, (look, lforget t), l2, (look, lforget t'). split; [reflexivity|]. split; [reflexivity|]. split; [reflexivity|].
      cbn [fst snd]. eapply cplus_trans; exact Hp.
  - left. cbn [set_j set_m q_workers q_jobs]. rewrite map_upd. rewrite upd_same by (rewrite nth_error_map, H; reflexivity). split; [reflexivity|].
    match goal with |- context [upd i ?j _] => pose proof (sum_upd jweight i _ j _ H) as X end. unfold jweight at 2 4 in X. cbn in X. lia.
  - left. cbn [set_j store q_workers q_jobs]. rewrite map_upd. rewrite upd_same by (rewrite nth_error_map, H; reflexivity). split; [reflexivity|].
    match goal with |- context [upd i ?j _] => pose proof (sum_upd jweight i _ j _ H) as X end. unfold jweight at 2 4 in X. cbn in X. lia.
  - left. cbn [set_j set_m q_workers q_jobs]. rewrite map_upd. rewrite upd_same by (rewrite nth_error_map, H; reflexivity). split; [reflexivity|].
    match goal with |- context [upd i ?j _] => pose proof (sum_upd jweight i _ j _ H) as X end. unfold jweight at 2 4 in X. cbn in X. lia.
  - left. cbn [set_j set_m q_workers q_jobs]. rewrite map_upd. rewrite upd_same by (rewrite nth_error_map, H; reflexivity). split; [reflexivity|].
    match goal with |- context [upd i ?j _] => pose proof (sum_upd jweight i _ j _ H) as X end. unfold jweight at 2 4 in X. cbn in X. lia.
  - destruct (notify_fields _ _ HN) as (_ & _ & _ & E & _). left. cbn [set_j q_workers q_jobs]. rewrite E.
    rewrite map_upd. rewrite upd_same by (rewrite nth_error_map, H; reflexivity). split; [reflexivity|].
    match goal with |- context [upd i ?j _] => pose proof (sum_upd jweight i _ j _ H) as X end. unfold jweight at 2 4 in X. cbn in X.
    destruct (notify_workers _ _ HN) as [(-> & _)|(v & Hv & ->)]; [lia|].
    pose proof (sum_upd wweight v _ WLock _ Hv) as X2. cbn in X2. lia.
  - left. cbn [set_j q_workers q_jobs]. rewrite map_upd. rewrite upd_same by (rewrite nth_error_map, H; reflexivity). split; [reflexivity|].
    match goal with |- context [upd i ?j _] => pose proof (sum_upd jweight i _ j _ H) as X end. unfold jweight at 2 4 in X. cbn in X. lia.
Qed.

(** Steps including Stop. *)
Definition rstep (s : qstate) (b : bool) (s' : qstate) : Prop := qstep s b s' \/ (b = false /\ qstop s s').

Definition rweight (s : qstate) : nat := qweight s + (if q_stop s then 0 else 6 * length (q_workers s) + 1).

Lemma effect_stop s l s' : effect s l s' -> q_stop s' = q_stop s /\ length (q_workers s') = length (q_workers s).
Proof.
  intros He. destruct He as [w Hw|k w Hw|w Hw Hm|w Hw Hst|w Hw Hst|w Hw|w s' Hw HN]; cbn [set_w set_m store q_stop q_workers]; auto; rewrite ?length_upd; auto.
  destruct HN; cbn [set_w q_stop q_workers]; rewrite ?length_upd; auto.
Qed.

Lemma qstep_stop s b s' : qstep s b s' -> q_stop s' = q_stop s /\ length (q_workers s') = length (q_workers s).
Proof.
  intros St. destruct St; cbn [set_w set_m set_q set_j store q_stop q_workers]; rewrite ?length_upd; auto.
  - eapply effect_stop; exact HE.
  - destruct HN; cbn [set_w q_stop q_workers]; rewrite ?length_upd; auto.
Qed.

Lemma rstep_inv s b s' : rstep s b s' -> qinv s -> qinv s'.
Proof. intros [St|[_ St]] I; [eapply qstep_inv|eapply qstop_inv]; eassumption. Qed.

Lemma rstep_down s s' : rstep s false s' -> qinv s -> (key s' = key s /\ (rweight s' < rweight s)%nat) \/ forth (key s') (key s).
Proof.
  unfold rweight. intros [St|[_ (Hm & Hs & ->)]] I.
  - destruct (qstep_stop _ _ _ St) as [E1 E2]. rewrite E1, E2. destruct (qstep_down _ _ St I) as [[H1 H2]|H]; [left; split; [exact H1|lia]|now right].
  - left. split; [reflexivity|]. unfold qweight. cbn [q_workers q_jobs q_stop]. rewrite Hs.
    assert (X : forall ws, (list_sum (map wweight (map (fun p => match p with WWait => WLock | _ => p end) ws)) <= list_sum (map wweight ws) + 5 * length ws)%nat).
    { induction ws as [|p ws IH]; [cbn; lia|]. cbn [map]. unfold list_sum in *. cbn [fold_right length]. destruct p; cbn [wweight]; lia. }
    specialize (X (q_workers s)). lia.
Qed.

Lemma rstep_key s b s' : rstep s b s' -> qinv s -> key s' = key s \/ forth (key s') (key s).
Proof.
  intros St I. destruct b; [|destruct (rstep_down _ _ St I) as [[H _]|H]; auto].
  left. destruct St as [St|[E _]]; [|discriminate]. remember true as b. destruct St; try discriminate Heqb. reflexivity.
Qed.

Lemma start_acc n stopped calls : Acc forth (key (qinit n stopped calls)).
Proof.
  unfold key, forth. cbn [qinit q_jobs]. rewrite map_map. cbn [j_look j_tree lforget]. apply acc_list. apply Forall_map. apply Forall_forall.
  intros [look p] _. cbn [fst snd].
  assert (X : forall T, Acc (clos_trans _ (smaller look)) T -> Acc after (look, T)).
  { intros T HT. induction HT as [T _ IHT]. constructor. intros [look' T'] [E1 E2]. cbn [fst snd] in *. subst look'. now apply IHT. }
  apply X. apply Acc_clos_trans, acc_run.
Qed.

(** An execution that never ends has spurious wake-ups again and again. *)
Lemma endless f b n st calls : (1 <= n)%nat -> f 0%nat = qinit n st calls -> (forall i, rstep (f i) (b i) (f (S i))) ->
  forall m, exists i, (m <= i)%nat /\ b i = true.
Proof.
  intros Hn H0 H.
  assert (HI : forall i, qinv (f i)).
  { induction i as [|i IH]; [rewrite H0; now apply qinit_inv|]. eapply rstep_inv; [apply H|exact IH]. }
  assert (HA : forall i, Acc forth (key (f i))).
  { induction i as [|i IH]; [rewrite H0; apply start_acc|].
    destruct (rstep_key _ _ _ (H i) (HI i)) as [-> |Hf]; [exact IH|]. now apply IH. }
  intros m.
  enough (G : forall K, Acc forth K -> forall w i, (m <= i)%nat -> key (f i) = K -> (rweight (f i) <= w)%nat -> exists i', (m <= i')%nat /\ b i' = true).
  { exact (G _ (HA m) _ m (le_n _) eq_refl (le_n _)). }
  intros K HK. induction HK as [K _ IHK]. induction w as [|w IHw]; intros i Hi HKi Hw.
  - destruct (b i) eqn:Hb; [now exists i|]. pose proof (H i) as St. rewrite Hb in St.
    destruct (rstep_down _ _ St (HI i)) as [[_ Hlt]|Hf]; [lia|].
    rewrite HKi in Hf. exact (IHK _ Hf _ (S i) ltac:(lia) eq_refl (le_n _)).
  - destruct (b i) eqn:Hb; [now exists i|]. pose proof (H i) as St. rewrite Hb in St.
    destruct (rstep_down _ _ St (HI i)) as [[Hk Hlt]|Hf].
    + apply (IHw (S i)); [lia|congruence|lia].
    + rewrite HKi in Hf. exact (IHK _ Hf _ (S i) ltac:(lia) eq_refl (le_n _)).
Qed.

(** ** What the parses compute *)
Definition tracked (r : outcome obj) (j : job) : Prop :=
  exists p, solo p /\ run (j_look j) p = r /\ is_hard r = false /\ csteps (j_look j) Fresh (TRun p) (j_sh j) (lforget (j_tree j)).

Lemma tracked_facts r j : tracked r j -> lcrashes (j_tree j) = false /\ (forall r', j_tree j = LDone r' -> r' = r).
Proof.
  intros (p & Hs & Hr & Hh & Hc). destruct (solo_schedules _ _ p r Hs Hr Hh _ _ Hc) as [Hcr Hd]. split.
  - destruct (lcrashes (j_tree j)) eqn:He; [|reflexivity]. apply lcrashes_forget in He. congruence.
  - intros r' E. rewrite E in *. destruct Hd as [Hd|(sh' & t' & St)].
    + cbn [lforget] in Hd. injection Hd as Hd. destruct r; try discriminate Hh; destruct r'; cbn in Hd; try discriminate Hd; congruence.
    + cbn [lforget] in St. apply cstep_inv in St. now destruct r'.
Qed.

Lemma Forall2_upd {A B} (R : A -> B -> Prop) l1 l2 i y y' : Forall2 R l1 l2 -> nth_error l2 i = Some y ->
  (forall x, R x y -> R x y') -> Forall2 R l1 (upd i y' l2).
Proof.
  intros H. revert i. induction H as [|a b l1 l2 Hab H IH]; intros [|i] Hn Hxy; cbn in *; try discriminate.
  - injection Hn as ->. constructor; auto.
  - constructor; auto.
Qed.

Lemma qstep_tracked s b s' rs : qstep s b s' -> qinv s -> Forall2 tracked rs (q_jobs s) -> Forall2 tracked rs (q_jobs s').
Proof.
  intros St I HF. destruct St; cbn [set_w set_m set_q set_j store q_jobs] in *; auto.
  1: destruct (effect_weight _ _ _ HE) as [Ej _]; rewrite Ej; eapply Forall2_upd; [exact HF|exact H|];
    intros r (p & Hs & Hr & Hh & Hc); exists p; cbn [j_look j_sh j_tree] in *; repeat (split; [assumption|]);
    destruct (lstep_sim _ _ _ _ _ _ _ HL (proj1 (v_j s I _ _ H))) as [(-> & Hf & _)|Hp]; [now rewrite Hf|eapply csteps_cplus; eassumption].
  5: destruct (notify_fields _ _ HN) as (_ & _ & _ & Ej & _); rewrite Ej.
  all: eapply Forall2_upd; [exact HF|exact H|]; intros r' (q & Hs & Hr & Hh & Hc); exists q; cbn [j_look j_sh j_tree lforget] in *; auto.
Qed.

(** What holds of every reachable state, given what the calls compute. *)
Definition well (rs : list (outcome obj)) (s : qstate) : Prop := qinv s /\ Forall2 tracked rs (q_jobs s) /\ Acc forth (key s).

Lemma well_step rs s b s' : rstep s b s' -> well rs s -> well rs s'.
Proof.
  intros St (I & HT & HA). split; [eapply rstep_inv; eassumption|]. split.
  - destruct St as [St|[_ (_ & _ & ->)]]; [eapply qstep_tracked; eassumption|exact HT].
  - destruct (rstep_key _ _ _ St I) as [-> |Hf]; [exact HA|]. now apply HA.
Qed.

Lemma well_sane rs s : well rs s -> sane_jobs s.
Proof.
  intros (_ & HT & _) i j Hj. apply Forall2_flip in HT. destruct (Forall2_nth _ _ _ _ _ HT Hj) as (r & _ & Hr). apply (tracked_facts _ _ Hr).
Qed.

Lemma qsteps_front s s1 s2 b : qstep s b s1 -> qsteps s1 s2 -> qsteps s s2.
Proof. intros St H. induction H as [|s1 s3 b' s4 H IH St']; [eapply qs_step; [apply qs_refl|exact St]|]. eapply qs_step; [exact (IH St)|exact St']. Qed.

Definition settled (s : qstate) : Prop := Forall (fun j => j_pc j = CReturned \/ lost (j_tree j) = true) (q_jobs s).

Lemma well_moves rs s : well rs s -> settled s \/ exists s', qstep s false s'.
Proof.
  intros HW. destruct (qstep_exists s (proj1 HW) (well_sane _ _ HW)) as [Hall|Hst]; [left|right; exact Hst].
  apply Forall_forall. intros j Hj. destruct (Hall j Hj) as [Hr|Hl]; [left|right; exact Hl]. unfold returned in Hr. destruct (j_pc j); try discriminate. reflexivity.
Qed.

Lemma well_ends rs s : well rs s -> exists s', qsteps s s' /\ settled s'.
Proof.
  intros HW. pose proof HW as (_ & _ & HA).
  enough (G : forall K, Acc forth K -> forall w s, well rs s -> key s = K -> (qweight s <= w)%nat -> exists s', qsteps s s' /\ settled s').
  { exact (G _ HA _ s HW eq_refl (le_n _)). }
  clear s HW HA. intros K HK. induction HK as [K _ IHK]. induction w as [|w IHw]; intros s HW HKs Hw.
  all: destruct (well_moves rs s HW) as [Hall|(s1 & St)]; [exists s; split; [apply qs_refl|exact Hall]|].
  all: pose proof (well_step _ _ _ _ (or_introl St) HW) as HW1; destruct (qstep_down _ _ St (proj1 HW)) as [[Hk Hlt]|Hf].
  - lia.
  - rewrite HKs in Hf. destruct (IHK _ Hf _ s1 HW1 eq_refl (le_n _)) as (s2 & H2 & Hr). exists s2. split; [eapply qsteps_front; eassumption|exact Hr].
  - destruct (IHw s1 HW1 ltac:(congruence) ltac:(lia)) as (s2 & H2 & Hr). exists s2. split; [eapply qsteps_front; eassumption|exact Hr].
  - rewrite HKs in Hf. destruct (IHK _ Hf _ s1 HW1 eq_refl (le_n _)) as (s2 & H2 & Hr). exists s2. split; [eapply qsteps_front; eassumption|exact Hr].
Qed.

(** ** Nothing is dropped before Stop; what is dropped stays dropped *)
Lemma qstep_lost s b s' i j : qstep s b s' -> nth_error (q_jobs s') i = Some j ->
  exists j0, nth_error (q_jobs s) i = Some j0 /\ (lost (j_tree j0) = true -> lost (j_tree j) = true) /\
    (q_stop s = false -> lost (j_tree j) = true -> lost (j_tree j0) = true).
Proof.
  intros St Hj. destruct St; cbn [set_w set_m set_q set_j store q_jobs] in Hj; try (exists j; auto; fail).
  - destruct (effect_weight _ _ _ HE) as [Ej _]. rewrite Ej in Hj. destruct (nth_upd_inv _ _ _ _ _ _ H Hj) as [[-> ->]|[_ Hn]]; [|exists j; auto].
    eexists. split; [exact H|]. cbn [j_tree]. rewrite (lstep_lost _ _ _ _ _ _ _ HL). split; [now intros ->|]. intros Hs.
    assert (Hd : dropping l = false) by (destruct HE; try reflexivity; congruence). rewrite Hd, Bool.orb_false_r. auto.
  - destruct (nth_upd_inv _ _ _ _ _ _ H Hj) as [[-> ->]|[_ Hn]]; [|exists j; auto]. eexists. split; [exact H|]. cbn. auto.
  - destruct (nth_upd_inv _ _ _ _ _ _ H Hj) as [[-> ->]|[_ Hn]]; [|exists j; auto]. eexists. split; [exact H|]. cbn. auto.
  - destruct (nth_upd_inv _ _ _ _ _ _ H Hj) as [[-> ->]|[_ Hn]]; [|exists j; auto]. eexists. split; [exact H|]. cbn. split; [auto|congruence].
  - destruct (nth_upd_inv _ _ _ _ _ _ H Hj) as [[-> ->]|[_ Hn]]; [|exists j; auto]. eexists. split; [exact H|]. cbn. auto.
  - destruct (notify_fields _ _ HN) as (_ & _ & _ & Ej & _). rewrite Ej in Hj.
    destruct (nth_upd_inv _ _ _ _ _ _ H Hj) as [[-> ->]|[_ Hn]]; [|exists j; auto]. eexists. split; [exact H|]. cbn. auto.
  - destruct (nth_upd_inv _ _ _ _ _ _ H Hj) as [[-> ->]|[_ Hn]]; [|exists j; auto]. eexists. split; [exact H|]. cbn. auto.
Qed.

Lemma qsteps_kept n calls s : qsteps (qinit n false calls) s -> q_stop s = false /\ forall i j, nth_error (q_jobs s) i = Some j -> lost (j_tree j) = false.
Proof.
  intros H. remember (qinit n false calls) as s0. induction H as [|s s1 b s2 H IH St]; subst.
  - split; [reflexivity|]. intros i j Hj. cbn [qinit q_jobs] in Hj. rewrite nth_error_map in Hj. destruct (nth_error calls i); [|discriminate]. injection Hj as <-. reflexivity.
  - destruct (IH eq_refl) as [I1 I2]. destruct (qstep_stop _ _ _ St) as [E _]. split; [congruence|]. intros i j Hj.
    destruct (qstep_lost _ _ _ _ _ St Hj) as (j0 & H0 & _ & Hb). destruct (lost (j_tree j)) eqn:Hl; [|reflexivity]. rewrite (I2 _ _ H0) in Hb. discriminate (Hb I1 eq_refl).
Qed.

Lemma rsteps_lost s s' : rsteps s s' -> forall i j', nth_error (q_jobs s') i = Some j' ->
  exists j, nth_error (q_jobs s) i = Some j /\ (lost (j_tree j) = true -> lost (j_tree j') = true).
Proof.
  induction 1 as [s|s s1 b s2 H IH St|s s1 s2 H IH (_ & _ & ->)]; intros i j' Hj; [exists j'; auto| |exact (IH i j' Hj)].
  destruct (qstep_lost _ _ _ _ _ St Hj) as (j0 & H0 & Ha & _). destruct (IH i j0 H0) as (j & Hj' & Hb). exists j. auto.
Qed.

(** ** Specification *)
(** The call [c] has read the tables of its document and found that the root is split
    (object.h:1805-1811): [st] is what it hands to the pool. *)
Definition reaches_pool (c : call) (st : (N -> outcome view) * prog obj) : Prop :=
  exists sc, initFromContent (c_cfg c) (c_fuel c) (c_content c) (c_buf c) = Ok sc /\ sc_need_to_split sc = true /\
    st = (getter (c_cfg c) (sc_map sc), Parse_prog (c_cfg c) (c_fuel c) (c_content c) (c_buf c) (c_pool c) (c_po c) sc).

(** No coroutine of the call has crashed, and if the call has ended, then with the
    object it returns when it runs alone and sequentially. *)
Definition right (c : call) (j : job) : Prop :=
  lcrashes (j_tree j) = false /\
  (forall r, j_tree j = LDone r -> r = alone c /\ exists o, r = Ok o) /\
  (j_pc j = CReturned -> exists r, j_tree j = LDone r).

Lemma start_tracked calls starts : Forall serialized_call calls -> Forall2 reaches_pool calls starts -> forall n st,
  exists rs, Forall2 (fun c r => alone c = r /\ exists o, r = Ok o) calls rs /\ Forall2 tracked rs (q_jobs (qinit n st starts)).
Proof.
  intros Hc He n st. cbn [qinit q_jobs]. induction He as [|c s calls starts (sc & Hi & _ & ->) He IH]; [exists []; split; constructor|].
  inversion Hc as [|? ? Hc1 Hc2]; subst. destruct (IH Hc2) as (rs & I1 & I2).
  destruct (call_track true c _ Hc1 (ex_intro _ sc (conj Hi eq_refl))) as (o' & Ha & p & Hs & Hr & Hh & Hf). cbn [fst snd] in *.
  exists (Ok o' :: rs). split; [constructor; eauto|]. cbn [map]. constructor; [|exact I2]. exists p. cbn [j_look j_sh j_tree lforget fst snd].
  repeat (split; [assumption|]). destruct (fsteps_sim _ _ _ _ _ _ Hf) as [_ Hcs]. exact Hcs.
Qed.

Lemma well_right calls rs s : Forall2 (fun c r => alone c = r /\ exists o, r = Ok o) calls rs -> well rs s -> Forall2 right calls (q_jobs s).
Proof.
  intros Hrs (I & HT & _).
  assert (Hret : forall j, In j (q_jobs s) -> j_pc j = CReturned -> exists r, j_tree j = LDone r).
  { intros j Hj Hp. apply In_nth_error in Hj as (i & Hj). destruct (v_j s I _ _ Hj) as [_ Hpc]. rewrite Hp in Hpc. destruct (j_tree j); try discriminate. eauto. }
  clear -Hrs HT Hret. revert calls rs Hrs HT. induction (q_jobs s) as [|j js IH]; intros calls rs Hrs HT; inversion HT; subst; inversion Hrs as [|? ? ? ? [Ha Ho]]; subst; constructor.
  - destruct (tracked_facts _ _ ltac:(eassumption)) as [Hcr Hun]. split; [exact Hcr|]. split; [|apply Hret; now left].
    intros r Hr. rewrite (Hun _ Hr). auto.
  - eapply IH; [|eassumption|assumption]. intros j0 Hj0. apply Hret. now right.
Qed.

Lemma start_well calls starts n st : (1 <= n)%nat -> Forall serialized_call calls -> Forall2 reaches_pool calls starts ->
  exists rs, Forall2 (fun c r => alone c = r /\ exists o, r = Ok o) calls rs /\ forall s, rsteps (qinit n st starts) s -> well rs s.
Proof.
  intros Hn Hc He. destruct (start_tracked calls starts Hc He n st) as (rs & Hrs & Hts). exists rs. split; [exact Hrs|].
  intros s Hx. remember (qinit n st starts) as s0. induction Hx as [s|s s1 b s2 Hx IH St|s s1 s2 Hx IH St].
  - subst. split; [now apply qinit_inv|]. split; [exact Hts|apply start_acc].
  - eapply well_step; [left; exact St|]. apply IH; assumption.
  - eapply well_step; [right; split; [reflexivity|exact St]|]. apply IH; assumption.
Qed.

Lemma qsteps_rsteps s s' : qsteps s s' -> rsteps s s'.
Proof. induction 1; [apply rs_refl|eapply rs_step; eassumption]. Qed.

(** C92.  Any number of threads call Parse with the Coroutine scheduler on serialized
    documents, on one pool with at least one worker that nobody stops.  In every state
    any schedule can reach: no coroutine has crashed; a parse that has ended has the
    result it has alone; unless all calls have returned, some thread can make a
    step that is no spurious wake-up, and all calls can still return.  No execution goes
    on for ever without waking up spuriously again and again. *)
Theorem C92_parses_return : forall calls starts n,
  Forall serialized_call calls -> Forall2 reaches_pool calls starts -> (1 <= n)%nat ->
  (forall s, qsteps (qinit n false starts) s ->
     Forall2 right calls (q_jobs s) /\
     (Forall (fun j => j_pc j = CReturned) (q_jobs s) \/ exists s', qstep s false s') /\
     (exists s', qsteps s s' /\ Forall (fun j => j_pc j = CReturned) (q_jobs s'))) /\
  (forall f b, f 0%nat = qinit n false starts -> (forall i, qstep (f i) (b i) (f (S i))) ->
     forall m, exists i, (m <= i)%nat /\ b i = true).
Proof.
  intros calls starts n Hc He Hn. split; [|intros f b H0 H; eapply endless; [exact Hn|exact H0|intros i; left; apply H]].
  destruct (start_well calls starts n false Hn Hc He) as (rs & Hrs & HW). intros s Hx.
  pose proof (HW s (qsteps_rsteps _ _ Hx)) as Hw.
  assert (Hset : forall s', qsteps (qinit n false starts) s' -> settled s' -> Forall (fun j => j_pc j = CReturned) (q_jobs s')).
  { intros s' Hx' Hs. destruct (qsteps_kept _ _ _ Hx') as [_ Hk]. apply Forall_forall. intros j Hj. unfold settled in Hs. rewrite Forall_forall in Hs.
    destruct (Hs j Hj) as [Hr|Hl]; [exact Hr|]. apply In_nth_error in Hj as (i & Hj). rewrite (Hk _ _ Hj) in Hl. discriminate. }
  split; [eapply well_right; eassumption|]. split.
  - destruct (well_moves _ _ Hw) as [Hs|Hs]; [left; now apply Hset|right; exact Hs].
  - destruct (well_ends _ _ Hw) as (s' & Hx' & Hs). exists s'. split; [exact Hx'|]. apply Hset; [|exact Hs].
    clear -Hx Hx'. induction Hx' as [|s s1 b s2 Hx' IH St]; [exact Hx|]. eapply qs_step; [exact (IH Hx)|exact St].
Qed.

(** Two calls on the sample document, copying and in place, reach the pool; and (by the
    theorem) both return what they return alone. *)
Lemma sample_calls : exists starts, Forall serialized_call [call1; call2] /\ Forall2 reaches_pool [call1; call2] starts.
Proof.
  assert (S1 : forall j ty, In ty [NORMAL; REPLACE] -> c_cfg j = tiny -> c_content j = sample_doc tiny ty -> c_fuel j = 200%nat -> serialized_call j).
  { intros j ty Hty H1 H2 H3. exists tiny, no_mem, ty, p0, sample, sample_value, (sample_doc tiny ty), [].
    rewrite H1, H2, H3, app_nil_r. split; [apply tiny_sane|]. split; [apply tiny_sane|]. split; [apply sample_denotes|].
    split; [intros _; apply sample_no_custom|]. split; [apply sample_serialized; cbn; tauto|]. split; [reflexivity|].
    split; [cbn in Hty; destruct Hty as [<-|[<-|[]]]; vm_compute; reflexivity|apply sample_doc_small; cbn; tauto]. }
  assert (HR : forall c, In c [call1; call2] -> exists sc, initFromContent (c_cfg c) (c_fuel c) (c_content c) (c_buf c) = Ok sc /\ sc_need_to_split sc = true).
  { intros c [<-|[<-|[]]]; eexists; (split; [vm_compute; reflexivity|reflexivity]). }
  destruct (HR call1) as (sc1 & A1 & B1); [cbn; tauto|]. destruct (HR call2) as (sc2 & A2 & B2); [cbn; tauto|]. clear HR.
  exists [(getter (c_cfg call1) (sc_map sc1), Parse_prog (c_cfg call1) (c_fuel call1) (c_content call1) (c_buf call1) (c_pool call1) (c_po call1) sc1);
          (getter (c_cfg call2) (sc_map sc2), Parse_prog (c_cfg call2) (c_fuel call2) (c_content call2) (c_buf call2) (c_pool call2) (c_po call2) sc2)].
  split.
  - constructor; [apply (S1 _ REPLACE); cbn; tauto|]. constructor; [apply (S1 _ NORMAL); cbn; tauto|constructor].
  - constructor; [exists sc1; auto|]. constructor; [exists sc2; auto|constructor].
Qed.

Example C92_met : exists starts s o1 o2,
  Forall serialized_call [call1; call2] /\ Forall2 reaches_pool [call1; call2] starts /\
  qsteps (qinit 2 false starts) s /\ map j_tree (q_jobs s) = [LDone (Ok o1); LDone (Ok o2)] /\ alone call1 = Ok o1 /\ alone call2 = Ok o2.
Proof.
  destruct sample_calls as (starts & HS & HP).
  destruct (C92_parses_return _ _ 2%nat HS HP ltac:(lia)) as [HC _].
  destruct (HC _ (qs_refl _)) as (_ & _ & s & Hs & Hret). destruct (HC s Hs) as (HF & _).
  inversion HF as [|? j1 ? js (_ & U1 & V1) HF2 E1 E2]; subst. inversion HF2 as [|? j2 ? js2 (_ & U2 & V2) HF3]; subst. inversion HF3; subst.
  rewrite <- E2 in Hret. inversion Hret as [|? ? R1 Hret2]; subst. inversion Hret2 as [|? ? R2 _]; subst.
  destruct (V1 R1) as (r1 & T1). destruct (V2 R2) as (r2 & T2). destruct (U1 _ T1) as [W1 (o1 & ->)]. destruct (U2 _ T2) as [W2 (o2 & ->)].
  exists starts, s, o1, o2. split; [exact HS|]. split; [exact HP|]. split; [exact Hs|]. split; [|split; congruence].
  rewrite <- E2. cbn [map]. now rewrite T1, T2.
Qed.

(** ** Stop *)
(** C93 claims that a call of Parse returns even if somebody stops the pool meanwhile.
    On a pool that is stopped before the calls hand over their roots no call ever
    returns, in no schedule, with any number of workers: PushTask drops the task
    silently. *)
Lemma stopped_trees n calls s : rsteps (qinit n true calls) s -> q_stop s = true /\
  forall i j, nth_error (q_jobs s) i = Some j -> exists p,
    j_pc j = CPush PIdle /\ j_tree j = LIdle p \/ j_pc j = CPush PHold /\ j_tree j = LIdle p \/ j_pc j = CAwait /\ j_tree j = LLost p.
Proof.
  intros H. remember (qinit n true calls) as s0. induction H as [|s s1 b s2 H IH St|s s1 s2 H IH (_ & Hst & ->)]; subst.
  - split; [reflexivity|]. intros i j Hj. cbn [qinit q_jobs] in Hj. rewrite nth_error_map in Hj. destruct (nth_error calls i) as [[look p]|]; [|discriminate]. injection Hj as <-. exists p. auto.
  - destruct (IH eq_refl) as [I1 I2]. destruct (qstep_stop _ _ _ St) as [E _]. split; [congruence|]. intros i0 j Hj.
    assert (K : forall i j0 j1, nth_error (q_jobs s1) i = Some j0 -> nth_error (upd i j1 (q_jobs s1)) i0 = Some j ->
      (exists p, j_pc j1 = CPush PIdle /\ j_tree j1 = LIdle p \/ j_pc j1 = CPush PHold /\ j_tree j1 = LIdle p \/ j_pc j1 = CAwait /\ j_tree j1 = LLost p) ->
      exists p, j_pc j = CPush PIdle /\ j_tree j = LIdle p \/ j_pc j = CPush PHold /\ j_tree j = LIdle p \/ j_pc j = CAwait /\ j_tree j = LLost p).
    { intros i j0 j1 H0 H1 H2. destruct (nth_upd_inv _ _ _ _ _ _ H0 H1) as [[-> ->]|[_ Hn]]; [exact H2|]. exact (I2 _ _ Hn). }
    destruct St; cbn [set_w set_m set_q set_j store q_jobs] in Hj; try (exact (I2 _ _ Hj)).
    + exfalso. destruct (I2 _ _ H0) as (p & [[E1 E2]|[[E1 E2]|[E1 E2]]]); cbn [j_tree] in E2; subst t; inversion HL.
    + eapply K; [exact H0|exact Hj|]. destruct (I2 _ _ H0) as (p & [[E1 E2]|[[E1 E2]|[E1 E2]]]); cbn [j_tree j_pc] in *; try discriminate. exists p. auto.
    + congruence.
    + eapply K; [exact H0|exact Hj|]. exists p. auto.
    + destruct (I2 _ _ H0) as (p & [[E1 E2]|[[E1 E2]|[E1 E2]]]); cbn [j_tree j_pc] in *; discriminate.
    + destruct (I2 _ _ H0) as (p & [[E1 E2]|[[E1 E2]|[E1 E2]]]); cbn [j_tree j_pc] in *; discriminate.
    + destruct (I2 _ _ H0) as (p & [[E1 E2]|[[E1 E2]|[E1 E2]]]); cbn [j_tree j_pc] in *; discriminate.
  - destruct (IH eq_refl) as [I1 _]. congruence.
Qed.

Theorem C93_stopped_pool_refuted :
  (exists calls starts, length calls = 2%nat /\ Forall serialized_call calls /\ Forall2 reaches_pool calls starts) /\
  forall starts n s, rsteps (qinit n true starts) s -> Forall (fun j => j_pc j <> CReturned) (q_jobs s).
Proof.
  split.
  - destruct sample_calls as (starts & H1 & H2). exists [call1; call2], starts. auto.
  - intros starts n s Hx. destruct (stopped_trees _ _ _ Hx) as [_ Hj]. apply Forall_forall. intros j Hin. apply In_nth_error in Hin as (i & Hi).
    destruct (Hj _ _ Hi) as (p & [[E1 E2]|[[E1 E2]|[E1 E2]]]); congruence.
Qed.

(** What remains: whenever Stop is called, no coroutine crashes and no wrong result is
    returned; every call returns unless one of its coroutines was dropped (some thread
    can move as long as there is a call that has neither returned nor lost a coroutine,
    and the threads do not move for ever); a call that lost a coroutine never returns. *)
Theorem C93_only_dropped_partial : forall calls starts n stopped,
  Forall serialized_call calls -> Forall2 reaches_pool calls starts -> (1 <= n)%nat ->
  (forall s, rsteps (qinit n stopped starts) s ->
     Forall2 right calls (q_jobs s) /\
     (Forall (fun j => j_pc j = CReturned \/ lost (j_tree j) = true) (q_jobs s) \/ exists s', qstep s false s') /\
     (forall s' i j j', rsteps s s' -> nth_error (q_jobs s) i = Some j -> lost (j_tree j) = true ->
        nth_error (q_jobs s') i = Some j' -> j_pc j' <> CReturned)) /\
  (forall f b, f 0%nat = qinit n stopped starts ->
     (forall i, qstep (f i) (b i) (f (S i)) \/ (b i = false /\ qstop (f i) (f (S i)))) ->
     forall m, exists i, (m <= i)%nat /\ b i = true).
Proof.
  intros calls starts n st Hc He Hn. split; [|intros f b H0 H; eapply endless; [exact Hn|exact H0|exact H]].
  destruct (start_well calls starts n st Hn Hc He) as (rs & Hrs & HW). intros s Hx. pose proof (HW s Hx) as Hw.
  split; [eapply well_right; eassumption|]. split; [exact (well_moves _ _ Hw)|].
  intros s' i j j' Hx' Hj Hl Hj' Hpc. destruct (rsteps_lost _ _ Hx' _ _ Hj') as (j0 & H0 & Hk). rewrite Hj in H0. injection H0 as <-. specialize (Hk Hl).
  assert (Hw' : well rs s').
  { apply HW. clear -Hx Hx'. induction Hx' as [|s s1 b s2 Hx' IH St|s s1 s2 Hx' IH St]; [exact Hx|eapply rs_step; [exact (IH Hx)|exact St]|eapply rs_stop; [exact (IH Hx)|exact St]]. }
  destruct (v_j _ (proj1 Hw') _ _ Hj') as [_ Hd]. rewrite Hpc in Hd. apply lost_not_done in Hk. congruence.
Qed.

(** The hypotheses are met by the two sample calls, and both cases occur: stopped in
    time, a call loses its coroutine; not stopped, both return. *)
Example C93_met : exists starts, Forall serialized_call [call1; call2] /\ Forall2 reaches_pool [call1; call2] starts /\
  (exists s j, rsteps (qinit 2 false starts) s /\ nth_error (q_jobs s) 0 = Some j /\ j_pc j = CAwait /\ lost (j_tree j) = true) /\
  (exists s, rsteps (qinit 2 false starts) s /\ Forall (fun j => j_pc j = CReturned) (q_jobs s)).
Proof.
  destruct sample_calls as (starts & HS & HP). exists starts. split; [exact HS|]. split; [exact HP|]. split.
  - inversion HP as [|? [l1 p1] ? st R1 HP2]; subst.
    eexists; eexists. split; [|split].
    + eapply rs_step; [eapply rs_step; [eapply rs_stop; [apply rs_refl|]|]|].
      * split; [reflexivity|]. split; reflexivity.
      * eapply (q_clock _ 0%nat); reflexivity.
      * eapply (q_cdrop _ 0%nat); reflexivity.
    + reflexivity.
    + split; reflexivity.
  - destruct (C92_parses_return _ _ 2%nat HS HP ltac:(lia)) as [HC _].
    destruct (HC _ (qs_refl _)) as (_ & _ & s & Hs & Hret). exists s. split; [now apply qsteps_rsteps|exact Hret].
Qed.
