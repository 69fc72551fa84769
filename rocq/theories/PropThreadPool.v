(** * Properties C35, C36, C37, C53, C54, C55: the thread pool, for every number of
    workers, every set of client threads and every schedule. *)
From Coq Require Import List Arith Bool Lia Permutation.
From Verif Require Import ModelThreadPool.
Import ListNotations.

(** ** Specification vocabulary *)
Definition accepts (tr : list event) : list (nat * task) :=
  flat_map (fun e => match e with Accept k t => [(k, t)] | _ => [] end) tr.
Definition starts (tr : list event) : list (nat * task) :=
  flat_map (fun e => match e with Start _ k t => [(k, t)] | _ => [] end) tr.
Definition finishes (tr : list event) : list nat :=
  flat_map (fun e => match e with Finish _ k => [k] | _ => [] end) tr.
Definition spurious (tr : list event) : nat :=
  length (filter (fun e => match e with Spurious _ => true | _ => false end) tr).

(** No thread can move, except by a spurious wake-up. *)
Definition quiet (n : nat) (s : state) : Prop :=
  forall e s', step n s e s' -> exists w, e = Spurious w.

(** ** Lemmas on thread lists *)
Lemma nth_upd {A} i (x : A) l j : nth_error (upd i x l) j =
  if j =? i then match nth_error l i with Some _ => Some x | None => None end else nth_error l j.
Proof.
  revert i j. induction l as [|y l IH]; intros [|i] [|j]; cbn; auto; try (now destruct (j =? i)); apply IH.
Qed.
Lemma length_upd {A} i (x : A) l : length (upd i x l) = length l.
Proof. revert i. induction l as [|y l IH]; intros [|i]; cbn; auto. Qed.

Lemma nth_set_pc i p l j th : nth_error l i = Some th ->
  nth_error (set_pc i p l) j = if j =? i then Some {| th_pc := p; th_cur := th_cur th |} else nth_error l j.
Proof. intros E. unfold set_pc. rewrite E, nth_upd, E. reflexivity. Qed.
Lemma length_set_pc i p l : length (set_pc i p l) = length l.
Proof. unfold set_pc. destruct (nth_error l i); [apply length_upd|reflexivity]. Qed.

Fixpoint tsum (f : thread -> nat) (l : list thread) : nat :=
  match l with [] => 0 | th :: l' => f th + tsum f l' end.
Lemma tsum_upd f i x l th : nth_error l i = Some th -> tsum f (upd i x l) + f th = tsum f l + f x.
Proof.
  revert i. induction l as [|y l IH]; intros [|i] E; cbn in *; try discriminate.
  - injection E as ->. lia.
  - specialize (IH i E). lia.
Qed.
Lemma tsum_set f i p l th : nth_error l i = Some th ->
  tsum f (set_pc i p l) + f th = tsum f l + f {| th_pc := p; th_cur := th_cur th |}.
Proof. intros E. unfold set_pc. rewrite E. now apply tsum_upd. Qed.
Lemma tsum_in f l i th : nth_error l i = Some th -> f th <= tsum f l.
Proof.
  revert i. induction l as [|y l IH]; intros [|i] E; cbn in *; try discriminate.
  - injection E as ->. lia.
  - specialize (IH i E). lia.
Qed.
Lemma tsum_zero f l : (forall i th, nth_error l i = Some th -> f th = 0) -> tsum f l = 0.
Proof.
  induction l as [|y l IH]; intros H; cbn; [reflexivity|].
  rewrite (H 0 y eq_refl), IH; [reflexivity|]. intros i. apply (H (S i)).
Qed.

(** ** Invariant *)
Definition holds (p : pc) : bool :=
  match p with
  | WTest | WSleep | WTake | WExiting | WGot _ _ => true
  | Calls (AHoldPush _) _ _ | Calls AUnlPush _ _ | Calls AHoldStop _ _ | Calls AUnlStop _ _ => true
  | _ => false
  end.
Definition stopping (p : pc) : bool :=
  match p with Calls AUnlStop _ _ | Calls ANotifyAll _ _ | Calls (AJoin _) _ _ => true | _ => false end.
Definition alarm (p : pc) : bool :=
  match p with Calls AUnlStop _ _ | Calls ANotifyAll _ _ => true | _ => false end.
Definition client_pc (p : pc) : bool := match p with Calls _ None _ => true | _ => false end.
Definition heading (th : thread) : nat :=
  match th_pc th with
  | WInit | WLock | WTest | WSleep | WTake => 1
  | Calls AUnlPush _ _ | Calls ANotifyOne _ _ => 1
  | _ => 0
  end.
Definition job_of (p : pc) : option nat :=
  match p with WGot k _ => Some k | Calls _ j _ => j | _ => None end.

Definition ok_pc (n : nat) (s : state) (p : pc) : Prop :=
  match p with
  | WSleep => queue s = [] /\ stop s = false
  | WTake => ready s = true
  | WExiting | WExit => stop s = true /\ queue s = []
  | Calls AUnlStop _ _ | Calls ANotifyAll _ _ => stop s = true
  | Calls (AJoin j) _ _ => stop s = true /\ j <= n /\ forall w, w < j -> pc_of s w WExit
  | _ => True
  end.

Record inv (n : nat) (s : state) : Prop := {
  i_mtx : forall i th, nth_error (threads s) i = Some th -> (holds (th_pc th) = true <-> mtx s = Some i);
  i_own : forall i, mtx s = Some i -> i < length (threads s);
  i_role : forall i th, nth_error (threads s) i = Some th -> client_pc (th_pc th) = negb (i <? n);
  i_num : n <= length (threads s);
  i_ok : forall i th, nth_error (threads s) i = Some th -> ok_pc n s (th_pc th);
  i_one : forall i j th th', nth_error (threads s) i = Some th -> nth_error (threads s) j = Some th' ->
            stopping (th_pc th) = true -> stopping (th_pc th') = true -> i = j;
  i_nostop : stop s = false -> forall i th, nth_error (threads s) i = Some th -> stopping (th_pc th) = false;
  i_alarm : stop s = true -> (exists i th, nth_error (threads s) i = Some th /\ alarm (th_pc th) = true) \/
                             (forall w, ~ waiting s w);
  i_wait : (exists w, waiting s w) -> length (queue s) <= tsum heading (threads s);
  i_cur : forall i th, nth_error (threads s) i = Some th ->
            if i <? n then th_pc th = WInit \/ th_cur th = Some i else th_cur th = None
}.

Lemma nth_repeat_some {A} (x : A) n i y : nth_error (repeat x n) i = Some y -> y = x.
Proof. intros E. apply nth_error_In in E. now apply repeat_spec in E. Qed.

Lemma init_thread n cl i th : nth_error (threads (init n cl)) i = Some th ->
  (i < n /\ th = {| th_pc := WInit; th_cur := None |}) \/
  (n <= i /\ exists l, th = {| th_pc := Calls AIdle None l; th_cur := None |}).
Proof.
  cbn. intros E. destruct (le_lt_dec n i) as [Hi|Hi].
  - right. split; [exact Hi|]. rewrite nth_error_app2 in E by (now rewrite repeat_length).
    apply nth_error_In in E. apply in_map_iff in E as (l & <- & _). eauto.
  - left. split; [exact Hi|]. rewrite nth_error_app1 in E by (now rewrite repeat_length). now apply nth_repeat_some in E.
Qed.

Lemma inv_init n cl : inv n (init n cl).
Proof.
  constructor.
  - intros i th E. destruct (init_thread _ _ _ _ E) as [[Hi ->]|[Hi (l & ->)]]; cbn; split; discriminate.
  - discriminate.
  - intros i th E. destruct (init_thread _ _ _ _ E) as [[Hi ->]|[Hi (l & ->)]]; cbn -[Nat.ltb].
    + apply Nat.ltb_lt in Hi. now rewrite Hi.
    + apply Nat.ltb_ge in Hi. now rewrite Hi.
  - cbn. rewrite app_length, repeat_length. lia.
  - intros i th E. destruct (init_thread _ _ _ _ E) as [[Hi ->]|[Hi (l & ->)]]; exact I.
  - intros i j th th' E E' H. destruct (init_thread _ _ _ _ E) as [[Hi ->]|[Hi (l & ->)]]; discriminate.
  - intros _ i th E. destruct (init_thread _ _ _ _ E) as [[Hi ->]|[Hi (l & ->)]]; reflexivity.
  - discriminate.
  - cbn. lia.
  - intros i th E. destruct (init_thread _ _ _ _ E) as [[Hi ->]|[Hi (l & ->)]]; cbn -[Nat.ltb].
    + apply Nat.ltb_lt in Hi. rewrite Hi. now left.
    + apply Nat.ltb_ge in Hi. now rewrite Hi.
Qed.

Lemma ok_pc_stable n s s' p : ok_pc n s p ->
  (holds p = true -> queue s' = queue s /\ stop s' = stop s) ->
  (stop s = true -> stop s' = true /\ (queue s = [] -> queue s' = [])) ->
  (forall w, pc_of s w WExit -> pc_of s' w WExit) -> ok_pc n s' p.
Proof.
  intros H Hh Hs Hx. destruct p as [| | | | | | | | |[] ? ?]; cbn in *; auto.
  - destruct (Hh eq_refl) as [-> ->]. exact H.
  - unfold ready in *. destruct (Hh eq_refl) as [-> ->]. exact H.
  - destruct H as [H1 H2]. destruct (Hs H1). auto.
  - destruct H as [H1 H2]. destruct (Hs H1). auto.
  - now apply Hs.
  - now apply Hs.
  - destruct H as (H1 & H2 & H3). split; [now apply Hs|]. auto.
Qed.

(** One thread moves from [th] to [x]. *)
Definition moved (s : state) (i : nat) (x : thread) (s' : state) : Prop :=
  forall j, nth_error (threads s') j = if j =? i then Some x else nth_error (threads s) j.

Lemma moved_goto s i p s1 th : threads s1 = threads s -> nth_error (threads s) i = Some th ->
  moved s i {| th_pc := p; th_cur := th_cur th |} (goto s1 i p).
Proof. intros E0 E j. cbn. rewrite E0. now apply nth_set_pc. Qed.

Lemma inv_move n s s' i th x :
  inv n s -> nth_error (threads s) i = Some th -> moved s i x s' ->
  length (threads s') = length (threads s) ->
  (* the mover *)
  (holds (th_pc x) = true <-> mtx s' = Some i) ->
  (holds (th_pc th) = true \/ mtx s = None \/ mtx s' = mtx s) ->
  (mtx s' = mtx s \/ mtx s' = None \/ mtx s' = Some i) ->
  client_pc (th_pc x) = client_pc (th_pc th) ->
  (if i <? n then th_pc x = WInit \/ th_cur x = Some i else th_cur x = th_cur th) ->
  (holds (th_pc th) = true \/ (queue s' = queue s /\ stop s' = stop s)) ->
  (stop s = true -> stop s' = true /\ (queue s = [] -> queue s' = [])) ->
  th_pc th <> WExit ->
  ok_pc n s' (th_pc x) ->
  (stopping (th_pc x) = true -> stop s = false \/ stopping (th_pc th) = true) ->
  (stop s' = false -> stopping (th_pc x) = false) ->
  (stop s' = true -> stop s = true \/ alarm (th_pc x) = true) ->
  (alarm (th_pc th) = true -> alarm (th_pc x) = true \/ forall w, ~ waiting s' w) ->
  (th_pc x = WWait -> stop s' = false) ->
  ((exists w, waiting s' w) -> length (queue s') <= tsum heading (threads s')) ->
  inv n s'.
Proof.
  intros I E M HL Hm1 Hm2 Hm3 Hr Hc Hq Hst Hx Hok Hs1 Hs2 Hs3 Ha Hw Hwt.
  pose proof (M i) as Mi. rewrite Nat.eqb_refl in Mi.
  assert (Hexit : forall w, pc_of s w WExit -> pc_of s' w WExit).
  { intros w (tw & Ew & Ewp). exists tw. split; [|exact Ewp]. rewrite M. destruct (Nat.eqb_spec w i) as [ | ]; [|exact Ew].
    subst w. rewrite E in Ew. injection Ew as <-. contradiction. }
  assert (Hwait : forall w, waiting s' w -> w = i /\ th_pc x = WWait \/ waiting s w).
  { intros w (tw & Ew & Ewp). rewrite M in Ew. destruct (Nat.eqb_spec w i) as [ | ].
    - injection Ew as <-. left. auto.
    - right. exists tw. auto. }
  constructor.
  - intros j tj Ej. rewrite M in Ej. destruct (Nat.eqb_spec j i) as [ | Hne].
    + injection Ej as <-. subst j. exact Hm1.
    + pose proof (i_mtx _ _ I _ _ Ej) as Hj. pose proof (i_mtx _ _ I _ _ E) as Hi. rewrite Hj.
      destruct Hm2 as [Hm2|[Hm2|Hm2]]; [| |now rewrite Hm2].
      * apply Hi in Hm2. destruct Hm3 as [Hm3|[Hm3|Hm3]]; rewrite ?Hm3, ?Hm2; split; congruence.
      * destruct Hm3 as [Hm3|[Hm3|Hm3]]; rewrite ?Hm3, ?Hm2; split; congruence.
  - intros j Hj. rewrite HL. destruct Hm3 as [Hm3|[Hm3|Hm3]].
    + apply (i_own _ _ I). congruence.
    + congruence.
    + assert (j = i) by congruence. subst j. apply nth_error_Some. congruence.
  - intros j tj Ej. rewrite M in Ej. destruct (Nat.eqb_spec j i) as [ | Hne].
    + injection Ej as <-. subst j. rewrite Hr. now apply (i_role _ _ I).
    + now apply (i_role _ _ I).
  - rewrite HL. apply (i_num _ _ I).
  - intros j tj Ej. rewrite M in Ej. destruct (Nat.eqb_spec j i) as [ | Hne].
    + injection Ej as <-. exact Hok.
    + apply ok_pc_stable with s; auto.
      * now apply (i_ok _ _ I j).
      * intros Hj. destruct Hq as [Hq|Hq]; [|exact Hq]. apply (i_mtx _ _ I _ _ Ej) in Hj. apply (i_mtx _ _ I _ _ E) in Hq. congruence.
  - assert (G : forall j tj, j <> i -> nth_error (threads s) j = Some tj -> stopping (th_pc tj) = true -> stopping (th_pc x) = true -> False).
    { intros j tj Hne Ej H1 H2. destruct (Hs1 H2) as [H|H].
      - pose proof (i_nostop _ _ I H _ _ Ej). congruence.
      - apply Hne. eapply (i_one _ _ I); eauto. }
    intros j k tj tk Ej Ek Hj Hk. rewrite M in Ej, Ek.
    destruct (Nat.eqb_spec j i) as [ | Hji]; destruct (Nat.eqb_spec k i) as [ | Hki]; subst; auto.
    + injection Ej as <-. exfalso. eapply G; eauto.
    + injection Ek as <-. exfalso. eapply G; eauto.
    + eapply (i_one _ _ I); eauto.
  - intros Hs j tj Ej. rewrite M in Ej. destruct (Nat.eqb_spec j i) as [ | Hne].
    + injection Ej as <-. auto.
    + apply (i_nostop _ _ I) with j; auto. destruct (stop s); [|reflexivity]. destruct (Hst eq_refl). congruence.
  - intros Hs. destruct (Hs3 Hs) as [H|H].
    + destruct (i_alarm _ _ I H) as [(j & tj & Ej & Hj)|Hn].
      * destruct (Nat.eq_dec j i) as [ -> | Hne].
        -- rewrite E in Ej. injection Ej as <-. destruct (Ha Hj) as [Ha'|Ha']; [left; exists i, x; auto|now right].
        -- left. exists j, tj. split; [|exact Hj]. rewrite M. destruct (Nat.eqb_spec j i); [contradiction|exact Ej].
      * right. intros w Hw'. destruct (Hwait w Hw') as [[_ Hxw]|Hw'']; [|now apply (Hn w)].
        specialize (Hw Hxw). congruence.
    + left. exists i, x. auto.
  - exact Hwt.
  - intros j tj Ej. rewrite M in Ej. destruct (Nat.eqb_spec j i) as [ | Hne].
    + injection Ej as <-. subst j. pose proof (i_cur _ _ I _ _ E) as Hi. destruct (i <? n); [exact Hc|congruence].
    + now apply (i_cur _ _ I).
Qed.

Lemma wait_move n s s' i th x : inv n s -> nth_error (threads s) i = Some th -> moved s i x s' ->
  (length (queue s') + heading th <= length (queue s) + heading x \/ queue s' = []) ->
  (th_pc x = WWait -> queue s' = []) ->
  tsum heading (threads s') + heading th = tsum heading (threads s) + heading x ->
  (exists w, waiting s' w) -> length (queue s') <= tsum heading (threads s').
Proof.
  intros I E M Hd Hwq Hsum (w & tw & Ew & Ewp). rewrite M in Ew. destruct (Nat.eqb_spec w i) as [ | ].
  - injection Ew as <-. rewrite (Hwq Ewp). cbn. lia.
  - assert (Hw : waiting s w) by (exists tw; auto).
    pose proof (i_wait _ _ I (ex_intro _ w Hw)). destruct Hd as [Hd|Hd]; [lia|]. rewrite Hd. cbn. lia.
Qed.

Lemma sum_goto f s i p s1 th : threads s1 = threads s -> nth_error (threads s) i = Some th ->
  tsum f (threads (goto s1 i p)) + f th = tsum f (threads s) + f {| th_pc := p; th_cur := th_cur th |}.
Proof. intros E0 E. cbn. rewrite E0. now apply tsum_set. Qed.

Lemma length_goto s i p : length (threads (goto s i p)) = length (threads s).
Proof. cbn. apply length_set_pc. Qed.

(** What inv gives about one thread. *)
Lemma inv_cur n s i th p : inv n s -> nth_error (threads s) i = Some th -> th_pc th <> WInit ->
  if i <? n then p = WInit \/ th_cur th = Some i else th_cur th = th_cur th.
Proof. intros I E H. pose proof (i_cur _ _ I _ _ E) as G. destruct (i <? n); [|reflexivity]. right. destruct G; [contradiction|assumption]. Qed.

Lemma inv_wake n s w : inv n s -> waiting s w -> inv n (goto s w WLock).
Proof.
  intros I (th & E & Ep). pose proof (moved_goto s w WLock s th eq_refl E) as M.
  eapply inv_move; try exact M; try exact E; try exact I; cbn -[Nat.ltb heading]; rewrite ?Ep; cbn -[Nat.ltb heading]; auto; try discriminate.
  - apply length_set_pc.
  - pose proof (i_mtx _ _ I _ _ E) as H. rewrite Ep in H. exact H.
  - apply (inv_cur _ _ _ _ _ I E). rewrite Ep. discriminate.
  - eapply wait_move; eauto; cbn -[heading].
    + left. unfold heading. rewrite Ep. cbn. lia.
    + discriminate.
    + now apply tsum_set.
Qed.

Lemma nth_wake l j : nth_error (map wake l) j = match nth_error l j with Some th => Some (wake th) | None => None end.
Proof. revert j. induction l as [|y l IH]; intros [|j]; cbn; auto. Qed.
Lemma wake_none s w : ~ waiting (with_threads s (map wake (threads s))) w.
Proof.
  intros (th & E & Ep). cbn in E. rewrite nth_wake in E. destruct (nth_error (threads s) w) as [t0|]; [|discriminate].
  injection E as <-. unfold wake in Ep. destruct (th_pc t0) eqn:E0; cbn in Ep; congruence.
Qed.

Lemma inv_wake_all n s : inv n s -> inv n (with_threads s (map wake (threads s))).
Proof.
  intros I.
  assert (G : forall j th, nth_error (map wake (threads s)) j = Some th -> exists t0, nth_error (threads s) j = Some t0 /\
    th_cur th = th_cur t0 /\ (th_pc th = th_pc t0 \/ th_pc t0 = WWait /\ th_pc th = WLock)).
  { intros j th E. rewrite nth_wake in E. destruct (nth_error (threads s) j) as [t0|]; [|discriminate]. injection E as <-.
    exists t0. split; [reflexivity|]. unfold wake. destruct (th_pc t0) eqn:E0; cbn; auto. }
  constructor; cbn -[Nat.ltb].
  - intros i th E. destruct (G _ _ E) as (t0 & E0 & _ & [-> | [H0 ->]]).
    + now apply (i_mtx _ _ I).
    + pose proof (i_mtx _ _ I _ _ E0) as H. now rewrite H0 in H.
  - intros i H. rewrite map_length. now apply (i_own _ _ I).
  - intros i th E. destruct (G _ _ E) as (t0 & E0 & _ & [-> | [H0 ->]]).
    + now apply (i_role _ _ I).
    + pose proof (i_role _ _ I _ _ E0) as H. now rewrite H0 in H.
  - rewrite map_length. apply (i_num _ _ I).
  - intros i th E. destruct (G _ _ E) as (t0 & E0 & _ & [-> | [H0 ->]]); [|exact Logic.I].
    apply ok_pc_stable with s; cbn; auto.
    + now apply (i_ok _ _ I i).
    + intros w (tw & Ew & Hw). exists tw. split; [|exact Hw]. cbn. rewrite nth_wake, Ew. unfold wake. now rewrite Hw.
  - intros i j th th' E E' H H'. destruct (G _ _ E) as (t0 & E0 & _ & [K | [_ K]]); destruct (G _ _ E') as (t0' & E0' & _ & [K' | [_ K']]);
      rewrite ?K, ?K' in *; try discriminate. eapply (i_one _ _ I); eauto.
  - intros Hs i th E. destruct (G _ _ E) as (t0 & E0 & _ & [-> | [_ ->]]); [|reflexivity]. now apply (i_nostop _ _ I Hs i).
  - intros _. right. intros w. apply wake_none.
  - intros (w & Hw). exfalso. now apply (wake_none s w).
  - intros i th E. destruct (G _ _ E) as (t0 & E0 & -> & Hp). pose proof (i_cur _ _ I _ _ E0) as H.
    destruct (i <? n); [|exact H]. destruct H as [H|H]; [|auto]. left. destruct Hp as [-> | [Hp _]]; congruence.
Qed.

Ltac mv I H th E Ep :=
  destruct H as (th & E & Ep);
  pose proof (i_mtx _ _ I _ _ E) as Hmx; rewrite Ep in Hmx; cbn [holds] in Hmx;
  pose proof (i_ok _ _ I _ _ E) as Hokk; rewrite Ep in Hokk; cbn [ok_pc] in Hokk.

Ltac base I E M Ep :=
  eapply inv_move; [exact I|exact E|exact M|cbn; apply length_set_pc| | | | | | | | | | | | | | |];
    cbn -[Nat.ltb heading ready]; rewrite ?Ep; cbn -[Nat.ltb heading ready]; auto; try discriminate;
    try (apply (inv_cur _ _ _ _ _ I E); rewrite Ep; discriminate);
    try (split; congruence);
    try tauto.

Ltac waitg I E M Ep :=
  match type of M with moved _ _ _ ?s' => change ((exists w, waiting s' w) -> length (queue s') <= tsum heading (threads s')) end;
  eapply wait_move; [exact I|exact E|exact M| | |]; cbn -[heading];
    [left; unfold heading; rewrite ?Ep; cbn; try lia|try discriminate|try (now apply tsum_set)].

Lemma inv_step n s e s' : inv n s -> step n s e s' -> inv n s'.
Proof.
  intros I St. destruct St.
  - (* init *) mv I H th E Ep.
    assert (M : moved s w {| th_pc := WLock; th_cur := Some w |} (with_threads s (upd w {| th_pc := WLock; th_cur := Some w |} (threads s)))).
    { intros j. cbn. rewrite nth_upd, E. reflexivity. }
    eapply inv_move; [exact I|exact E|exact M|apply length_upd| | | | | | | | | | | | | | |];
      cbn -[Nat.ltb heading]; rewrite ?Ep; cbn -[Nat.ltb heading]; auto; try discriminate.
    + pose proof (i_role _ _ I _ _ E) as Hr. rewrite Ep in Hr. cbn -[Nat.ltb] in Hr. destruct (w <? n); [auto|discriminate].
    + eapply wait_move; [exact I|exact E|exact M| | |]; cbn -[heading].
      * left. unfold heading. rewrite Ep. cbn. lia.
      * discriminate.
      * now apply tsum_upd.
  - (* lock *) mv I H th E Ep. pose proof (moved_goto s w WTest (with_mtx s (Some w)) th eq_refl E) as M.
    base I E M Ep. waitg I E M Ep.
  - (* test *) mv I H th E Ep. destruct (ready s) eqn:Er.
    + pose proof (moved_goto s w WTake s th eq_refl E) as M. base I E M Ep. waitg I E M Ep.
    + pose proof (moved_goto s w WSleep s th eq_refl E) as M. base I E M Ep.
      * unfold ready in Er. destruct (queue s); [|rewrite orb_true_r in Er; discriminate]. rewrite orb_false_r in Er. auto.
      * waitg I E M Ep.
  - (* sleep *) mv I H th E Ep. pose proof (moved_goto s w WWait (with_mtx s None) th eq_refl E) as M.
    base I E M Ep. intros _. rewrite (proj1 Hokk). cbn. lia.
  - (* spurious *) now apply inv_wake.
  - (* exit *) mv I H th E Ep. pose proof (moved_goto s w WExiting s th eq_refl E) as M.
    base I E M Ep. rewrite HQ. cbn. lia.
  - (* exited *) mv I H th E Ep. pose proof (moved_goto s w WExit (with_mtx s None) th eq_refl E) as M.
    base I E M Ep. rewrite (proj2 Hokk). cbn. lia.
  - (* pop *) mv I H th E Ep.
    match goal with |- inv n (goto ?s1 _ _) => pose proof (moved_goto s w (WGot k t) s1 th eq_refl E) as M end.
    base I E M Ep. waitg I E M Ep. rewrite HQ. cbn. lia.
  - (* go *) mv I H th E Ep. pose proof (moved_goto s w (Calls AIdle (Some k) (body_of t)) (with_mtx s None) th eq_refl E) as M.
    base I E M Ep. waitg I E M Ep.
  - (* finish *) mv I H th E Ep. pose proof (moved_goto s w WLock s th eq_refl E) as M.
    base I E M Ep. waitg I E M Ep.
  - (* push *) mv I H th E Ep. pose proof (moved_goto s i (Calls (AHoldPush t) job r) (with_mtx s (Some i)) th eq_refl E) as M.
    base I E M Ep. waitg I E M Ep.
  - (* drop *) mv I H th E Ep. pose proof (moved_goto s i (Calls AIdle job r) (with_mtx s None) th eq_refl E) as M.
    base I E M Ep. waitg I E M Ep.
  - (* store *) mv I H th E Ep.
    match goal with |- inv n (goto ?s1 _ _) => pose proof (moved_goto s i (Calls AUnlPush job r) s1 th eq_refl E) as M end.
    base I E M Ep. waitg I E M Ep. rewrite app_length. cbn. lia.
  - (* push_unlock *) mv I H th E Ep. pose proof (moved_goto s i (Calls ANotifyOne job r) (with_mtx s None) th eq_refl E) as M.
    base I E M Ep. waitg I E M Ep.
  - (* notify_one *) mv I H th E Ep.
    pose proof (inv_wake n s w I HW) as I'.
    assert (E' : nth_error (threads (goto s w WLock)) i = Some th).
    { destruct HW as (tw & Ew & Ewp). cbn. rewrite (nth_set_pc w WLock _ i tw Ew). destruct (Nat.eqb_spec i w); [|exact E]. subst. congruence. }
    pose proof (moved_goto (goto s w WLock) i (Calls AIdle job r) (goto s w WLock) th eq_refl E') as M.
    pose proof (i_mtx _ _ I' _ _ E') as Hmx'. rewrite Ep in Hmx'. cbn in Hmx'.
    base I' E' M Ep. intros (w' & Hw').
    assert (Hws : waiting s w') .
    { destruct Hw' as (tw' & Ew' & Ewp'). rewrite M in Ew'. destruct (Nat.eqb_spec w' i); [injection Ew' as <-; discriminate|].
      destruct HW as (tw & Ew & Ewp). cbn in Ew'. rewrite (nth_set_pc w WLock _ w' tw Ew) in Ew'. destruct (Nat.eqb_spec w' w).
      - injection Ew' as <-. discriminate.
      - exists tw'. auto. }
    pose proof (i_wait _ _ I (ex_intro _ w' Hws)) as Hlen.
    destruct HW as (tw & Ew & Ewp).
    pose proof (sum_goto heading s w WLock s tw eq_refl Ew) as S1.
    pose proof (sum_goto heading (goto s w WLock) i (Calls AIdle job r) (goto s w WLock) th eq_refl E') as S2.
    unfold heading at 2 4 in S1. rewrite Ewp in S1. cbn in S1. unfold heading at 2 4 in S2. rewrite Ep in S2. cbn in S2. lia.
  - (* notify_none *) mv I H th E Ep. pose proof (moved_goto s i (Calls AIdle job r) s th eq_refl E) as M.
    base I E M Ep. intros (w & tw & Ew & Ewp). exfalso. rewrite M in Ew. destruct (Nat.eqb_spec w i); [injection Ew as <-; discriminate|].
    apply (HW w). exists tw. auto.
  - (* stop *) mv I H th E Ep. pose proof (moved_goto s i (Calls AHoldStop job r) (with_mtx s (Some i)) th eq_refl E) as M.
    base I E M Ep. waitg I E M Ep.
  - (* stop_again *) mv I H th E Ep. pose proof (moved_goto s i (Calls AIdle job r) (with_mtx s None) th eq_refl E) as M.
    base I E M Ep. waitg I E M Ep.
  - (* stop_set *) mv I H th E Ep.
    match goal with |- inv n (goto ?s1 _ _) => pose proof (moved_goto s i (Calls AUnlStop job r) s1 th eq_refl E) as M end.
    base I E M Ep. waitg I E M Ep.
  - (* stop_unlock *) mv I H th E Ep. pose proof (moved_goto s i (Calls ANotifyAll job r) (with_mtx s None) th eq_refl E) as M.
    base I E M Ep; [congruence|]. waitg I E M Ep.
  - (* notify_all *) mv I H th E Ep.
    pose proof (inv_wake_all n s I) as I'. set (s1 := with_threads s (map wake (threads s))) in *.
    assert (E' : nth_error (threads s1) i = Some th).
    { cbn. rewrite nth_wake, E. unfold wake. now rewrite Ep. }
    pose proof (moved_goto s1 i (Calls (AJoin 0) job r) s1 th eq_refl E') as M.
    assert (Hnw : forall w, ~ waiting (goto s1 i (Calls (AJoin 0) job r)) w).
    { intros w (tw & Ew & Ewp). rewrite M in Ew. destruct (Nat.eqb_spec w i); [injection Ew as <-; discriminate|].
      apply (wake_none s w). exists tw. auto. }
    pose proof (i_mtx _ _ I' _ _ E') as Hmx'. rewrite Ep in Hmx'. cbn in Hmx'.
    base I' E' M Ep.
    + split; [exact Hokk|]. split; [lia|]. intros w Hw. lia.
    + intros Hs. cbn in Hokk. congruence.
    + intros (w & Hw). exfalso. now apply (Hnw w).
  - (* join *) mv I H th E Ep. pose proof (moved_goto s i (Calls (AJoin (S j)) job r) s th eq_refl E) as M.
    base I E M Ep.
    + destruct Hokk as (H1 & H2 & H3). split; [exact H1|]. split; [lia|]. intros w Hw.
      assert (Hx : pc_of s w WExit) by (destruct (Nat.eq_dec w j) as [ -> | ]; [exact HX|apply H3; lia]).
      destruct Hx as (tw & Ew & Ewp). exists tw. split; [|exact Ewp]. rewrite M. destruct (Nat.eqb_spec w i); [|exact Ew]. subst. congruence.
    + intros Hs. destruct Hokk. congruence.
    + waitg I E M Ep.
  - (* join_self *) destruct I; constructor; auto.
  - (* stop_return *) mv I H th E Ep. pose proof (moved_goto s i (Calls AIdle job r) s th eq_refl E) as M.
    base I E M Ep. waitg I E M Ep.
  - (* who *) rename HP into Ep. pose proof (moved_goto s i (Calls AIdle job r) s th eq_refl H) as M.
    pose proof (i_mtx _ _ I _ _ H) as Hmx; rewrite Ep in Hmx; cbn in Hmx.
    base I H M Ep. waitg I H M Ep.
Qed.

(** ** What the trace says about the state *)
Definition jobs (p : pc) : list nat := match job_of p with Some k => [k] | None => [] end.
Definition running (l : list thread) : list nat := flat_map (fun th => jobs (th_pc th)) l.

Lemma running_upd i x l th : nth_error l i = Some th ->
  Permutation (jobs (th_pc th) ++ running (upd i x l)) (jobs (th_pc x) ++ running l).
Proof.
  revert i. induction l as [|y l IH]; intros [|i] E; cbn in *; try discriminate.
  - injection E as ->. rewrite !app_assoc. apply Permutation_app_tail, Permutation_app_comm.
  - specialize (IH i E).
    rewrite Permutation_app_swap_app. rewrite IH. apply Permutation_app_swap_app.
Qed.
Lemma running_set i p l th : nth_error l i = Some th ->
  Permutation (jobs (th_pc th) ++ running (set_pc i p l)) (jobs p ++ running l).
Proof. intros E. unfold set_pc. rewrite E. now apply running_upd. Qed.
Lemma running_same i p l th : nth_error l i = Some th -> job_of p = job_of (th_pc th) ->
  Permutation (running (set_pc i p l)) (running l).
Proof.
  intros E Hj. pose proof (running_set i p l th E) as P. unfold jobs in P. rewrite Hj in P.
  now apply Permutation_app_inv_l in P.
Qed.
Lemma running_wake l : running (map wake l) = running l.
Proof.
  unfold running. induction l as [|th l IH]; [reflexivity|]. cbn [map flat_map]. rewrite IH. f_equal. unfold wake.
  destruct (th_pc th) eqn:E; rewrite ?E; reflexivity.
Qed.
Lemma set_keeps i p l th j k : nth_error l i = Some th -> job_of p = job_of (th_pc th) ->
  (exists th', nth_error (set_pc i p l) j = Some th' /\ job_of (th_pc th') = Some k) ->
  exists th', nth_error l j = Some th' /\ job_of (th_pc th') = Some k.
Proof.
  intros E Hj (th' & E' & Hk). rewrite (nth_set_pc i p l j th E) in E'. destruct (Nat.eqb_spec j i) as [ -> | ].
  - injection E' as <-. exists th. split; [exact E|]. cbn in Hk. congruence.
  - eauto.
Qed.

Record tinv (tr : list event) (s : state) : Prop := {
  t_queue : accepts tr = starts tr ++ queue s;
  t_num : map fst (accepts tr) = seq 0 (accepted s);
  t_run : Permutation (map fst (starts tr)) (finishes tr ++ running (threads s));
  t_job : forall i k, (exists th, nth_error (threads s) i = Some th /\ job_of (th_pc th) = Some k) ->
            exists t, In (Start i k t) tr;
  t_fin : forall w k, In (Finish w k) tr -> exists t, In (Start w k t) tr
}.

Lemma accepts_app a b : accepts (a ++ b) = accepts a ++ accepts b.
Proof. apply flat_map_app. Qed.
Lemma starts_app a b : starts (a ++ b) = starts a ++ starts b.
Proof. apply flat_map_app. Qed.
Lemma finishes_app a b : finishes (a ++ b) = finishes a ++ finishes b.
Proof. apply flat_map_app. Qed.

(** Steps that are neither Accept, Start nor Finish and keep every job. *)
Lemma tinv_quiet tr s e s' : tinv tr s ->
  match e with Accept _ _ | Start _ _ _ | Finish _ _ => False | _ => True end ->
  queue s' = queue s -> accepted s' = accepted s ->
  Permutation (running (threads s')) (running (threads s)) ->
  (forall j k, (exists th, nth_error (threads s') j = Some th /\ job_of (th_pc th) = Some k) ->
     exists th, nth_error (threads s) j = Some th /\ job_of (th_pc th) = Some k) ->
  tinv (tr ++ [e]) s'.
Proof.
  intros T He Hq Ha Hr Hj.
  assert (A : accepts (tr ++ [e]) = accepts tr) by (rewrite accepts_app; destruct e; cbn; rewrite ?app_nil_r; tauto).
  assert (B : starts (tr ++ [e]) = starts tr) by (rewrite starts_app; destruct e; cbn; rewrite ?app_nil_r; tauto).
  assert (C : finishes (tr ++ [e]) = finishes tr) by (rewrite finishes_app; destruct e; cbn; rewrite ?app_nil_r; tauto).
  constructor; rewrite ?A, ?B, ?C, ?Hq, ?Ha.
  - apply (t_queue _ _ T).
  - apply (t_num _ _ T).
  - rewrite Hr. apply (t_run _ _ T).
  - intros i k H. destruct (t_job _ _ T i k (Hj _ _ H)) as (t & Ht). exists t. apply in_or_app. auto.
  - intros w k H. apply in_app_or in H as [H|[H|[]]]; [|subst e; contradiction]. destruct (t_fin _ _ T w k H) as (t & Ht). exists t. apply in_or_app. auto.
Qed.

Ltac quiet1 T H :=
  let th := fresh "th" in let E := fresh "E" in let Ep := fresh "Ep" in
  destruct H as (th & E & Ep);
  apply tinv_quiet with (1 := T); [exact Logic.I|reflexivity|reflexivity| |];
  cbn; [apply running_same with th|intros ? ?; apply set_keeps with th]; auto; rewrite Ep; try reflexivity; try (now destruct (ready _)).

Lemma tinv_step n tr s e s' : tinv tr s -> step n s e s' -> tinv (tr ++ [e]) s'.
Proof.
  intros T St. destruct St; try (quiet1 T H; fail).
  - destruct H as (th & E & Ep). apply tinv_quiet with (1 := T); try exact Logic.I; try reflexivity; cbn.
    + pose proof (running_upd w {| th_pc := WLock; th_cur := Some w |} _ _ E) as P. rewrite Ep in P. exact P.
    + intros j k (th' & E' & Hk). rewrite nth_upd in E'. destruct (Nat.eqb_spec j w).
      * rewrite E in E'. injection E' as <-. discriminate.
      * eauto.
  - (* pop *) destruct H as (th & E & Ep).
    pose proof (running_set w (WGot k t) _ _ E) as P. rewrite Ep in P. cbn in P.
    constructor; rewrite ?accepts_app, ?starts_app, ?finishes_app; cbn.
    + rewrite app_nil_r, (t_queue _ _ T), HQ, <- app_assoc. reflexivity.
    + rewrite app_nil_r. apply (t_num _ _ T).
    + rewrite map_app, app_nil_r, P. cbn. rewrite (t_run _ _ T). rewrite <- app_assoc. apply Permutation_app_head, Permutation_app_comm.
    + intros i k' (th' & E' & Hk). rewrite (nth_set_pc w (WGot k t) _ i th E) in E'. destruct (Nat.eqb_spec i w) as [ -> | ].
      * injection E' as <-. injection Hk as <-. exists t. apply in_or_app. right. now left.
      * destruct (t_job _ _ T i k' ltac:(eauto)) as (t' & Ht'). exists t'. apply in_or_app. auto.
    + intros w' k' HH. apply in_app_or in HH as [HH|[HH|[]]]; [|discriminate]. destruct (t_fin _ _ T _ _ HH) as (t' & Ht'). exists t'. apply in_or_app. auto.
  - (* finish *) destruct H as (th & E & Ep).
    pose proof (running_set w WLock _ _ E) as P. rewrite Ep in P. cbn in P.
    constructor; rewrite ?accepts_app, ?starts_app, ?finishes_app; cbn.
    + rewrite !app_nil_r. apply (t_queue _ _ T).
    + rewrite app_nil_r. apply (t_num _ _ T).
    + rewrite app_nil_r, (t_run _ _ T), <- app_assoc. apply Permutation_app_head. cbn. now symmetry.
    + intros i k' (th' & E' & Hk). rewrite (nth_set_pc w WLock _ i th E) in E'. destruct (Nat.eqb_spec i w) as [ -> | ].
      * injection E' as <-. discriminate.
      * destruct (t_job _ _ T i k' ltac:(eauto)) as (t' & Ht'). exists t'. apply in_or_app. auto.
    + intros w' k' HH. assert (G : exists t, In (Start w' k' t) tr).
      { apply in_app_or in HH as [HH|[HH|[]]]; [now apply (t_fin _ _ T)|]. injection HH as -> ->. apply (t_job _ _ T). exists th. rewrite Ep. auto. }
      destruct G as (t' & Ht'). exists t'. apply in_or_app. auto.
  - (* store *) destruct H as (th & E & Ep).
    assert (P : Permutation (running (set_pc i (Calls AUnlPush job r) (threads s))) (running (threads s)))
      by (apply running_same with th; auto; rewrite Ep; reflexivity).
    constructor; rewrite ?accepts_app, ?starts_app, ?finishes_app; cbn.
    + rewrite app_nil_r, (t_queue _ _ T), app_assoc. reflexivity.
    + rewrite map_app, (t_num _ _ T).  symmetry. exact (seq_S (accepted s) 0).
    + rewrite !app_nil_r, P. apply (t_run _ _ T).
    + intros i' k' HH. apply set_keeps with (1 := E) in HH; [|rewrite Ep; reflexivity].
      destruct (t_job _ _ T _ _ HH) as (t' & Ht'). exists t'. apply in_or_app. auto.
    + intros w' k' HH. apply in_app_or in HH as [HH|[HH|[]]]; [|discriminate]. destruct (t_fin _ _ T _ _ HH) as (t' & Ht'). exists t'. apply in_or_app. auto.
  - (* notify_one *) destruct H as (th & E & Ep). destruct HW as (tw & Ew & Ewp).
    assert (E' : nth_error (set_pc w WLock (threads s)) i = Some th).
    { rewrite (nth_set_pc w WLock _ i tw Ew). destruct (Nat.eqb_spec i w); [|exact E]. subst. congruence. }
    apply tinv_quiet with (1 := T); try exact Logic.I; try reflexivity; cbn.
    + transitivity (running (set_pc w WLock (threads s))).
      * apply running_same with th; auto. now rewrite Ep.
      * apply running_same with tw; auto. now rewrite Ewp.
    + intros j k HH. apply set_keeps with (1 := E') in HH; [|rewrite Ep; reflexivity].
      apply set_keeps with (1 := Ew) in HH; [exact HH|rewrite Ewp; reflexivity].
  - (* notify_all *) destruct H as (th & E & Ep).
    assert (E' : nth_error (map wake (threads s)) i = Some th).
    { rewrite nth_wake, E. unfold wake. now rewrite Ep. }
    apply tinv_quiet with (1 := T); try exact Logic.I; try reflexivity; cbn.
    + rewrite <- (running_wake (threads s)). apply running_same with th; auto. now rewrite Ep.
    + intros j k HH. apply set_keeps with (1 := E') in HH; [|rewrite Ep; reflexivity]. destruct HH as (th' & E1 & Hk).
      rewrite nth_wake in E1. destruct (nth_error (threads s) j) as [t0|]; [|discriminate]. injection E1 as <-.
      exists t0. split; [reflexivity|]. unfold wake in Hk. destruct (th_pc t0) eqn:E0; try rewrite E0 in Hk; auto; discriminate.
  - (* join_self *) apply tinv_quiet with (1 := T); try exact Logic.I; try reflexivity; auto.
  - (* who *) apply tinv_quiet with (1 := T); try exact Logic.I; try reflexivity; cbn.
    + apply running_same with th; auto. now rewrite HP.
    + intros j k HH. apply set_keeps with (1 := H) in HH; [exact HH|]. now rewrite HP.
Qed.

Lemma tinv_init n cl : tinv [] (init n cl).
Proof.
  constructor; cbn.
  - reflexivity.
  - reflexivity.
  - assert (running (threads (init n cl)) = []) as E; [|cbn in E; rewrite E; reflexivity].
    assert (G : forall l, (forall i th, nth_error l i = Some th -> jobs (th_pc th) = []) -> running l = []).
    { induction l as [|y l IH]; intros H; cbn; [reflexivity|]. rewrite (H 0 y eq_refl). cbn. apply IH. intros i. apply (H (S i)). }
    apply G. intros i th E. destruct (init_thread _ _ _ _ E) as [[Hi ->]|[Hi (l & ->)]]; reflexivity.
  - intros i k (th & E & Hk). destruct (init_thread n cl i th E) as [[Hi ->]|[Hi (l & ->)]]; discriminate.
  - intros w k [].
Qed.

Lemma exec_inv n cl tr s : exec n (init n cl) tr s -> inv n s /\ tinv tr s.
Proof.
  induction 1 as [|tr s e s' H [I T] Hc St].
  - split; [apply inv_init|apply tinv_init].
  - split; [eapply inv_step; eauto|eapply tinv_step; eauto].
Qed.

Lemma exec_split n s0 tr1 tr2 s : exec n s0 (tr1 ++ tr2) s -> exists sm, exec n s0 tr1 sm /\ exec n sm tr2 s.
Proof.
  remember (tr1 ++ tr2) as tr eqn:Etr. intros H. revert tr1 tr2 Etr. induction H as [|tr s e s' H IH Hc St]; intros tr1 tr2 Etr.
  - symmetry in Etr. apply app_eq_nil in Etr as [-> ->]. exists s0. split; constructor.
  - destruct tr2 as [|e0 tr2] using rev_ind.
    + rewrite app_nil_r in Etr. subst tr1. exists s'. split; [econstructor; eauto|constructor].
    + rewrite app_assoc in Etr. apply app_inj_tail in Etr as [-> ->]. destruct (IH tr1 tr2 eq_refl) as (sm & H1 & H2).
      exists sm. split; [exact H1|]. econstructor; eauto.
Qed.

Lemma exec_app n s0 tr1 sm tr2 s : exec n s0 tr1 sm -> exec n sm tr2 s -> exec n s0 (tr1 ++ tr2) s.
Proof.
  intros H1 H2. induction H2 as [|tr s e s' H IH Hc St].
  - now rewrite app_nil_r.
  - rewrite app_assoc. econstructor; eauto.
Qed.

Lemma exec_cons n s e s1 tr s' : step n s e s1 -> crashed s = false -> exec n s1 tr s' -> exec n s (e :: tr) s'.
Proof. intros St Hc H. apply (exec_app n s [e] s1 tr s'); [|exact H]. change [e] with ([] ++ [e]). econstructor; eauto. constructor. Qed.

Lemma exec_one n s e s' : exec n s [e] s' -> step n s e s' /\ crashed s = false.
Proof.
  intros H. remember [e] as l eqn:El. destruct H as [|tr0 sa e0 sb Ha Hc Hs]; [discriminate|].
  change [e] with ([] ++ [e]) in El. apply app_inj_tail in El as [-> ->].
  remember [] as l eqn:El. destruct Ha as [|tr1 sc e1 sd Ha Hc1 Hs1]; [auto|].
  apply (f_equal (@length event)) in El. rewrite app_length in El. cbn in El. lia.
Qed.

Lemma exec_uncons n s e tr s' : exec n s (e :: tr) s' -> exists s1, step n s e s1 /\ crashed s = false /\ exec n s1 tr s'.
Proof.
  intros H. destruct (exec_split n s [e] tr s' H) as (s1 & H1 & H2). exists s1. destruct (exec_one _ _ _ _ H1). auto.
Qed.

Lemma stopped_for_good n s tr s' : exec n s tr s' -> stop s = true ->
  stop s' = true /\ accepts tr = [] /\ forall j, ~ In (Shut j) tr.
Proof.
  induction 1 as [|tr s1 e s2 H IH Hc St]; intros Hs; [repeat split; auto|].
  destruct (IH Hs) as (H1 & H2 & H3). rewrite accepts_app, H2.
  destruct St; cbn; try congruence; repeat split; auto; intros j' HH; apply in_app_or in HH as [HH|[HH|[]]]; try discriminate; try (now apply (H3 j')).
Qed.

Lemma drop_stopped n s0 tr s : exec n s0 tr s -> stop s0 = false -> stop s = true -> exists i, In (Shut i) tr.
Proof.
  induction 1 as [|tr s1 e s2 H IH Hc St]; intros H0 Hs; [congruence|].
  assert (G : stop s1 = true \/ exists i, e = Shut i) by (destruct St; cbn in Hs; eauto).
  destruct G as [G|(i & ->)].
  - destruct (IH H0 G) as (i & Hi). exists i. apply in_or_app. auto.
  - exists i. apply in_or_app. right. now left.
Qed.

(** C35: tasks are handed out in the order in which they were accepted, each to one
    worker and at most once, run to completion at most once by the worker that took
    them; nothing is accepted after the stop flag is set and nothing is refused
    before. *)
Theorem C35_fifo_exactly_once : forall n clients tr s, exec n (init n clients) tr s ->
  (exists still_queued, accepts tr = starts tr ++ still_queued) /\
  map fst (accepts tr) = seq 0 (length (accepts tr)) /\
  NoDup (map fst (starts tr)) /\ NoDup (finishes tr) /\
  (forall w k, In (Finish w k) tr -> exists t, In (Start w k t) tr) /\
  (forall before i after, tr = before ++ Shut i :: after -> accepts after = [] /\ forall j, ~ In (Shut j) after) /\
  (forall before t after, tr = before ++ Drop t :: after -> exists i, In (Shut i) before).
Proof.
  intros n clients tr s H. destruct (exec_inv _ _ _ _ H) as [I T].
  assert (Hlen : length (accepts tr) = accepted s) by (rewrite <- (map_length fst), (t_num _ _ T); apply seq_length).
  assert (HN : NoDup (map fst (starts tr))).
  { pose proof (t_num _ _ T) as E. rewrite (t_queue _ _ T), map_app in E.
    assert (NoDup (map fst (starts tr) ++ map fst (queue s))) as ND by (rewrite E; apply seq_NoDup).
    clear -ND. induction (map fst (starts tr)) as [|x l IH]; [constructor|]. cbn in ND. inversion ND; subst. constructor; auto.
    intros Hin. apply H1. apply in_or_app. auto. }
  split; [exists (queue s); apply (t_queue _ _ T)|].
  split; [rewrite Hlen; apply (t_num _ _ T)|].
  split; [exact HN|]. split.
  { pose proof (t_run _ _ T) as P. apply (Permutation_NoDup P) in HN as ND. clear -ND.
    induction (finishes tr) as [|x l IH]; [constructor|]. cbn in ND. inversion ND; subst. constructor; auto.
    intros Hin. apply H1. apply in_or_app. auto. }
  split; [exact (t_fin _ _ T)|]. split.
  - intros before i after ->. destruct (exec_split n _ before (Shut i :: after) s H) as (sm & H1 & H2).
    apply exec_uncons in H2 as (s1 & St & _ & H2). assert (Hs : stop s1 = true) by (inversion St; reflexivity).
    destruct (stopped_for_good _ _ _ _ H2 Hs) as (_ & G). exact G.
  - intros before t after ->. destruct (exec_split n _ before (Drop t :: after) s H) as (sm & H1 & H2).
    apply exec_uncons in H2 as (s1 & St & _ & H2). apply (drop_stopped n _ _ sm H1); [reflexivity|]. inversion St; assumption.
Qed.

(** ... and when the Stop call that stops the pool returns, every accepted task has
    been run to completion and nothing will be started any more. *)
Theorem C35_stop_drains : forall n clients before i after s, 0 < n ->
  exec n (init n clients) (before ++ StopRet i true :: after) s ->
  starts before = accepts (before ++ StopRet i true :: after) /\
  Permutation (finishes before) (map fst (starts before)) /\
  starts after = [] /\ finishes after = [].
Proof.
  intros n clients before i after s Hn H. destruct (exec_split n _ before (StopRet i true :: after) s H) as (sm & H1 & H2).
  destruct (exec_inv _ _ _ _ H1) as [I T]. destruct (exec_inv _ _ _ _ H) as [I' T'].
  apply exec_uncons in H2 as (s1 & St & Hc & H2).
  assert (Hpc : exists job r, pc_of sm i (Calls (AJoin n) job r)) by (inversion St; eauto).
  destruct Hpc as (job & r & th & E & Ep). pose proof (i_ok _ _ I _ _ E) as Hok. rewrite Ep in Hok. cbn in Hok.
  destruct Hok as (Hs & _ & Hx).
  assert (Hq : queue sm = []).
  { destruct (Hx 0 Hn) as (t0 & E0 & Ep0). pose proof (i_ok _ _ I _ _ E0) as Hok. rewrite Ep0 in Hok. apply Hok. }
  assert (Hi : n <= i).
  { destruct (le_lt_dec n i) as [|Hi]; [assumption|]. destruct (Hx i Hi) as (t0 & E0 & Ep0). congruence. }
  assert (Hrun : running (threads sm) = []).
  { assert (G : forall l, (forall i th, nth_error l i = Some th -> jobs (th_pc th) = []) -> running l = []).
    { induction l as [|y l IH]; intros HH; cbn; [reflexivity|]. rewrite (HH 0 y eq_refl). cbn. apply IH. intros j. apply (HH (S j)). }
    apply G. intros j tj Ej. destruct (le_lt_dec n j) as [Hj|Hj].
    - pose proof (i_role _ _ I _ _ Ej) as Hr. apply Nat.ltb_ge in Hj. rewrite Hj in Hr. destruct (th_pc tj); cbn in Hr; try discriminate.
      destruct job0; [discriminate|reflexivity].
    - destruct (Hx j Hj) as (t0 & E0 & Ep0). rewrite E0 in Ej. injection Ej as <-. rewrite Ep0. reflexivity. }
  assert (Hacc : accepts (StopRet i true :: after) = []).
  { cbn. inversion St; subst. apply (stopped_for_good _ _ _ _ H2). exact Hs. }
  pose proof (t_queue _ _ T) as Q. rewrite Hq, app_nil_r in Q.
  assert (Hst : starts after = []).
  { pose proof (t_queue _ _ T') as Q'. rewrite accepts_app, Hacc, app_nil_r, Q, starts_app in Q'. cbn in Q'.
    rewrite <- app_assoc in Q'. rewrite <- (app_nil_r (starts before)) in Q' at 1. apply app_inv_head in Q'. symmetry in Q'. apply app_eq_nil in Q'. apply Q'. }
  pose proof (t_run _ _ T) as P. rewrite Hrun, app_nil_r in P.
  split; [rewrite accepts_app, Hacc, app_nil_r; now symmetry|]. split; [now symmetry|]. split; [exact Hst|].
  pose proof (t_run _ _ T') as P'. rewrite starts_app, finishes_app in P'.
  change (starts (StopRet i true :: after)) with (starts after) in P'. change (finishes (StopRet i true :: after)) with (finishes after) in P'.
  rewrite Hst, app_nil_r in P'.
  apply Permutation_length in P. apply Permutation_length in P'. rewrite !app_length in P'.
  destruct (finishes after); [reflexivity|]. cbn in P'. lia.
Qed.

(** ** No lost wake-up, no deadlock *)
Lemma waiting_dec s : (exists w, waiting s w) \/ (forall w, ~ waiting s w).
Proof.
  unfold waiting, pc_of. induction (threads s) as [|th l [[w (tw & E & Ep)]|IH]].
  - right. intros [|w] (th & E & _); discriminate.
  - left. exists (S w), tw. auto.
  - destruct (th_pc th) eqn:Ep.
    5: { left. exists 0, th. auto. }
    all: right; intros [|w] (th' & E & Ep'); cbn in E; [injection E as <-; congruence|apply (IH w); eauto].
Qed.

Section Quiet.
  Variables (n : nat) (s : state).
  Hypothesis I : inv n s.
  Hypothesis Q : quiet n s.

  Ltac go Hs := let w := fresh in let HwQ := fresh in destruct (Q _ _ Hs) as (w & HwQ); discriminate HwQ.

  Lemma quiet_free : mtx s = None.
  Proof.
    destruct (mtx s) as [i|] eqn:Em; [|reflexivity]. exfalso.
    pose proof (i_own _ _ I _ Em) as Hi. apply nth_error_Some in Hi. destruct (nth_error (threads s) i) as [th|] eqn:E; [|congruence].
    pose proof (proj2 (i_mtx _ _ I _ _ E) Em) as Hh. pose proof (i_ok _ _ I _ _ E) as Hok.
    assert (P : pc_of s i (th_pc th)) by (exists th; auto).
    destruct (th_pc th) as [| | | | | | | |k t|[] job r] eqn:Ep; try discriminate.
    - go (s_test n s i P).
    - go (s_sleep n s i P).
    - cbn in Hok. destruct (queue s) as [|[k t] q] eqn:Hq.
      + unfold ready in Hok. rewrite Hq, orb_false_r in Hok. go (s_exit n s i P Hok Hq).
      + go (s_pop n s i k t q P Hq).
    - go (s_exited n s i P).
    - go (s_go n s i k t P).
    - destruct (stop s) eqn:Hs; [go (s_push_drop n s i _ _ _ P Hs)|go (s_push_store n s i _ _ _ P Hs)].
    - go (s_push_unlock n s i _ _ P).
    - destruct (stop s) eqn:Hs; [go (s_stop_again n s i _ _ P Hs)|go (s_stop_set n s i _ _ P Hs)].
    - go (s_stop_unlock n s i _ _ P).
  Qed.

  Lemma quiet_pc0 i th : nth_error (threads s) i = Some th ->
    th_pc th = WWait \/ th_pc th = WExit \/ th_pc th = Calls AIdle None [] \/
    exists j job r, th_pc th = Calls (AJoin j) job r.
  Proof.
    intros E. pose proof quiet_free as Em.
    assert (P : pc_of s i (th_pc th)) by (exists th; auto).
    assert (Hh : holds (th_pc th) = true -> False) by (intros H; apply (i_mtx _ _ I _ _ E) in H; congruence).
    destruct (th_pc th) as [| | | | | | | |k t|[] job r] eqn:Ep; try (exfalso; apply Hh; reflexivity); auto.
    - exfalso. go (s_init n s i P).
    - exfalso. go (s_lock n s i P Em).
    - destruct r as [|[t| |] r].
      + destruct job as [k|]; [|auto]. exfalso. go (s_finish n s i k P).
      + exfalso. go (s_push n s i t job r P Em).
      + exfalso. go (s_stop n s i job r P Em).
      + exfalso. go (s_who n s i job r th E Ep).
    - exfalso. destruct (waiting_dec s) as [[w Hw]|Hw]; [go (s_notify_one n s i job r w P Hw)|go (s_notify_none n s i job r P Hw)].
    - exfalso. go (s_notify_all n s i job r P).
    - do 3 right. eauto.
  Qed.

  Lemma quiet_no_wait : stop s = true -> forall w, ~ waiting s w.
  Proof.
    intros Hs. destruct (i_alarm _ _ I Hs) as [(i & th & E & Ha)|H]; [|exact H]. exfalso.
    destruct (quiet_pc0 i th E) as [H|[H|[H|(j & job & r & H)]]]; rewrite H in Ha; discriminate.
  Qed.

  Lemma quiet_pc i th : nth_error (threads s) i = Some th ->
    th_pc th = WWait \/ th_pc th = WExit \/ th_pc th = Calls AIdle None [].
  Proof.
    intros E. destruct (quiet_pc0 i th E) as [H|[H|[H|(j & job & r & Hj)]]]; auto. exfalso.
    assert (P : pc_of s i (Calls (AJoin j) job r)) by (exists th; auto).
    pose proof (i_ok _ _ I _ _ E) as Hok. rewrite Hj in Hok. cbn in Hok. destruct Hok as (Hs & Hle & _).
    destruct (Nat.eq_dec j n) as [ -> | Hne]; [go (s_stop_return n s i job r P)|].
    assert (Hlt : j < n) by lia.
    destruct (Nat.eq_dec i j) as [ -> | Hij]; [go (s_join_self n s j job r P Hlt)|].
    assert (Hj' : nth_error (threads s) j <> None) by (apply nth_error_Some; pose proof (i_num _ _ I); lia).
    destruct (nth_error (threads s) j) as [tj|] eqn:Ej; [|congruence].
    destruct (quiet_pc0 j tj Ej) as [H|[H|[H|(j' & job' & r' & H)]]].
    - apply (quiet_no_wait Hs j). exists tj. auto.
    - assert (X : pc_of s j WExit) by (exists tj; auto). go (s_join n s i j job r P Hlt X).
    - pose proof (i_role _ _ I _ _ Ej) as Hr. rewrite H in Hr. apply Nat.ltb_lt in Hlt. rewrite Hlt in Hr. discriminate.
    - apply Hij. apply (i_one _ _ I i j th tj E Ej); [rewrite Hj|rewrite H]; reflexivity.
  Qed.
End Quiet.

(** C36: a state in which nothing can move (spurious wake-ups aside) is not a
    deadlock: all clients have completed their calls, the queue is empty (if there
    is a worker at all), every accepted task has completed, and the workers have all
    exited if Stop was called and all wait for work otherwise. *)
Theorem C36_no_deadlock : forall n clients tr s, exec n (init n clients) tr s -> quiet n s ->
  (forall i, n <= i < n + length clients -> pc_of s i (Calls AIdle None [])) /\
  (forall w, w < n -> pc_of s w (if stop s then WExit else WWait)) /\
  (0 < n -> queue s = [] /\ Permutation (finishes tr) (map fst (accepts tr))).
Proof.
  intros n clients tr s H Q. destruct (exec_inv _ _ _ _ H) as [I T].
  assert (HL : length (threads s) = n + length clients).
  { clear Q I T. induction H as [|tr s e s' H IH Hc St].
    - cbn. now rewrite app_length, repeat_length, map_length.
    - rewrite <- IH. destruct St; cbn; rewrite ?length_set_pc, ?length_upd, ?map_length; reflexivity. }
  assert (HG : forall i, i < n + length clients -> exists th, nth_error (threads s) i = Some th).
  { intros i Hi. rewrite <- HL in Hi. apply nth_error_Some in Hi. destruct (nth_error (threads s) i); [eauto|congruence]. }
  assert (HW : forall w, w < n -> pc_of s w (if stop s then WExit else WWait)).
  { intros w Hw. destruct (HG w ltac:(lia)) as (th & E). exists th. split; [exact E|].
    pose proof (i_ok _ _ I _ _ E) as Hok. pose proof (i_role _ _ I _ _ E) as Hr.
    assert (Hwb : (w <? n) = true) by now apply Nat.ltb_lt. rewrite Hwb in Hr.
    destruct (quiet_pc n s I Q w th E) as [Hp|[Hp|Hp]]; rewrite Hp in *.
    - destruct (stop s) eqn:Hs; [|reflexivity]. exfalso. apply (quiet_no_wait n s I Q Hs w). exists th. auto.
    - cbn in Hok. destruct Hok as [-> _]. reflexivity.
    - discriminate. }
  split; [|split; [exact HW|]].
  - intros i Hi. destruct (HG i ltac:(lia)) as (th & E). exists th. split; [exact E|].
    pose proof (i_role _ _ I _ _ E) as Hr. assert (Hib : (i <? n) = false) by (apply Nat.ltb_ge; lia). rewrite Hib in Hr.
    destruct (quiet_pc n s I Q i th E) as [Hp|[Hp|Hp]]; rewrite Hp in *; try discriminate. reflexivity.
  - intros Hn.
    assert (Hq : queue s = []).
    { pose proof (HW 0 Hn) as P0. destruct (stop s).
      - destruct P0 as (th & E & Ep). pose proof (i_ok _ _ I _ _ E) as Hok. rewrite Ep in Hok. apply Hok.
      - pose proof (i_wait _ _ I (ex_intro _ 0 P0)) as Hle. rewrite tsum_zero in Hle; [destruct (queue s); [reflexivity|cbn in Hle; lia]|].
        intros i th E. unfold heading. destruct (quiet_pc n s I Q i th E) as [Hp|[Hp|Hp]]; rewrite Hp; reflexivity. }
    split; [exact Hq|]. pose proof (t_queue _ _ T) as A. rewrite Hq, app_nil_r in A. rewrite A. symmetry.
    pose proof (t_run _ _ T) as P. replace (running (threads s)) with (@nil nat) in P; [now rewrite app_nil_r in P|].
    assert (G : forall l, (forall i th, nth_error l i = Some th -> jobs (th_pc th) = []) -> [] = running l).
    { induction l as [|y l IH]; intros HH; cbn; [reflexivity|]. rewrite (HH 0 y eq_refl). cbn. apply IH. intros j. apply (HH (S j)). }
    apply G. intros i th E. destruct (quiet_pc n s I Q i th E) as [Hp|[Hp|Hp]]; rewrite Hp; reflexivity.
Qed.

(** No lost wake-up, at every moment: while some worker sleeps, every queued task
    already has its own worker on the way (about to test the queue) or its own
    notification about to be sent. *)
Definition on_the_way (th : thread) : bool :=
  match th_pc th with
  | WInit | WLock | WTest | WSleep | WTake => true
  | Calls AUnlPush _ _ | Calls ANotifyOne _ _ => true
  | _ => false
  end.
Theorem C36_no_lost_wakeup : forall n clients tr s, exec n (init n clients) tr s ->
  (exists w, pc_of s w WWait) -> length (queue s) <= length (filter on_the_way (threads s)).
Proof.
  intros n clients tr s H Hw. destruct (exec_inv _ _ _ _ H) as [I _].
  pose proof (i_wait _ _ I Hw) as Hle. replace (length (filter on_the_way (threads s))) with (tsum heading (threads s)); [exact Hle|].
  clear. induction (threads s) as [|th l IH]; cbn [tsum filter]; [reflexivity|]. rewrite IH. unfold heading, on_the_way at 2.
  destruct (th_pc th) as [| | | | | | | | |[] ? ?]; reflexivity.
Qed.

(** Every execution is finite unless the operating system keeps waking workers
    spuriously for ever: the number of steps is bounded. *)
Fixpoint call_cost (stop_cost : nat) (c : call) : nat :=
  match c with
  | CPush t => 8 + task_cost stop_cost t
  | CStop => stop_cost
  | CWho => 1
  end
with task_cost (stop_cost : nat) (t : task) : nat :=
  match t with
  | Task _ body => 5 + (fix go (l : list call) : nat := match l with [] => 0 | c :: l' => call_cost stop_cost c + go l' end) body
  end.
Fixpoint calls_cost (stop_cost : nat) (l : list call) : nat :=
  match l with [] => 0 | c :: l' => call_cost stop_cost c + calls_cost stop_cost l' end.
Lemma task_cost_eq sc t : task_cost sc t = 5 + calls_cost sc (body_of t).
Proof. destruct t as [id body]. cbn. do 5 f_equal. induction body as [|c l IH]; cbn; [reflexivity|]. now rewrite IH. Qed.

(** [N]: threads in all. *)
Definition stop_cost (n N : nat) : nat := 4 * N + n + 5.
Definition budget (n : nat) (clients : list (list call)) : nat :=
  let N := n + length clients in
  5 * n + list_sum (map (calls_cost (stop_cost n N)) clients) + 1.

Section Cost.
  Variables (n N : nat).
  Let sc := stop_cost n N.
  Definition act_cost (a : act) : nat :=
    match a with
    | AIdle => 0
    | AHoldPush t => 7 + task_cost sc t
    | AUnlPush => 6
    | ANotifyOne => 5
    | AHoldStop => 4 * N + n + 4
    | AUnlStop => 4 * N + n + 3
    | ANotifyAll => 4 * N + n + 2
    | AJoin j => n - j + 1
    end.
  Definition pc_cost (p : pc) : nat :=
    match p with
    | WInit => 5 | WLock => 4 | WTest => 3 | WSleep => 2 | WTake => 2 | WExiting => 1 | WExit => 0 | WWait => 0
    | WGot _ t => 6 + calls_cost sc (body_of t)
    | Calls a job r => act_cost a + calls_cost sc r + (match job with Some _ => 5 | None => 0 end)
    end.
  Definition queue_cost (q : list (nat * task)) : nat := list_sum (map (fun x => task_cost sc (snd x)) q).
  Definition cost (s : state) : nat :=
    tsum (fun th => pc_cost (th_pc th)) (threads s) + queue_cost (queue s) + (if crashed s then 0 else 1).

  Lemma cost_wake l : tsum (fun th => pc_cost (th_pc th)) (map wake l) <= tsum (fun th => pc_cost (th_pc th)) l + 4 * length l.
  Proof. induction l as [|th l IH]; cbn; [lia|]. unfold wake at 1. destruct (th_pc th) eqn:E; cbn; rewrite ?E; cbn; lia. Qed.

  Lemma cost_step s e s' : N = length (threads s) -> crashed s = false -> step n s e s' ->
    cost s' + 1 <= cost s + (match e with Spurious _ => 5 | _ => 0 end).
  Proof.
    intros HN Hc St.
    assert (G : forall i p q, pc_of s i p -> tsum (fun th => pc_cost (th_pc th)) (set_pc i q (threads s)) + pc_cost p =
              tsum (fun th => pc_cost (th_pc th)) (threads s) + pc_cost q).
    { intros i p q (th & E & Ep). pose proof (tsum_set (fun th => pc_cost (th_pc th)) i q _ _ E) as HH. cbn in HH. now rewrite Ep in HH. }
    unfold cost. assert (Hsc : sc = 4 * N + n + 5) by reflexivity.
    destruct St; cbn [queue crashed threads goto with_threads with_mtx]; rewrite ?Hc;
      try (match goal with |- context[set_pc ?i ?q _] => pose proof (G _ _ q H) as G1; cbn [pc_cost act_cost calls_cost call_cost] in G1 end; try lia; fail).
    - destruct H as (th & E & Ep). pose proof (tsum_upd (fun th => pc_cost (th_pc th)) w {| th_pc := WLock; th_cur := Some w |} _ _ E) as HH.
      cbn in HH. rewrite Ep in HH. cbn in HH. lia.
    - pose proof (G _ _ (if ready s then WTake else WSleep) H) as G1. destruct (ready s); cbn in G1; lia.
    - pose proof (G _ _ (WGot k t) H) as G1. rewrite HQ. unfold queue_cost. cbn [map list_sum fold_right snd pc_cost] in *. rewrite task_cost_eq. unfold list_sum. lia.
    - pose proof (G _ _ (Calls AUnlPush job r) H) as G1. unfold queue_cost. rewrite map_app, list_sum_app. cbn in *. lia.
    - destruct HW as (tw & Ew & Ewp). pose proof (tsum_set (fun th => pc_cost (th_pc th)) w WLock _ _ Ew) as G1. cbn in G1. rewrite Ewp in G1. cbn in G1.
      destruct H as (th & E & Ep).
      assert (E' : nth_error (set_pc w WLock (threads s)) i = Some th).
      { rewrite (nth_set_pc w WLock _ i tw Ew). destruct (Nat.eqb_spec i w); [|exact E]. subst. congruence. }
      pose proof (tsum_set (fun th => pc_cost (th_pc th)) i (Calls AIdle job r) _ _ E') as G2. cbn in G2. rewrite Ep in G2. cbn in G2. lia.
    - destruct H as (th & E & Ep).
      assert (E' : nth_error (map wake (threads s)) i = Some th).
      { rewrite nth_wake, E. unfold wake. now rewrite Ep. }
      pose proof (tsum_set (fun th => pc_cost (th_pc th)) i (Calls (AJoin 0) job r) _ _ E') as G2. cbn -[Nat.mul Nat.sub] in G2. rewrite Ep in G2. cbn -[Nat.mul Nat.sub] in G2.
      pose proof (cost_wake (threads s)). rewrite <- HN in *. lia.
    - lia.
    - pose proof (G _ _ (Calls AIdle job r) (ex_intro _ th (conj H HP))) as G1. cbn in G1. lia.
  Qed.
End Cost.

Theorem C36_every_schedule_ends : forall n clients tr s, exec n (init n clients) tr s ->
  length tr <= budget n clients + 5 * spurious tr.
Proof.
  intros n clients tr s H. set (N := n + length clients).
  assert (G : N = length (threads s) /\ length tr + cost n N s <= cost n N (init n clients) + 5 * spurious tr).
  { induction H as [|tr s e s' H [HL IH] Hc St].
    - cbn [length]. split; [cbn; now rewrite app_length, repeat_length, map_length|lia].
    - split; [rewrite HL; destruct St; cbn; rewrite ?length_set_pc, ?length_upd, ?map_length; reflexivity|].
      pose proof (cost_step n N s e s' HL Hc St) as Hd. rewrite app_length. unfold spurious in *. rewrite filter_app, app_length. cbn [length].
      destruct e; cbn [filter length] in *; lia. }
  destruct G as [_ G]. enough (cost n N (init n clients) = budget n clients) by lia.
  unfold cost, budget. cbn [queue crashed threads init queue_cost map list_sum]. fold N.
  assert (A : forall a b, tsum (fun th => pc_cost n N (th_pc th)) (a ++ b) = tsum (fun th => pc_cost n N (th_pc th)) a + tsum (fun th => pc_cost n N (th_pc th)) b).
  { induction a as [|x a IH]; intros b; cbn; [reflexivity|]. rewrite IH. lia. }
  rewrite A. assert (B : tsum (fun th => pc_cost n N (th_pc th)) (repeat {| th_pc := WInit; th_cur := None |} n) = 5 * n).
  { clear. induction n as [|m IH] at 2 3; cbn -[Nat.mul]; [lia|]. rewrite IH. cbn. lia. }
  rewrite B. assert (C : tsum (fun th => pc_cost n N (th_pc th)) (map (fun l => {| th_pc := Calls AIdle None l; th_cur := None |}) clients)
     = list_sum (map (calls_cost (stop_cost n N)) clients)).
  { clearbody N. clear. induction clients as [|l cl IH]; cbn -[Nat.mul]; [reflexivity|]. rewrite IH. unfold list_sum. lia. }
  rewrite C. unfold queue_cost. cbn. lia.
Qed.

(** ** Examples and counterexamples *)
Ltac at_pc := eexists; split; [reflexivity|reflexivity].
Lemma exec_cons_eq n s e e' s1 tr s' : step n s e s1 -> e = e' -> crashed s = false -> exec n s1 tr s' -> exec n s (e' :: tr) s'.
Proof. intros St <-. now apply exec_cons. Qed.
Ltac st c := eapply exec_cons; [c|reflexivity|cbn].

Definition job0 : task := Task 0 [].

(** Worker 0, one client: push a task that pushes another one, then stop.  A full run. *)
Definition demo_clients : list (list call) := [[CPush (Task 7 [CPush (Task 8 []); CWho]); CStop]].
Definition demo_trace : list event :=
  [Tau; Tau; Tau; Tau;                                          (* worker starts and goes to sleep *)
   Tau; Accept 0 (Task 7 [CPush (Task 8 []); CWho]); Tau; Tau;  (* push, notify *)
   Tau; Tau; Start 0 0 (Task 7 [CPush (Task 8 []); CWho]); Tau;
   Tau; Accept 1 (Task 8 []); Tau;                              (* the task pushes *)
   Tau; Shut 1; Tau;                                            (* the client stops *)
   Tau; Who 0 (Some 0); Finish 0 0;
   Tau;                                                         (* notify_all *)
   Tau; Tau; Start 0 1 (Task 8 []); Tau; Finish 0 1;
   Tau; Tau; Tau; Tau;                                          (* worker exits *)
   Tau; StopRet 1 true].

Lemma demo_run : exists s, exec 1 (init 1 demo_clients) demo_trace s /\ quiet 1 s /\ stop s = true.
Proof.
  unfold demo_trace, demo_clients, init. cbn. eexists. split; [|split].
  - st ltac:(eapply s_init with (w := 0); at_pc).
    st ltac:(eapply s_lock with (w := 0); [at_pc|reflexivity]).
    st ltac:(eapply s_test with (w := 0); at_pc).
    st ltac:(eapply s_sleep with (w := 0); at_pc).
    st ltac:(eapply s_push with (i := 1); [at_pc|reflexivity]).
    st ltac:(eapply (s_push_store 1) with (i := 1); [at_pc|reflexivity]).
    st ltac:(eapply s_push_unlock with (i := 1); at_pc).
    st ltac:(eapply s_notify_one with (i := 1) (w := 0); [at_pc|at_pc]).
    st ltac:(eapply s_lock with (w := 0); [at_pc|reflexivity]).
    st ltac:(eapply s_test with (w := 0); at_pc).
    st ltac:(eapply s_pop with (w := 0); [at_pc|reflexivity]).
    st ltac:(eapply s_go with (w := 0); at_pc).
    st ltac:(eapply s_push with (i := 0); [at_pc|reflexivity]).
    st ltac:(eapply (s_push_store 1) with (i := 0); [at_pc|reflexivity]).
    st ltac:(eapply s_push_unlock with (i := 0); at_pc).
    st ltac:(eapply s_stop with (i := 1); [at_pc|reflexivity]).
    st ltac:(eapply (s_stop_set 1) with (i := 1); [at_pc|reflexivity]).
    st ltac:(eapply s_stop_unlock with (i := 1); at_pc).
    st ltac:(eapply s_notify_none with (i := 0); [at_pc|intros [|[|[|w]]] (th & E & Ep); cbn in E; try discriminate; injection E as <-; discriminate]).
    eapply exec_cons_eq; [eapply s_who with (i := 0); [reflexivity|reflexivity]|reflexivity|reflexivity|cbn].
    st ltac:(eapply s_finish with (w := 0); at_pc).
    st ltac:(eapply s_notify_all with (i := 1); at_pc).
    st ltac:(eapply s_lock with (w := 0); [at_pc|reflexivity]).
    st ltac:(eapply s_test with (w := 0); at_pc).
    st ltac:(eapply s_pop with (w := 0); [at_pc|reflexivity]).
    st ltac:(eapply s_go with (w := 0); at_pc).
    st ltac:(eapply s_finish with (w := 0); at_pc).
    st ltac:(eapply s_lock with (w := 0); [at_pc|reflexivity]).
    st ltac:(eapply s_test with (w := 0); at_pc).
    st ltac:(eapply s_exit with (w := 0); [at_pc|reflexivity|reflexivity]).
    st ltac:(eapply s_exited with (w := 0); at_pc).
    st ltac:(eapply s_join with (i := 1); [at_pc|auto|at_pc]).
    st ltac:(eapply s_stop_return with (i := 1); at_pc).
    constructor.
  - intros e s' St.
    inversion St; subst; try (destruct H as (th & E & Ep)); try (rename HP into Ep; rename H into E);
      match type of E with nth_error _ ?w = _ => destruct w as [|[|[|w']]] end; cbn in E; try discriminate; injection E as <-; cbn in Ep; discriminate.
  - reflexivity.
Qed.

Example C35_met : exists s, exec 1 (init 1 demo_clients) demo_trace s /\
  starts demo_trace = [(0, Task 7 [CPush (Task 8 []); CWho]); (1, Task 8 [])] /\ finishes demo_trace = [0; 1].
Proof. destruct demo_run as (s & H & _). exists s. split; [exact H|]. split; reflexivity. Qed.

(** C37 fails: schedule() answers true for a function that no continuation will
    ever run, (1) when the pool has been stopped, (2) when it has no worker. *)
Theorem C37_schedule_truthful_refuted :
  (exists clients tr s t, exec 1 (init 1 clients) tr s /\ In (Drop t) tr /\ schedule_result (Drop t) = Some true /\
     forall tr' s', exec 1 s tr' s' -> starts (tr ++ tr') = []) /\
  (exists clients tr s k t, exec 0 (init 0 clients) tr s /\ In (Accept k t) tr /\ schedule_result (Accept k t) = Some true /\
     forall tr' s', exec 0 s tr' s' -> starts (tr ++ tr') = []).
Proof.
  split.
  - exists [[CStop]; [CPush job0]], [Tau; Shut 1; Tau; Tau; Drop job0].
    assert (G : exists s, exec 1 (init 1 [[CStop]; [CPush job0]]) [Tau; Shut 1; Tau; Tau; Drop job0] s /\ stop s = true).
    { unfold init. cbn. eexists. split.
      - st ltac:(eapply s_stop with (i := 1); [at_pc|reflexivity]).
        st ltac:(eapply (s_stop_set 1) with (i := 1); [at_pc|reflexivity]).
        st ltac:(eapply s_stop_unlock with (i := 1); at_pc).
        st ltac:(eapply s_push with (i := 2); [at_pc|reflexivity]).
        st ltac:(eapply s_push_drop with (i := 2); [at_pc|reflexivity]).
        constructor.
      - reflexivity. }
    destruct G as (s & H & Hs). exists s, job0. split; [exact H|]. split; [right; right; right; right; now left|]. split; [reflexivity|].
    intros tr' s' H'. destruct (stopped_for_good _ _ _ _ H' Hs) as (_ & Ha & _).
    pose proof (exec_app _ _ _ _ _ _ H H') as HH. destruct (C35_fifo_exactly_once _ _ _ _ HH) as ((q & Hq) & _).
    rewrite accepts_app, Ha in Hq. cbn [accepts flat_map app] in Hq. symmetry in Hq. now apply app_eq_nil in Hq.
  - exists [[CPush job0]], [Tau; Accept 0 job0].
    assert (G : exists s, exec 0 (init 0 [[CPush job0]]) [Tau; Accept 0 job0] s).
    { unfold init. cbn. eexists.
      st ltac:(eapply s_push with (i := 0); [at_pc|reflexivity]).
      st ltac:(eapply (s_push_store 0) with (i := 0); [at_pc|reflexivity]). constructor. }
    destruct G as (s & H). exists s, 0, job0. split; [exact H|]. split; [right; now left|]. split; [reflexivity|].
    intros tr' s' H'. rewrite starts_app. cbn [starts flat_map app].
    assert (I : inv 0 s) by (apply (exec_inv _ _ _ _ H)). clear H. induction H' as [|tr s1 e s2 H IH Hc St]; [reflexivity|].
    change (starts (tr ++ [e]) = []). change (starts tr = []) in IH. rewrite starts_app, IH.
    assert (I' : inv 0 s1). { clear -I H. induction H; auto. eapply inv_step; eauto. }
    destruct St; try reflexivity. exfalso. destruct H0 as (th & E & Ep). pose proof (i_role _ _ I' _ _ E) as Hr. rewrite Ep in Hr. discriminate.
Qed.

(** What holds: with at least one worker, whatever was stored in the queue has been
    run when nothing moves any more, and every run gets there (C36). *)
Theorem C37_accepted_runs_partial : forall n clients tr s k t, 0 < n ->
  exec n (init n clients) tr s -> quiet n s -> In (Accept k t) tr -> In k (finishes tr).
Proof.
  intros n clients tr s k t Hn H Q Hin. destruct (C36_no_deadlock _ _ _ _ H Q) as (_ & _ & G). destruct (G Hn) as (_ & P).
  apply (Permutation_in _ (Permutation_sym P)). change k with (fst (k, t)). apply in_map. unfold accepts. apply in_flat_map.
  exists (Accept k t). split; [exact Hin|now left].
Qed.
Example C37_met : exists s, exec 1 (init 1 demo_clients) demo_trace s /\ quiet 1 s /\ In (Accept 1 (Task 8 [])) demo_trace.
Proof. destruct demo_run as (s & H & Q & _). exists s. do 2 (split; [assumption|]). do 13 right. now left. Qed.

(** C53 fails: a Stop call that finds the pool already stopping returns at once,
    while an accepted task has not even been started. *)
Theorem C53_every_stop_drains_refuted : exists clients tr s,
  exec 1 (init 1 clients) tr s /\ In (StopRet 2 false) tr /\ accepts tr <> [] /\ finishes tr = [].
Proof.
  exists [[CPush job0; CStop]; [CStop]],
    [Tau; Accept 0 job0; Tau; Tau; Tau; Shut 1; Tau; Tau; StopRet 2 false].
  unfold init. cbn. eexists. split.
  - st ltac:(eapply s_push with (i := 1); [at_pc|reflexivity]).
    st ltac:(eapply (s_push_store 1) with (i := 1); [at_pc|reflexivity]).
    st ltac:(eapply s_push_unlock with (i := 1); at_pc).
    st ltac:(eapply s_notify_none with (i := 1); [at_pc|intros [|[|[|[|w]]]] (th & E & Ep); cbn in E; try discriminate; injection E as <-; discriminate]).
    st ltac:(eapply s_stop with (i := 1); [at_pc|reflexivity]).
    st ltac:(eapply (s_stop_set 1) with (i := 1); [at_pc|reflexivity]).
    st ltac:(eapply s_stop_unlock with (i := 1); at_pc).
    st ltac:(eapply s_stop with (i := 2); [at_pc|reflexivity]).
    st ltac:(eapply s_stop_again with (i := 2); [at_pc|reflexivity]).
    constructor.
  - repeat split; [do 8 right; now left|discriminate].
Qed.

(** What holds: such a call returns only after another one has set the flag, and no
    accepted task is lost: if the run gets to its end they have all completed. *)
Theorem C53_late_stop_partial : forall n clients before i after s, 0 < n ->
  exec n (init n clients) (before ++ StopRet i false :: after) s ->
  (exists j, In (Shut j) before) /\
  (quiet n s -> Permutation (finishes (before ++ StopRet i false :: after)) (map fst (accepts before))).
Proof.
  intros n clients before i after s Hn H. destruct (exec_split n _ before (StopRet i false :: after) s H) as (sm & H1 & H2).
  apply exec_uncons in H2 as (s1 & St & Hc & H2). assert (Hs : stop sm = true) by (inversion St; assumption).
  split; [apply (drop_stopped n _ _ sm H1); [reflexivity|exact Hs]|].
  intros Q. destruct (C36_no_deadlock _ _ _ _ H Q) as (_ & _ & G). destruct (G Hn) as (_ & P). rewrite P, accepts_app.
  change (accepts (StopRet i false :: after)) with (accepts after).
  assert (Hs1 : stop s1 = true) by (inversion St; subst; exact Hs).
  destruct (stopped_for_good _ _ _ _ H2 Hs1) as (_ & -> & _). now rewrite app_nil_r.
Qed.
Example C53_met : exists s, exec 1 (init 1 [[CStop]; [CStop]]) ([Tau; Shut 1; Tau; Tau] ++ StopRet 2 false :: []) s.
Proof.
  unfold init. cbn. eexists.
  st ltac:(eapply s_stop with (i := 1); [at_pc|reflexivity]).
  st ltac:(eapply (s_stop_set 1) with (i := 1); [at_pc|reflexivity]).
  st ltac:(eapply s_stop_unlock with (i := 1); at_pc).
  st ltac:(eapply s_stop with (i := 2); [at_pc|reflexivity]).
  st ltac:(eapply s_stop_again with (i := 2); [at_pc|reflexivity]).
  constructor.
Qed.

(** C54: GetCurrentId (hence currentContextId and currentThreadInExecutor) answers i
    inside worker i and -1 on every other thread. *)
Theorem C54_current_id : forall n clients tr s i r, exec n (init n clients) tr s -> In (Who i r) tr ->
  r = if i <? n then Some i else None.
Proof.
  intros n clients tr s i r H. induction H as [|tr s e s' H IH Hc St]; [intros []|].
  intros Hin. apply in_app_or in Hin as [Hin|[ -> |[]]]; [auto|].
  destruct (exec_inv _ _ _ _ H) as [I _]. inversion St; subst. pose proof (i_cur _ _ I _ _ H3) as G.
  destruct (i <? n); [|exact G]. destruct G as [G|G]; [congruence|exact G].
Qed.
Example C54_met : In (Who 0 (Some 0)) demo_trace.
Proof. do 19 right. now left. Qed.

(** C55 fails: a later executor with another worker count gets the pool of the first. *)
Definition after_executors (l : list nat) : option nat := fold_left GetOrConstructInstance l None.
Theorem C55_worker_num_refuted : forall first later others,
  GetWorkerNum (after_executors (first :: others ++ [later])) = first.
Proof.
  intros first later others. unfold after_executors. cbn. 
  assert (G : forall l, fold_left GetOrConstructInstance l (Some first) = Some first) by (induction l; auto).
  now rewrite G.
Qed.
Theorem C55_first_worker_num_partial : forall w, GetWorkerNum (after_executors [w]) = w.
Proof. reflexivity. Qed.

(** C56 fails: a task that calls Stop makes its worker join itself; the exception
    leaves the thread function and the process is terminated. *)
Theorem C56_stop_inside_task_refuted : exists tr s,
  exec 1 (init 1 [[CPush (Task 0 [CStop])]]) tr s /\ crashed s = true.
Proof.
  unfold init. cbn. eexists. eexists. split.
  - st ltac:(eapply s_push with (i := 1); [at_pc|reflexivity]).
    st ltac:(eapply (s_push_store 1) with (i := 1); [at_pc|reflexivity]).
    st ltac:(eapply s_push_unlock with (i := 1); at_pc).
    st ltac:(eapply s_init with (w := 0); at_pc).
    st ltac:(eapply s_lock with (w := 0); [at_pc|reflexivity]).
    st ltac:(eapply s_test with (w := 0); at_pc).
    st ltac:(eapply s_pop with (w := 0); [at_pc|reflexivity]).
    st ltac:(eapply s_go with (w := 0); at_pc).
    st ltac:(eapply s_stop with (i := 0); [at_pc|reflexivity]).
    st ltac:(eapply (s_stop_set 1) with (i := 0); [at_pc|reflexivity]).
    st ltac:(eapply s_stop_unlock with (i := 0); at_pc).
    st ltac:(eapply s_notify_all with (i := 0); at_pc).
    st ltac:(eapply (s_join_self 1) with (i := 0); [at_pc|auto]).
    constructor.
  - reflexivity.
Qed.

(** What holds: if no task calls Stop, the pool never brings the process down. *)
Fixpoint quiet_task (t : task) : bool :=
  match t with
  | Task _ body => (fix go (l : list call) : bool :=
      match l with
      | [] => true
      | CPush t' :: l' => quiet_task t' && go l'
      | CStop :: _ => false
      | CWho :: l' => go l'
      end) body
  end.
Definition quiet_call (c : call) : bool := match c with CPush t => quiet_task t | _ => true end.
Fixpoint quiet_body (l : list call) : bool :=
  match l with
  | [] => true
  | CPush t :: l' => quiet_task t && quiet_body l'
  | CStop :: _ => false
  | CWho :: l' => quiet_body l'
  end.
Lemma quiet_task_body t : quiet_task t = quiet_body (body_of t).
Proof. destruct t as [id body]. cbn. induction body as [|[t| |] l IH]; cbn; rewrite ?IH; reflexivity. Qed.

Definition quiet_act (job : option nat) (a : act) : bool :=
  match a with
  | AHoldPush t => quiet_task t
  | AHoldStop | AUnlStop | ANotifyAll | AJoin _ => match job with Some _ => false | None => true end
  | _ => true
  end.
Definition quiet_pcb (p : pc) : bool :=
  match p with
  | WGot _ t => quiet_task t
  | Calls a (Some k) r => quiet_act (Some k) a && quiet_body r
  | Calls a None r => quiet_act None a && forallb quiet_call r
  | _ => true
  end.
Definition qinv (s : state) : Prop :=
  (forall i p, pc_of s i p -> quiet_pcb p = true) /\ forallb (fun x => quiet_task (snd x)) (queue s) = true.

Lemma pc_of_goto s i p j q : pc_of (goto s i p) j q -> q = p \/ pc_of s j q.
Proof.
  intros (th & E & Ep). cbn in E. unfold set_pc in E. destruct (nth_error (threads s) i) as [t0|] eqn:E0; [|right; exists th; auto].
  rewrite nth_upd, E0 in E. destruct (j =? i); [injection E as <-; left; now symmetry|right; exists th; auto].
Qed.

Lemma pc_of_wake_all s j q : pc_of (with_threads s (map wake (threads s))) j q -> q = WLock \/ pc_of s j q.
Proof.
  intros (th & E & Ep). cbn in E. rewrite nth_wake in E. destruct (nth_error (threads s) j) as [t0|] eqn:E0; [|discriminate].
  injection E as <-. unfold wake in Ep. destruct (th_pc t0) eqn:E1; cbn in Ep; auto; right; exists t0; split; auto; congruence.
Qed.

Lemma qinv_step n s e s' : inv n s -> qinv s -> step n s e s' -> qinv s' /\ e <> Crash.
Proof.
  intros I [Hp Hq] St.
  assert (G : forall s1 i p0 p, pc_of s i p0 -> (quiet_pcb p0 = true -> quiet_pcb p = true) ->
    threads s1 = threads s -> queue s1 = queue s -> qinv (goto s1 i p)).
  { intros s1 i p0 p P0 HH E1 E2. split; [|cbn; now rewrite E2]. intros j q Hj. apply pc_of_goto in Hj as [ -> |Hj].
    - apply HH. now apply (Hp i).
    - apply (Hp j). destruct Hj as (th & E & Ep). exists th. rewrite <- E1. auto. }
  destruct St; try (split; [|discriminate]); try (eapply G; [exact H| |reflexivity|reflexivity]; cbn; auto; try (destruct job; rewrite ?andb_true_iff; cbn; tauto); fail).
  - split; [|exact Hq]. intros j q (th & E & Ep). cbn in E. rewrite nth_upd in E. destruct (j =? w).
    + destruct (nth_error (threads s) w); [|discriminate]. injection E as <-. cbn in Ep. now subst q.
    + apply (Hp j). exists th. auto.
  - destruct (ready s); (eapply G; [exact H| |reflexivity|reflexivity]; auto).
  - rewrite HQ in Hq. cbn in Hq. apply andb_true_iff in Hq as [Ht Hq]. split; [|exact Hq].
    intros j p Hj. apply pc_of_goto in Hj as [ -> |Hj]; [exact Ht|]. now apply (Hp j).
  - eapply G; [exact H| |reflexivity|reflexivity]. cbn. now rewrite quiet_task_body.
  - pose proof (Hp _ _ H) as P. split.
    + intros j p Hj. apply pc_of_goto in Hj as [ -> |Hj]; [|now apply (Hp j)]. destruct job; cbn in *; apply andb_true_iff in P; apply P.
    + cbn. rewrite forallb_app, Hq. cbn. destruct job; cbn in P; apply andb_true_iff in P as [ -> _]; reflexivity.
  - pose proof (Hp _ _ H) as P. split; [|exact Hq]. intros j p Hj. apply pc_of_goto in Hj as [ -> |Hj]; [destruct job; exact P|].
    apply pc_of_goto in Hj as [ -> |Hj]; [reflexivity|now apply (Hp j)].
  - eapply G; [exact H| |reflexivity|reflexivity]. destruct job; cbn; [discriminate|auto].
  - pose proof (Hp _ _ H) as P. split; [|exact Hq]. intros j p Hj. apply pc_of_goto in Hj as [ -> |Hj]; [destruct job; [discriminate|exact P]|].
    apply pc_of_wake_all in Hj as [ -> |Hj]; [reflexivity|now apply (Hp j)].
  - exfalso. pose proof (Hp _ _ H) as P. destruct H as (th & E & Ep). pose proof (i_role _ _ I _ _ E) as Hr. rewrite Ep in Hr.
    apply Nat.ltb_lt in HJ. rewrite HJ in Hr. destruct job; discriminate.
  - eapply G; [exact H| |reflexivity|reflexivity]. destruct job; cbn; [discriminate|auto].
  - eapply G; [exists th; split; [exact H|exact HP]| |reflexivity|reflexivity]. destruct job; cbn; auto.
Qed.

Theorem C56_no_termination_partial : forall n clients tr s,
  (forall l, In l clients -> forallb quiet_call l = true) ->
  exec n (init n clients) tr s -> crashed s = false /\ ~ In Crash tr.
Proof.
  intros n clients tr s Hcl H.
  enough (qinv s /\ crashed s = false /\ ~ In Crash tr) by tauto.
  induction H as [|tr s e s' H IH Hc St].
  - split; [|split; [reflexivity|intros []]]. split; [|reflexivity].
    intros i p (th & E & <-). cbn in E. destruct (init_thread n clients i th E) as [[Hi ->]|[Hi (l & El)]]; [reflexivity|].
    cbn. apply nth_error_In in E. apply in_app_or in E as [E|E].
    + apply repeat_spec in E. congruence.
    + apply in_map_iff in E as (l' & <- & Hl). cbn. now apply Hcl.
  - destruct IH as (Q & Hc' & Hn). destruct (exec_inv _ _ _ _ H) as [I _]. destruct (qinv_step _ _ _ _ I Q St) as [Q' He].
    split; [exact Q'|]. split.
    + destruct St; cbn; try assumption. congruence.
    + intros Hin. apply in_app_or in Hin as [Hin|[Hin|[]]]; [now apply Hn|]. now apply He.
Qed.
Example C56_met : forall l, In l demo_clients -> forallb quiet_call l = true.
Proof. intros l [<-|[]]. reflexivity. Qed.
