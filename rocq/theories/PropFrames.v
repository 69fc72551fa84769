(** * Properties C62, C63: who owns what the parallel parser allocates. *)
From Verif Require Import Base BaseLemmas ModelPool ModelStorage ModelFrames PropPool.
From Coq Require Import ZifyBool ZifyNat ZifyN Permutation.

(** Pools alive in a tree of coroutines. *)
Fixpoint pools (f : frame) : list nat :=
  match f with
  | FNew _ | FFail => []
  | FRun i _ => [i]
  | FAwait i _ cs _ => i :: flat_map pools cs
  | FDone r => [r]
  end.
Fixpoint hasfail (f : frame) : bool :=
  match f with FFail => true | FAwait _ _ cs _ => existsb hasfail cs | _ => false end.

Lemma member_ops_eq k op : member_ops k op =
  match op with
  | BpNew => [OpNew]
  | BpAlloc i k' t => if cls_eqb k k' then [OpAlloc i t] else []
  | BpMerge i j => [OpMerge i j]
  | BpClear i => [OpClear i]
  | BpMove j => [OpMoveNew j]
  | BpAssign i j => [OpMoveAssign i j]
  | BpDestroy i => [OpDestroy i]
  end.
Proof. destruct op as [|i k' t| | | | |]; try (destruct k; reflexivity). cbn. now destruct (cls_eqb k k'). Qed.

Lemma member_run_app k a b : member_run k (a ++ b) = member_run k a ++ member_run k b.
Proof. apply flat_map_app. Qed.

Lemma legal_run_app a : forall alive b, legal_run alive (a ++ b) <-> legal_run alive a /\ legal_run (fold_left alive_after a alive) b.
Proof. induction a as [|x a IH]; intros alive b; cbn; [tauto|]. rewrite IH. tauto. Qed.

Lemma alive_length op alive : length (alive_after alive op) = pools_after (length alive) op.
Proof. destruct op; cbn; try reflexivity; try (rewrite app_length; cbn; lia). apply put_length. Qed.

Lemma own_run_app a : forall alive b ra rb own, length a = length ra ->
  own_run (length alive) (a ++ b) (ra ++ rb) own = own_run (length (fold_left alive_after a alive)) b rb (own_run (length alive) a ra own).
Proof.
  induction a as [|x a IH]; intros alive b ra rb own H; destruct ra as [|r ra]; try discriminate H; cbn; [reflexivity|].
  rewrite <- alive_length. rewrite IH by (cbn in H; lia). reflexivity.
Qed.

Lemma NoDup_app_remove_l {X} (l l' : list X) : NoDup (l ++ l') -> NoDup l'.
Proof. induction l as [|x l IH]; cbn; [auto|]. intros H. inversion H; subst. auto. Qed.
Lemma NoDup_app_remove_r {X} (l l' : list X) : NoDup (l ++ l') -> NoDup l.
Proof.
  induction l as [|x l IH]; cbn; [constructor|]. intros H. inversion H; subst. constructor; [|auto].
  intros Hin. match goal with Hn : ~ In _ _ |- _ => apply Hn, in_or_app; now left end.
Qed.

Section Own.
  Variable n0 : nat.
  Variable own0 : owners.
  Hypothesis own0_old : forall s q, own0 s = Some q -> (q < n0)%nat.

  Definition A (alive : list bool) (q : nat) : Prop := nth_error alive q = Some true /\ (n0 <= q)%nat.

  Definition J (P : nat -> Prop) (b : bool) (news : list slot_id) (own : owners) : Prop :=
    (forall s, In s news -> (own s = None /\ b = true) \/ exists q, P q /\ own s = Some q) /\
    (forall s, ~ In s news -> own s = own0 s).

  Definition T alive (P : nat -> Prop) b ops alive' (P' : nat -> Prop) b' : Prop :=
    legal_run alive ops /\ fold_left alive_after ops alive = alive' /\
    forall rs own news, Forall2 good_result ops rs -> J P b news own ->
      J P' b' (news ++ slots_returned rs) (own_run (length alive) ops rs own).

  Lemma T_nil alive (P P' : nat -> Prop) b b' : (forall q, P q -> P' q) -> (b = true -> b' = true) -> T alive P b [] alive P' b'.
  Proof.
    intros HP Hb. split; [exact I|]. split; [reflexivity|]. intros rs own news HF [H1 H2]. inversion HF. subst. cbn.
    rewrite app_nil_r. split; [|exact H2]. intros s Hs. destruct (H1 s Hs) as [[? ?]|(q & ? & ?)]; [left; auto|right; eauto].
  Qed.

  Lemma T_app al P b o1 al1 P1 b1 o2 al2 P2 b2 :
    T al P b o1 al1 P1 b1 -> T al1 P1 b1 o2 al2 P2 b2 -> T al P b (o1 ++ o2) al2 P2 b2.
  Proof.
    intros (L1 & E1 & H1) (L2 & E2 & H2). split; [apply legal_run_app; now rewrite E1|]. split; [now rewrite fold_left_app, E1|].
    intros rs own news HF HJ. apply Forall2_app_inv_l in HF as (r1 & r2 & HF1 & HF2 & ->).
    rewrite own_run_app by (clear - HF1; induction HF1; cbn; lia). rewrite E1. unfold slots_returned. rewrite flat_map_app.
    fold (slots_returned r1) (slots_returned r2). rewrite app_assoc. auto.
  Qed.

  Lemma T_weak al P b o al1 (P1 P1' : nat -> Prop) b1 b1' : (forall q, P1 q -> P1' q) -> (b1 = true -> b1' = true) -> T al P b o al1 P1 b1 -> T al P b o al1 P1' b1'.
  Proof. intros HP Hb H. rewrite <- (app_nil_r o). eapply T_app; [exact H|]. now apply T_nil. Qed.

  Lemma T_pre al (P P' : nat -> Prop) b o al1 P1 b1 : (forall q, P q -> P' q) -> T al P' b o al1 P1 b1 -> T al P b o al1 P1 b1.
  Proof. intros HP H. apply (T_app al P b [] al P' b o al1 P1 b1); [now apply T_nil|exact H]. Qed.

  Lemma one op alive (P P' : nat -> Prop) b b' : legal alive op ->
    (forall r own news, good_result op r -> J P b news own -> J P' b' (news ++ slots_returned [r]) (own_step (length alive) op r own)) ->
    T alive P b [op] (alive_after alive op) P' b'.
  Proof.
    intros HL H. split; [split; [exact HL|exact I]|]. split; [reflexivity|]. intros rs own news HF HJ.
    inversion HF as [|? r ? rs' Hg HF' ]. subst. inversion HF'. subst. cbn [own_run]. auto.
  Qed.

  Lemma J_none P b news own (own' : owners) P' b' :
    (forall s, In s news -> (own' s = None /\ b' = true) \/ exists q, P' q /\ own' s = Some q) ->
    (forall s, ~ In s news -> own' s = own s) -> J P b news own -> J P' b' (news ++ slots_returned [RNone]) own'.
  Proof. intros H1 H2 [G1 G2]. cbn. rewrite app_nil_r. split; [exact H1|]. intros s Hs. now rewrite H2, G2. Qed.

  Lemma T_new alive (P : nat -> Prop) b : T alive P b [OpNew] (alive ++ [true]) P b.
  Proof.
    apply (one OpNew); [exact I|]. intros r own news Hg HJ. cbn in Hg. subst. cbn [own_step].
    eapply J_none; [|reflexivity|exact HJ]. apply HJ.
  Qed.

  Lemma T_alloc alive (P : nat -> Prop) b i t : nth_error alive i = Some true -> P i -> T alive P b [OpAlloc i t] alive P b.
  Proof.
    intros Ha Hi. apply (one (OpAlloc i t)); [exact Ha|]. intros r own news Hg HJ. destruct t; cbn in Hg.
    - subst. cbn. rewrite app_nil_r. exact HJ.
    - destruct Hg as (s & ->). cbn. destruct HJ as [H1 H2]. split.
      + intros x Hx. destruct (slot_eqb_spec x s) as [->|Hne]; [right; eauto|]. apply in_app_or in Hx as [Hx|[<-|[]]]; [auto|congruence].
      + intros x Hx. destruct (slot_eqb_spec x s) as [->|Hne]; [exfalso; apply Hx, in_or_app; right; now left|].
        apply H2. intros Hin. apply Hx, in_or_app. now left.
  Qed.

  Lemma own_old own news s q P b : J P b news own -> ~ In s news -> own s = Some q -> (q < n0)%nat.
  Proof. intros [_ H] Hn E. rewrite H in E by exact Hn. eauto. Qed.

  Lemma T_merge alive (P : nat -> Prop) b i r : nth_error alive i = Some true -> A alive r -> i <> r ->
    T alive P b [OpMerge i r] alive (fun q => q = i \/ (P q /\ q <> r)) b.
  Proof.
    intros Hi [Hr Hr0] Hne. apply (one (OpMerge i r)); [repeat split; auto|]. intros x own news Hg HJ. cbn in Hg. subst. cbn [own_step].
    eapply J_none; [| |exact HJ].
    - intros s Hs. destruct HJ as [H1 _]. unfold hand_over. destruct (H1 s Hs) as [[E ->]|(q & Hq & E)]; rewrite E; [now left|].
      right. destruct (Nat.eqb_spec q r) as [->|Hqr]; eauto.
    - intros s Hs. unfold hand_over. destruct (own s) as [q|] eqn:E; [|reflexivity]. pose proof (own_old _ _ _ _ _ _ HJ Hs E).
      destruct (Nat.eqb_spec q r); [lia|reflexivity].
  Qed.

  Lemma T_destroy alive (P : nat -> Prop) b r : A alive r -> (b = true \/ ~ P r) ->
    T alive P b [OpDestroy r] (put r false alive) (fun q => P q /\ q <> r) b.
  Proof.
    intros [Hr Hr0] Hor. apply (one (OpDestroy r)); [exact Hr|]. intros x own news Hg HJ. cbn in Hg. subst. cbn [own_step].
    eapply J_none; [| |exact HJ].
    - intros s Hs. destruct HJ as [H1 _]. unfold drop. destruct (H1 s Hs) as [[E ->]|(q & Hq & E)]; rewrite E; [now left|].
      destruct (Nat.eqb_spec q r) as [->|Hqr]; [|right; eauto]. destruct Hor as [->|Hn]; [now left|contradiction].
    - intros s Hs. unfold drop. destruct (own s) as [q|] eqn:E; [|reflexivity]. pose proof (own_old _ _ _ _ _ _ HJ Hs E).
      destruct (Nat.eqb_spec q r); [lia|reflexivity].
  Qed.

  Lemma T_move alive (P : nat -> Prop) b r : A alive r ->
    T alive P b [OpMoveNew r] (alive ++ [true]) (fun q => q = length alive \/ (P q /\ q <> r)) b.
  Proof.
    intros [Hr Hr0]. apply (one (OpMoveNew r)); [exact Hr|]. intros x own news Hg HJ. cbn in Hg. subst. cbn [own_step].
    eapply J_none; [| |exact HJ].
    - intros s Hs. destruct HJ as [H1 _]. unfold hand_over. destruct (H1 s Hs) as [[E ->]|(q & Hq & E)]; rewrite E; [now left|].
      right. destruct (Nat.eqb_spec q r) as [->|Hqr]; eauto.
    - intros s Hs. unfold hand_over. destruct (own s) as [q|] eqn:E; [|reflexivity]. pose proof (own_old _ _ _ _ _ _ HJ Hs E).
      destruct (Nat.eqb_spec q r); [lia|reflexivity].
  Qed.

  Lemma A_push alive q : (n0 <= length alive)%nat -> A (alive ++ [true]) q <-> A alive q \/ q = length alive.
  Proof.
    intros Hn. unfold A. destruct (lt_dec q (length alive)) as [H|H].
    - rewrite nth_error_app1 by exact H. split; [tauto|]. intros [?|?]; [tauto|lia].
    - rewrite nth_error_app2 by lia. destruct (q - length alive)%nat as [|m] eqn:E.
      + cbn. split; intros _; [right; lia|split; [reflexivity|lia]].
      + replace (nth_error [true] (S m)) with (@None bool) by (destruct m; reflexivity). split; [intros [? ?]; discriminate|].
        intros [[Hq _]|?]; [|lia]. exfalso. assert (q < length alive)%nat by (apply nth_error_Some; congruence). lia.
  Qed.

  Lemma A_kill alive r q : nth_error alive r = Some true -> A (put r false alive) q <-> A alive q /\ q <> r.
  Proof.
    intros Hr. unfold A. rewrite nth_error_put by (apply nth_error_Some; congruence).
    destruct (Nat.eqb_spec q r) as [->|Hne]; [|tauto]. split; [intros [? ?]; discriminate|tauto].
  Qed.

  (** Destroying a list of pools that own nothing, or in a failed run. *)
  Lemma T_destroys rs : forall alive (P : nat -> Prop) b, NoDup rs -> (forall r, In r rs -> A alive r) ->
    (b = true \/ forall r, In r rs -> ~ P r) ->
    exists alive', T alive P b (map OpDestroy rs) alive' (fun q => P q /\ ~ In q rs) b /\ length alive' = length alive /\
      (forall q, A alive' q <-> A alive q /\ ~ In q rs) /\ (forall q, (q < n0)%nat -> nth_error alive' q = nth_error alive q).
  Proof.
    induction rs as [|r rs IH]; intros alive P b HN HA Hor.
    - exists alive. split; [apply T_nil; auto|]. split; [reflexivity|]. split; [intros q; cbn; tauto|reflexivity].
    - inversion HN as [|? ? Hr HN']; subst. destruct (HA r (or_introl eq_refl)) as [Hr1 Hr2].
      destruct (IH (put r false alive) (fun q => P q /\ q <> r) b HN') as (al' & HT & Hl & HA' & Hold).
      + intros x Hx. apply A_kill; [exact Hr1|]. split; [apply HA; now right|]. intros ->. contradiction.
      + destruct Hor as [->|Hor]; [now left|]. right. intros x Hx [HP _]. apply (Hor x); [now right|exact HP].
      + exists al'. split.
        { change (map OpDestroy (r :: rs)) with ([OpDestroy r] ++ map OpDestroy rs). eapply T_app.
          - apply T_destroy; [split; [exact Hr1|exact Hr2]|]. destruct Hor as [->|Hor]; [now left|right; apply Hor; now left].
          - eapply T_weak; [| |exact HT]; [|auto]. intros q [[Hq Hne] Hni]. split; [exact Hq|]. intros [->|Hin]; auto. }
        split; [rewrite Hl; apply put_length|]. split.
        * intros q. rewrite HA', A_kill by exact Hr1. cbn. split; [intros [[? ?] ?]; split; [auto|intros [?|?]; auto]|intros [? Hn]; split; [split; [auto|intros ->; apply Hn; now left]|intros ?; apply Hn; now right]].
        * intros q Hq. rewrite Hold by exact Hq. rewrite nth_error_put by (apply nth_error_Some; congruence).
          destruct (Nat.eqb_spec q r); [lia|reflexivity].
  Qed.

  (** The merge loop. *)
  Lemma T_merges i l : forall alive (P : nat -> Prop) b ops ok k, nth_error alive i = Some true -> P i ->
    (forall r, In r (held l) -> A alive r /\ r <> i) -> merges i l = (ops, ok) ->
    T alive P b (member_run k ops) alive (fun q => P q /\ (ok = true -> ~ In q (held l))) b.
  Proof.
    induction l as [|f l IH]; intros alive P b ops ok k Hi HP Hh Hm.
    - cbn in Hm. injection Hm as <- <-. apply T_nil; cbn; auto.
    - cbn in Hm. destruct f as [| | |r|]; try (injection Hm as <- <-; apply T_nil; [intros q Hq; split; [exact Hq|discriminate]|auto]).
      destruct (merges i l) as [ops' ok'] eqn:E. injection Hm as <- <-. cbn [member_run flat_map].
      rewrite member_ops_eq. fold (member_run k ops'). destruct (Hh r (or_introl eq_refl)) as [HA Hne].
      eapply T_app; [apply T_merge; auto; exact Hi|].
      eapply T_pre; [|eapply T_weak; [| |apply (IH alive (fun q => P q /\ q <> r) b ops' ok' k); auto]].
      + cbn. intros q [->|H]; [split; auto|exact H].
      + cbn. intros q [[Hq Hqr] Hnot]. split; [exact Hq|]. intros Hok [->|Hin]; [congruence|]. now apply Hnot.
      + auto.
      + intros x Hx. apply Hh. now right.
  Qed.

  Lemma member_destroys k rs : member_run k (map BpDestroy rs) = map OpDestroy rs.
  Proof. induction rs as [|r rs IH]; cbn [map member_run flat_map]; [reflexivity|]. rewrite member_ops_eq. cbn. f_equal. exact IH. Qed.

  Lemma held_rev l : forall r, In r (held (rev l)) <-> In r (held l).
  Proof. intros r. unfold held. rewrite !in_flat_map. split; intros (f & Hf & H); exists f; split; auto; [now apply in_rev|now apply -> in_rev]. Qed.

  Lemma done_pools l : forallb done l = true -> flat_map pools l = held l.
  Proof. induction l as [|f l IH]; cbn; [reflexivity|]. intros H. apply andb_prop in H as [Hf H]. rewrite IH by exact H. now destruct f. Qed.

  Lemma merges_fail i l ops : forallb done l = true -> merges i l = (ops, false) -> existsb hasfail l = true.
  Proof.
    revert ops. induction l as [|f l IH]; intros ops Hd Hm; cbn in *; [discriminate|]. apply andb_prop in Hd as [Hf Hd].
    destruct f; try discriminate Hf; [|reflexivity]. destruct (merges i l) as [o b] eqn:E. injection Hm as <- ->. cbn. eauto.
  Qed.

  Lemma merges_ok i l ops : merges i l = (ops, true) -> existsb hasfail l = false.
  Proof.
    revert ops. induction l as [|f l IH]; intros ops Hm; cbn in *; [reflexivity|].
    destruct f; try discriminate Hm. destruct (merges i l) as [o b] eqn:E. injection Hm as <- ->. cbn. eauto.
  Qed.

  Lemma existsb_rev {X} (g : X -> bool) l : existsb g (rev l) = existsb g l.
  Proof. induction l as [|x l IH]; cbn; [reflexivity|]. rewrite existsb_app, IH. cbn. rewrite Bool.orb_false_r. apply Bool.orb_comm. Qed.
  Lemma forallb_rev {X} (g : X -> bool) l : forallb g (rev l) = forallb g l.
  Proof. induction l as [|x l IH]; cbn; [reflexivity|]. rewrite forallb_app, IH. cbn. rewrite Bool.andb_true_r. apply Bool.andb_comm. Qed.

  Lemma move_then_destroy r n alive Q bq : n = length alive -> (n0 <= length alive)%nat -> NoDup (r :: Q) -> (forall q, In q (r :: Q) <-> A alive q) ->
    exists alive', S n = length alive' /\ (n0 <= length alive')%nat /\ NoDup (n :: Q) /\ (forall q, In q (n :: Q) <-> A alive' q) /\
      T alive (fun q => In q (r :: Q)) bq [OpMoveNew r; OpDestroy r] alive' (fun q => In q (n :: Q)) bq /\
      (forall q, (q < n0)%nat -> nth_error alive' q = nth_error alive q).
  Proof.
    intros -> Hn0 HN HA. assert (Hr : A alive r) by (apply HA; now left).
    assert (Hrl : (r < length alive)%nat) by (apply nth_error_Some; destruct Hr; congruence).
    assert (Hr' : A (alive ++ [true]) r) by (apply A_push; auto).
    exists (put r false (alive ++ [true])). rewrite put_length, app_length. cbn [length]. split; [lia|]. split; [lia|].
    inversion HN as [|? ? Hni HN']; subst.
    assert (Hf : ~ In (length alive) Q). { intros Hin. assert (Hin' : In (length alive) (r :: Q)) by now right. apply HA in Hin' as [Hin' _]. assert (length alive < length alive)%nat by (apply nth_error_Some; congruence). lia. }
    split; [now constructor|]. split.
    { intros q. rewrite A_kill by apply Hr'. rewrite A_push by exact Hn0. rewrite <- HA. cbn. split.
      - intros [<-|Hq]; [split; [now right|lia]|]. split; [auto|]. intros ->. contradiction.
      - intros [[[->|Hq]| -> ] Hne]; [congruence|now right|now left]. }
    split.
    - apply (T_app alive _ _ [OpMoveNew r] (alive ++ [true]) (fun q => q = length alive \/ (In q (r :: Q) /\ q <> r)) bq [OpDestroy r]).
      + now apply T_move.
      + eapply T_weak; [| |apply T_destroy; [exact Hr'|right; intros [E|[_ E]]; [lia|congruence]]]; [|auto].
        cbn. intros q [[->|[[->|Hq] _]] Hne]; [now left|congruence|now right].
    - intros q Hq. rewrite nth_error_put by (rewrite app_length; cbn; lia). destruct Hr. destruct (Nat.eqb_spec q r); [lia|].
      apply nth_error_app1. lia.
  Qed.

  (** One step of one coroutine, the others holding the pools [Q]. *)
  Lemma fstep_ok k n f ops n' f' : fstep n f ops n' f' -> forall alive Q bq,
    n = length alive -> (n0 <= length alive)%nat -> NoDup (pools f ++ Q) -> (forall q, In q (pools f ++ Q) <-> A alive q) ->
    exists alive', n' = length alive' /\ (n0 <= length alive')%nat /\ NoDup (pools f' ++ Q) /\ (forall q, In q (pools f' ++ Q) <-> A alive' q) /\
      T alive (fun q => In q (pools f ++ Q)) (hasfail f || bq) (member_run k ops) alive' (fun q => In q (pools f' ++ Q)) (hasfail f' || bq) /\
      (forall q, (q < n0)%nat -> nth_error alive' q = nth_error alive q).
  Proof.
    induction 1; intros alive Q bq Hn Hn0 HN HA; cbn [pools hasfail app member_run flat_map] in *; rewrite ?member_ops_eq; cbn [app].
    - (* start *)
      exists (alive ++ [true]). rewrite app_length. cbn. split; [lia|]. split; [lia|]. subst n.
      assert (Hf : ~ In (length alive) Q). { intros Hin. apply HA in Hin as [Hin _]. assert (length alive < length alive)%nat by (apply nth_error_Some; congruence). lia. }
      split; [now constructor|]. split; [intros q; rewrite A_push by exact Hn0; rewrite <- HA; split; [intros [?|?]; auto|intros [?|?]; auto]|].
      split; [eapply T_weak; [| |apply T_new]; cbn; auto|]. intros q Hq. apply nth_error_app1. lia.
    - (* alloc *)
      exists alive. assert (Hi : A alive i) by (apply HA; now left). split; [exact Hn|]. split; [exact Hn0|]. split; [exact HN|]. split; [exact HA|].
      split; [|reflexivity]. destruct (cls_eqb k k0); cbn [app]; [apply T_alloc; [apply Hi|now left]|apply T_nil; auto].
    - (* throwing constructor *)
      assert (Hi : A alive i) by (apply HA; now left). inversion HN as [|? ? Hni HN']; subst.
      exists (put i false alive). rewrite put_length. split; [reflexivity|]. split; [exact Hn0|]. split; [exact HN'|].
      split. { intros q. rewrite A_kill by apply Hi. rewrite <- HA. split; [intros Hq; split; [now right|congruence]|intros [[->|Hq] Hne]; [congruence|exact Hq]]. }
      split; [|intros q Hq; rewrite nth_error_put by (apply nth_error_Some; destruct Hi; congruence); destruct Hi; destruct (Nat.eqb_spec q i); [lia|reflexivity]].
      eapply T_app with (al1 := alive) (P1 := fun q => In q (i :: Q)) (b1 := true).
      + eapply T_weak; [| |destruct (cls_eqb k k0); [apply T_alloc; [apply Hi|now left]|apply T_nil; [intros q Hq; exact Hq|intros Hb; exact Hb]]]; auto.
      + eapply T_weak; [| |apply T_destroy; [exact Hi|now left]]; [cbn; intros q [[->|Hq] Hne]; [congruence|exact Hq]|auto].
    - (* throw *)
      assert (Hi : A alive i) by (apply HA; now left). inversion HN as [|? ? Hni HN']; subst.
      exists (put i false alive). rewrite put_length. split; [reflexivity|]. split; [exact Hn0|]. split; [exact HN'|].
      split. { intros q. rewrite A_kill by apply Hi. rewrite <- HA. split; [intros Hq; split; [now right|congruence]|intros [[->|Hq] Hne]; [congruence|exact Hq]]. }
      split; [|intros q Hq; rewrite nth_error_put by (apply nth_error_Some; destruct Hi; congruence); destruct Hi; destruct (Nat.eqb_spec q i); [lia|reflexivity]].
      apply (T_app alive _ _ [] alive (fun q => In q (i :: Q)) true [OpDestroy i]); [apply T_nil; auto|].
      eapply T_weak; [| |apply T_destroy; [exact Hi|now left]]; [cbn; intros q [[->|Hq] Hne]; [congruence|exact Hq]|auto].
    - (* spawn *)
      assert (Hz : flat_map pools (map FNew js) = []) by (induction js; auto).
      assert (Hz' : existsb hasfail (map FNew js) = false) by (induction js; auto).
      exists alive. rewrite Hz, Hz'. cbn [app]. split; [exact Hn|]. split; [exact Hn0|]. split; [exact HN|]. split; [exact HA|].
      split; [apply T_nil; auto|reflexivity].
    - (* a child steps *)
      set (Q' := i :: flat_map pools l1 ++ flat_map pools l2 ++ Q).
      assert (HP : forall x, Permutation ((i :: flat_map pools (l1 ++ x :: l2)) ++ Q) (pools x ++ Q')).
      { intros x. rewrite flat_map_app. cbn [flat_map]. unfold Q'. cbn [app].
        transitivity (i :: pools x ++ flat_map pools l1 ++ flat_map pools l2 ++ Q); [|apply Permutation_middle].
        constructor. rewrite <- !app_assoc. rewrite (app_assoc (flat_map pools l1)), (app_assoc (pools x)). apply Permutation_app_tail. apply Permutation_app_comm. }
      assert (HI : forall x q, In q ((i :: flat_map pools (l1 ++ x :: l2)) ++ Q) <-> In q (pools x ++ Q')).
      { intros x q. split; apply Permutation_in; [|symmetry]; apply HP. }
      destruct (IHfstep alive Q' (existsb hasfail l1 || existsb hasfail l2 || bq)%bool Hn Hn0) as (al' & E & El & HN1 & HA1 & HT & Hold).
      + eapply Permutation_NoDup; [apply HP|exact HN].
      + intros q. rewrite <- HA. symmetry. apply HI.
      + exists al'. split; [exact E|]. split; [exact El|]. split; [eapply Permutation_NoDup; [symmetry; apply HP|exact HN1]|].
        split; [intros q; rewrite <- HA1; apply HI|]. split; [|exact Hold].
        assert (Hb : forall x, (existsb hasfail (l1 ++ x :: l2) || bq)%bool = (hasfail x || (existsb hasfail l1 || existsb hasfail l2 || bq))%bool).
        { intros x. rewrite existsb_app. cbn. destruct (hasfail x), (existsb hasfail l1), (existsb hasfail l2), bq; reflexivity. }
        rewrite !Hb. eapply T_pre; [|eapply T_weak; [| |exact HT]]; [intros q; apply HI|intros q; apply HI|auto].
    - (* join *)
      set (l := if b then rev cs else cs) in *.
      assert (Hhl : forall r, In r (held l) <-> In r (held cs)) by (unfold l; destruct b; [intros r; apply held_rev|tauto]).
      rewrite (done_pools cs H) in *.
      assert (Hi : A alive i) by (apply HA; now left).
      assert (HNh : NoDup (held cs)). { inversion HN; subst. eapply NoDup_app_remove_r; eassumption. }
      assert (Hhi : forall r, In r (held cs) -> A alive r /\ r <> i).
      { intros r Hr. split; [apply HA; right; apply in_or_app; now left|]. intros ->. inversion HN; subst. apply H3, in_or_app. now left. }
      assert (HM : T alive (fun q => In q ((i :: held cs) ++ Q)) (existsb hasfail cs || bq) (member_run k ops) alive (fun q => In q ((i :: held cs) ++ Q) /\ (true = true -> ~ In q (held l))) (existsb hasfail cs || bq)).
      { eapply T_merges; [apply Hi|now left| |exact H0]. intros r Hr. apply Hhi. now apply Hhl. }
      destruct (T_destroys (held cs) alive (fun q => In q ((i :: held cs) ++ Q) /\ (true = true -> ~ In q (held l))) (existsb hasfail cs || bq) HNh) as (al' & HT & Hl & HA' & Hold).
      + intros r Hr. now apply Hhi.
      + right. intros r Hr [_ Hn']. apply Hn'; [reflexivity|]. now apply Hhl.
      + exists al'. split; [congruence|]. split; [lia|]. split.
        { inversion HN as [|? ? Hni HN']; subst. constructor; [intros Hin; apply Hni, in_or_app; now right|]. now apply NoDup_app_remove_l in HN'. }
        split. { intros q. rewrite HA', <- HA. cbn. rewrite in_app_iff. split; [|tauto].
          intros [<-|Hq]; [split; [now left|]; intros Hin; now apply (proj2 (Hhi _ Hin))|]. split; [auto|]. intros Hin.
          inversion HN as [|? ? Hni HN']; subst. clear - HN' Hin Hq. induction (held cs) as [|x t IH]; [destruct Hin|]. cbn in HN'. inversion HN'; subst.
          destruct Hin as [->|Hin]; [apply H1, in_or_app; now right|]. auto. }
        split; [|exact Hold]. fold (member_run k (ops ++ map BpDestroy (held cs))). rewrite member_run_app, member_destroys.
        assert (Hnf : existsb hasfail cs = false).
        { apply merges_ok in H0. unfold l in H0. destruct b; [now rewrite existsb_rev in H0|exact H0]. }
        rewrite Hnf in *. cbn [orb] in *. eapply T_app; [exact HM|]. eapply T_weak; [| |exact HT]; [|auto].
        cbn. intros q [[[Hq|Hq] _] Hni]; [now left|]. apply in_app_or in Hq as [Hq|Hq]; [contradiction|now right].
    - (* rethrow *)
      set (l := if b then rev cs else cs) in *.
      assert (Hhl : forall r, In r (held l) <-> In r (held cs)) by (unfold l; destruct b; [intros r; apply held_rev|tauto]).
      rewrite (done_pools cs H) in *.
      assert (Hi : A alive i) by (apply HA; now left).
      assert (Hf : existsb hasfail cs = true).
      { apply merges_fail in H0; unfold l in *; destruct b; rewrite ?existsb_rev, ?forallb_rev in *; auto. }
      rewrite Hf in *. cbn [orb] in *.
      assert (HNh : NoDup (held cs ++ [i])).
      { inversion HN as [|? ? Hni HN']; subst. eapply Permutation_NoDup; [apply Permutation_cons_append|]. constructor; [intros Hin; apply Hni, in_or_app; now left|].
        eapply NoDup_app_remove_r; eassumption. }
      assert (Hhi : forall r, In r (held cs) -> A alive r /\ r <> i).
      { intros r Hr. split; [apply HA; right; apply in_or_app; now left|]. intros ->. inversion HN; subst. apply H3, in_or_app. now left. }
      assert (HM : T alive (fun q => In q ((i :: held cs) ++ Q)) true (member_run k ops) alive (fun q => In q ((i :: held cs) ++ Q) /\ (false = true -> ~ In q (held l))) true).
      { eapply T_merges; [apply Hi|now left| |exact H0]. intros r Hr. apply Hhi. now apply Hhl. }
      destruct (T_destroys (held cs ++ [i]) alive (fun q => In q ((i :: held cs) ++ Q) /\ (false = true -> ~ In q (held l))) true HNh) as (al' & HT & Hl & HA' & Hold).
      + intros r Hr. apply in_app_or in Hr as [Hr|[<-|[]]]; [now apply Hhi|exact Hi].
      + now left.
      + exists al'. split; [congruence|]. split; [lia|]. split.
        { inversion HN as [|? ? Hni HN']; subst. now apply NoDup_app_remove_l in HN'. }
        split. { intros q. rewrite HA', <- HA. cbn. rewrite !in_app_iff. cbn. split; [|tauto].
          intros Hq. split; [auto|]. inversion HN as [|? ? Hni HN']; subst. intros [Hin|[<-|[]]].
          - clear - HN' Hin Hq. induction (held cs) as [|x t IH]; [destruct Hin|]. cbn in HN'. inversion HN'; subst.
            destruct Hin as [->|Hin]; [apply H1, in_or_app; now right|]. auto.
          - apply Hni, in_or_app. now right. }
        split; [|exact Hold]. fold (member_run k (ops ++ map BpDestroy (held cs) ++ [BpDestroy i])).
        change [BpDestroy i] with (map BpDestroy [i]). rewrite <- map_app.
        rewrite member_run_app, member_destroys.
        eapply T_app; [exact HM|]. eapply T_weak; [| |exact HT]; [|auto].
        cbn. intros q [[[Hq|Hq] _] Hni]; [exfalso; apply Hni, in_or_app; right; now left|]. apply in_app_or in Hq as [Hq|Hq]; [|exact Hq].
        exfalso. apply Hni, in_or_app. now left.
    - (* return *)
      apply (move_then_destroy i n alive Q bq); auto.
    - apply (move_then_destroy r n alive Q bq); auto.
  Qed.

  (** Whole executions. *)
  Lemma fsteps_ok k n f ops n' f' : fsteps n f ops n' f' -> forall alive,
    n = length alive -> (n0 <= length alive)%nat -> NoDup (pools f) -> (forall q, In q (pools f) <-> A alive q) ->
    exists alive', n' = length alive' /\ (n0 <= length alive')%nat /\ NoDup (pools f') /\ (forall q, In q (pools f') <-> A alive' q) /\
      T alive (fun q => In q (pools f)) (hasfail f) (member_run k ops) alive' (fun q => In q (pools f')) (hasfail f') /\
      (forall q, (q < n0)%nat -> nth_error alive' q = nth_error alive q).
  Proof.
    induction 1 as [n f|n f o1 n1 f1 o2 n2 f2 H IH Hs]; intros alive Hn Hn0 HN HA.
    - exists alive. split; [exact Hn|]. split; [exact Hn0|]. split; [exact HN|]. split; [exact HA|]. split; [apply T_nil; auto|reflexivity].
    - destruct (IH alive Hn Hn0 HN HA) as (al1 & E1 & El1 & HN1 & HA1 & HT1 & Ho1).
      destruct (fstep_ok k _ _ _ _ _ Hs al1 [] false) as (al2 & E2 & El2 & HN2 & HA2 & HT2 & Ho2); rewrite ?app_nil_r; auto.
      exists al2. rewrite app_nil_r in HN2. split; [exact E2|]. split; [exact El2|]. split; [exact HN2|]. split.
      { intros q. specialize (HA2 q). rewrite app_nil_r in HA2. exact HA2. }
      split.
      + rewrite member_run_app. eapply T_app; [exact HT1|]. rewrite !Bool.orb_false_r in HT2.
        eapply T_pre; [|eapply T_weak; [| |exact HT2]]; cbn beta; try (intros q; rewrite app_nil_r); auto.
      + intros q Hq. rewrite Ho2, Ho1 by exact Hq. reflexivity.
  Qed.
End Own.

(** Number of objects of class [k] constructed by a list of operations. *)
Definition allocs (k : cls) (ops : list bp_op) : nat :=
  length (filter (fun op => match op with BpAlloc _ k' false => cls_eqb k k' | _ => false end) ops).

Lemma slots_count k ops rs : Forall2 good_result (member_run k ops) rs -> length (slots_returned rs) = allocs k ops.
Proof.
  revert rs. induction ops as [|op ops IH]; intros rs H; cbn in H.
  - inversion H. reflexivity.
  - fold (member_run k ops) in H. rewrite member_ops_eq in H. apply Forall2_app_inv_l in H as (r1 & r2 & H1 & H2 & ->).
    unfold slots_returned. rewrite flat_map_app, app_length. fold (slots_returned r1) (slots_returned r2). rewrite (IH _ H2).
    unfold allocs. cbn [filter]. destruct op as [|i k' t| | | | |]; try (inversion H1 as [|? ? ? ? G H1']; subst; inversion H1'; subst; cbn in G; subst; reflexivity).
    destruct (cls_eqb k k') eqn:E; [|inversion H1; subst; cbn; destruct t; reflexivity].
    inversion H1 as [|? ? ? ? G H1']; subst; inversion H1'; subst. destruct t; cbn in G; [now subst|]. destruct G as (s & ->). reflexivity.
Qed.

Lemma own_old_pools w alive own h s q : inv w alive own h -> own s = Some q -> (q < length alive)%nat.
Proof.
  intros I E. apply (i_own _ _ _ _ I) in E as (b & Hb & _). destruct (lt_dec q (length alive)) as [H|H]; [exact H|].
  rewrite (i_len _ _ _ _ I) in H. rewrite pool_at_none in Hb by lia. destruct Hb.
Qed.

Lemma owned_live w alive own h s : inv w alive own h -> (h_live h s = true <-> own s <> None).
Proof.
  intros I. split.
  - intros Hl. pose proof (i_live_only _ _ _ _ I s Hl) as Hb. destruct (i_heap_only _ _ _ _ I _ Hb) as (i & b & Hin & Eb).
    assert (own s = Some i); [|congruence]. apply (i_own _ _ _ _ I). exists b. split; [exact Hin|]. split; [exact Eb|].
    pose proof (i_heap _ _ _ _ I i b Hin) as Hh. unfold heap_has in Hh. rewrite Eb in Hh. destruct Hh as [_ Hh]. destruct s as [s1 s2]. cbn in *. rewrite Hh in Hl. lia.
  - intros Ho. destruct (own s) as [i|] eqn:E; [|congruence]. apply (i_own _ _ _ _ I) in E as (b & Hin & Eb & Hlt).
    pose proof (i_heap _ _ _ _ I i b Hin) as Hh. unfold heap_has in Hh. rewrite Eb in Hh. destruct Hh as [_ Hh]. destruct s as [s1 s2]. cbn in *. rewrite Hh. lia.
Qed.

(** The world after a history [pre] and a parse performing [ops], seen by the objects
    of one class: results of both parts, final owners and heap. *)
Definition outcome_of (k : cls) (pre ops : list bp_op) (rs1 rs2 : list pool_result) (own1 own2 : owners) (w2 : pworld) (h : heap) : Prop :=
  exists w1, let rd := require_destruct k in
    pool_run rd pworld0 (member_run k pre) = Ok (w1, rs1) /\
    pool_run rd w1 (member_run k ops) = Ok (w2, rs2) /\
    heap_run rd heap0 (w_trace w2) = Some h /\
    own1 = own_run 0 (member_run k pre) rs1 (fun _ => None) /\
    own2 = own_run (length (w_pools w1)) (member_run k ops) rs2 own1.

(** C62.  After any history of pool operations in which the caller's pool [p] is
    alive, and for any tree of tasks run in any interleaving to a result: every node
    and item allocated by any of the tasks is alive and owned by the caller's pool,
    nothing the pools owned before has changed hands, no other pool is left, and
    memory was only used legally. *)
Theorem C62_parallel_parse_owned : forall k pre p n j ops m r,
  legal_run [] (member_run k pre) ->
  nth_error (fold_left alive_after (member_run k pre) []) p = Some true ->
  n = length (fold_left alive_after (member_run k pre) []) ->
  fsteps n (FNew j) ops m (FDone r) ->
  exists rs1 rs2 own1 own2 w h,
    outcome_of k pre (ops ++ deliver p r) rs1 rs2 own1 own2 w h /\
    length (slots_returned rs2) = allocs k ops /\
    (forall s, In s (slots_returned rs2) -> own2 s = Some p /\ h_live h s = true) /\
    (forall s, ~ In s (slots_returned rs2) -> own2 s = own1 s) /\
    (forall q v, (n <= q)%nat -> nth_error (w_pools w) q <> Some (Some v)).
Proof.
  intros k pre p n j ops m r HL Hp Hn Hrun. set (al0 := fold_left alive_after (member_run k pre) []) in *.
  destruct (run_ok (require_destruct k) (member_run k pre) pworld0 [] (fun _ => None) heap0 inv0) as (w1 & rs1 & h1 & Hr1 & Hg1 & Hh1 & Hc1 & HN1 & I1);
    [reflexivity|constructor|exact HL|]. fold al0 in I1. set (own1 := own_run (length (@nil bool)) (member_run k pre) rs1 (fun _ => None)) in *.
  assert (Hold : forall s q, own1 s = Some q -> (q < n)%nat) by (intros s q E; rewrite Hn; eapply own_old_pools; eassumption).
  destruct (fsteps_ok n own1 Hold k _ _ _ _ _ Hrun al0) as (al1 & E1 & El1 & HNp & HA1 & HT1 & Ho1); [exact Hn|lia|constructor| |].
  { intros q. cbn. split; [intros []|]. intros [Hq Hge]. assert (q < length al0)%nat by (apply nth_error_Some; congruence). lia. }
  cbn [pools hasfail] in *.
  assert (Hpn : (p < n)%nat) by (rewrite Hn; apply nth_error_Some; congruence).
  assert (Hr : A n al1 r) by (apply HA1; now left).
  assert (HT2 : T own1 al1 (fun q => In q [r]) false [OpMerge p r; OpDestroy r] (put r false al1) (fun q => q = p) false).
  { apply (T_app own1 al1 _ _ [OpMerge p r] al1 (fun q => q = p) false [OpDestroy r]).
    - eapply T_weak; [| |apply (T_merge n); [exact Hold|rewrite Ho1 by exact Hpn; exact Hp|exact Hr|destruct Hr; lia]]; [|auto].
      cbn. intros q [->|[[->|[]] Hne]]; [reflexivity|congruence].
    - eapply T_weak; [| |apply (T_destroy n); [exact Hold|exact Hr|right; intros ->; destruct Hr; lia]]; [|auto]. cbn. now intros q [-> _]. }
  assert (HT : T own1 al0 (fun q => In q []) false (member_run k (ops ++ deliver p r)) (put r false al1) (fun q => q = p) false).
  { rewrite member_run_app. eapply T_app; [exact HT1|]. unfold deliver. cbn [member_run flat_map]. rewrite !member_ops_eq. exact HT2. }
  destruct HT as (HL2 & Eal & HJ).
  destruct (run_ok (require_destruct k) (member_run k (ops ++ deliver p r)) w1 al0 own1 h1 I1 Hh1 HN1 HL2) as (w2 & rs2 & h2 & Hr2 & Hg2 & Hh2 & Hc2 & HN2 & I2).
  rewrite Eal in I2.
  assert (HJ2 := HJ rs2 own1 [] Hg2). cbn [app] in HJ2. destruct HJ2 as [H1 H2]; [split; [intros s []|reflexivity]|].
  exists rs1, rs2, own1, (own_run (length al0) (member_run k (ops ++ deliver p r)) rs2 own1), w2, h2.
  split; [exists w1; rewrite <- (i_len _ _ _ _ I1); auto|]. split.
  { rewrite (slots_count k _ _ Hg2). unfold allocs. rewrite filter_app, app_length. cbn. lia. }
  split. { intros s Hs. destruct (H1 s Hs) as [[_ ?]|(q & -> & E)]; [discriminate|]. split; [exact E|]. apply (owned_live _ _ _ _ _ I2). congruence. }
  split; [exact H2|]. intros q v Hq Hv. assert (Ha : nth_error (put r false al1) q = Some true) by (apply (i_alive _ _ _ _ I2); eauto).
  assert (HA2 : A n (put r false al1) q) by (split; auto). apply A_kill in HA2 as [HA2 Hne]; [|apply Hr]. apply HA1 in HA2. destruct HA2 as [<-|[]]. congruence.
Qed.

(** C63.  A parallel parse that fails, wherever and however often tasks throw, keeps
    nothing: every object any task allocated is gone, each destroyed exactly once if
    its class has a destructor, all pools of the tasks are gone, and the pools that
    existed before, the caller's included, own what they owned. *)
Theorem C63_failed_parse_keeps_nothing : forall k pre n j ops m,
  legal_run [] (member_run k pre) ->
  n = length (fold_left alive_after (member_run k pre) []) ->
  fsteps n (FNew j) ops m FFail ->
  exists rs1 rs2 own1 own2 w h,
    outcome_of k pre ops rs1 rs2 own1 own2 w h /\
    length (slots_returned rs2) = allocs k ops /\
    (forall s, In s (slots_returned rs2) -> own2 s = None /\ h_live h s = false /\
       (require_destruct k = true -> times s (destroyed (w_trace w)) = 1%nat)) /\
    (forall s, ~ In s (slots_returned rs2) -> own2 s = own1 s) /\
    (forall q v, (n <= q)%nat -> nth_error (w_pools w) q <> Some (Some v)).
Proof.
  intros k pre n j ops m HL Hn Hrun. set (al0 := fold_left alive_after (member_run k pre) []) in *.
  destruct (run_ok (require_destruct k) (member_run k pre) pworld0 [] (fun _ => None) heap0 inv0) as (w1 & rs1 & h1 & Hr1 & Hg1 & Hh1 & Hc1 & HN1 & I1);
    [reflexivity|constructor|exact HL|]. fold al0 in I1. set (own1 := own_run (length (@nil bool)) (member_run k pre) rs1 (fun _ => None)) in *.
  assert (Hold : forall s q, own1 s = Some q -> (q < n)%nat) by (intros s q E; rewrite Hn; eapply own_old_pools; eassumption).
  destruct (fsteps_ok n own1 Hold k _ _ _ _ _ Hrun al0) as (al1 & E1 & El1 & HNp & HA1 & HT1 & Ho1); [exact Hn|lia|constructor| |].
  { intros q. cbn. split; [intros []|]. intros [Hq Hge]. assert (q < length al0)%nat by (apply nth_error_Some; congruence). lia. }
  cbn [pools hasfail] in *. destruct HT1 as (HL2 & Eal & HJ).
  destruct (run_ok (require_destruct k) (member_run k ops) w1 al0 own1 h1 I1 Hh1 HN1 HL2) as (w2 & rs2 & h2 & Hr2 & Hg2 & Hh2 & Hc2 & HN2 & I2).
  rewrite Eal in I2.
  assert (HJ2 := HJ rs2 own1 [] Hg2). cbn [app] in HJ2. destruct HJ2 as [H1 H2]; [split; [intros s []|reflexivity]|].
  set (own2 := own_run (length al0) (member_run k ops) rs2 own1) in *.
  assert (Hnone : forall s, In s (slots_returned rs2) -> own2 s = None) by (intros s Hs; destruct (H1 s Hs) as [[? _]|(q & [] & _)]; auto).
  exists rs1, rs2, own1, own2, w2, h2.
  split; [exists w1; rewrite <- (i_len _ _ _ _ I1); auto|]. split; [apply slots_count; exact Hg2|].
  split.
  { intros s Hs. specialize (Hnone s Hs). split; [exact Hnone|].
    assert (Hdead : h_live h2 s = false) by (destruct (h_live h2 s) eqn:E; [|reflexivity]; apply (owned_live _ _ _ _ _ I2) in E; congruence).
    split; [exact Hdead|]. intros Hrd. rewrite Hrd in Hh2.
    destruct (heap_counts (w_trace w2) heap0 h2 s Hh2) as [Hcount _]; [discriminate|]. cbn [h_live heap0] in Hcount.
    rewrite Hdead in Hcount. assert (Hone : times s (constructed (w_trace w2)) = 1%nat).
    { apply NoDup_count_occ'; [exact HN2|]. rewrite Hc2. apply in_or_app. now right. }
    lia. }
  split; [exact H2|]. intros q v Hq Hv. assert (Ha : nth_error al1 q = Some true) by (apply (i_alive _ _ _ _ I2); eauto).
  apply (HA1 q). split; auto.
Qed.

(** ** C64: no pool is used by two tasks at the same time *)

(** The existing pools an operation works on. *)
Definition touched (ops : list bp_op) : list nat :=
  flat_map (fun op => match op with
    | BpNew => []
    | BpAlloc i _ _ | BpClear i | BpMove i | BpDestroy i => [i]
    | BpMerge i j | BpAssign i j => [i; j]
    end) ops.

Inductive within : frame -> frame -> Prop :=
| wi_here f : within f f
| wi_child x c i b cs j : In c cs -> within x c -> within x (FAwait i b cs j).

Lemma merges_touch i l ops ok q : merges i l = (ops, ok) -> In q (touched ops) -> q = i \/ In q (held l).
Proof.
  revert ops ok. induction l as [|f l IH]; intros ops ok Hm Hq; cbn in Hm; [injection Hm as <- <-; destruct Hq|].
  destruct f as [| | |r|]; try (injection Hm as <- <-; destruct Hq).
  destruct (merges i l) as [o b] eqn:E. injection Hm as <- <-. cbn in Hq. destruct Hq as [<-|[<-|Hq]]; [now left|right; now left|].
  destruct (IH o b eq_refl Hq) as [?|?]; [now left|right; now right].
Qed.

Lemma touched_destroys rs : touched (map BpDestroy rs) = rs.
Proof. induction rs as [|r rs IH]; cbn; [reflexivity|]. f_equal. exact IH. Qed.

(** A step works on the pools of its own task only. *)
Lemma fstep_touches n f ops n' f' : fstep n f ops n' f' -> forall q, In q (touched ops) -> In q (pools f).
Proof.
  induction 1; intros q Hq; cbn in *; auto.
  - destruct Hq as [?|[?|[]]]; auto.
  - rewrite flat_map_app. cbn. right. apply in_or_app. right. apply in_or_app. left. auto.
  - rewrite done_pools by assumption. unfold touched in Hq. rewrite flat_map_app in Hq.
    fold (touched ops) (touched (map BpDestroy (held cs))) in Hq. rewrite touched_destroys in Hq.
    apply in_app_or in Hq as [Hq|Hq]; [|now right]. destruct (merges_touch _ _ _ _ _ H0 Hq) as [->|Hq']; [now left|right].
    destruct b; [now apply held_rev|exact Hq'].
  - rewrite done_pools by assumption. unfold touched in Hq. rewrite !flat_map_app in Hq.
    fold (touched ops) (touched (map BpDestroy (held cs))) in Hq. rewrite touched_destroys in Hq.
    apply in_app_or in Hq as [Hq|Hq]; [|apply in_app_or in Hq as [Hq|[Hq|[]]]; [now right|now left]].
    destruct (merges_touch _ _ _ _ _ H0 Hq) as [->|Hq']; [now left|right]. destruct b; [now apply held_rev|exact Hq'].
  - destruct Hq as [?|[?|[]]]; auto.
  - destruct Hq as [?|[?|[]]]; auto.
Qed.

Lemma within_pools x f : within x f -> NoDup (pools f) -> NoDup (pools x) /\ incl (pools x) (pools f).
Proof.
  induction 1 as [f|x c i b cs j Hin Hw IH]; intros HN; [split; [exact HN|apply incl_refl]|].
  cbn in HN. inversion HN as [|? ? Hni HN']; subst. apply in_split in Hin as (l1 & l2 & ->). rewrite flat_map_app in HN'. cbn in HN'.
  destruct IH as [IH1 IH2]. { apply NoDup_app_remove_l in HN'. now apply NoDup_app_remove_r in HN'. }
  split; [exact IH1|]. intros q Hq. cbn. right. rewrite flat_map_app. cbn. apply in_or_app. right. apply in_or_app. left. auto.
Qed.

(** C64.  At any moment of any run, two tasks awaited by the same coroutine work on
    different pools, none of which is the pool of the waiting coroutine, and no task
    touches a pool that existed before the parse, the caller's in particular. *)
Theorem C64_pools_not_shared : forall n0 j ops n f,
  fsteps n0 (FNew j) ops n f ->
  (forall ops1 n1 f1 q, fstep n f ops1 n1 f1 -> In q (touched ops1) -> (n0 <= q)%nat) /\
  forall i b l1 c1 l2 c2 l3 j' ops1 n1 c1' ops2 n2 c2' q,
    within (FAwait i b (l1 ++ c1 :: l2 ++ c2 :: l3) j') f ->
    fstep n c1 ops1 n1 c1' -> fstep n c2 ops2 n2 c2' ->
    In q (touched ops1) -> ~ In q (touched ops2) /\ q <> i.
Proof.
  intros n0 j ops n f Hrun.
  destruct (fsteps_ok n0 (fun _ => None)) with (k := KData) (n := n0) (f := FNew j) (ops := ops) (n' := n) (f' := f) (alive := repeat false n0)
    as (al & _ & _ & HN & HA & _); auto; try (now rewrite repeat_length); try (rewrite repeat_length; lia); try constructor; try discriminate.
  { intros [].  }
  { intros [H _]. apply nth_error_In, repeat_spec in H. discriminate H. }
  - intros ops1 n1 f1 q Hs Hq. apply (fstep_touches _ _ _ _ _ Hs) in Hq. apply HA in Hq. apply Hq.
  - intros i b l1 c1 l2 c2 l3 j' ops1 n1 c1' ops2 n2 c2' q Hw H1 H2 Hq. apply (fstep_touches _ _ _ _ _ H1) in Hq.
    destruct (within_pools _ _ Hw HN) as [HNw _]. cbn in HNw. inversion HNw as [|? ? Hni HN']; subst. rewrite flat_map_app in Hni, HN'. cbn in Hni, HN'.
    rewrite flat_map_app in Hni, HN'. cbn in Hni, HN'. split.
    + intros Hq2. apply (fstep_touches _ _ _ _ _ H2) in Hq2. apply NoDup_app_remove_l in HN'.
      clear - HN' Hq Hq2. induction (pools c1) as [|x t IH]; [destruct Hq|]. cbn in HN'. inversion HN'; subst. destruct Hq as [->|Hq]; [|auto].
      apply H1. apply in_or_app. right. apply in_or_app. right. apply in_or_app. now left.
    + intros ->. apply Hni. apply in_or_app. right. apply in_or_app. now left.
Qed.

Lemma fs_first n f o1 n1 f1 o2 n2 f2 : fstep n f o1 n1 f1 -> fsteps n1 f1 o2 n2 f2 -> fsteps n f (o1 ++ o2) n2 f2.
Proof.
  intros Hs H. induction H as [n1 f1|n1 f1 a na fa b nb fb H IH Hb].
  - rewrite app_nil_r. apply (fs_step n f [] n f o1 n1 f1); [apply fs_refl|exact Hs].
  - rewrite app_assoc. eapply fs_step; [apply IH; exact Hs|exact Hb].
Qed.

(** A map of two blocks, the second of which awaits a nested array of one block; the
    blocks run interleaved. *)
Definition sample_job : job :=
  [AAlloc KMap false;
   ASpawn false [[AAlloc KData false; AAlloc KMapItem false];
                 [ASpawn false [[ASpawn true [[AAlloc KData false; AAlloc KArrayItem false]]; AAlloc KArray false]]; AAlloc KMapItem false]]].

Example C62_met : exists ops m r, fsteps 1 (FNew sample_job) ops m (FDone r) /\ allocs KData ops = 2%nat /\ allocs KMapItem ops = 2%nat /\
  legal_run [] (member_run KData [BpNew]).
Proof.
  do 3 eexists. split.
  - eapply fs_first; [apply f_start|].
    eapply fs_first; [apply f_alloc|].
    eapply fs_first; [apply f_spawn|].
    eapply fs_first; [eapply (f_child _ _ _ [_] _ []); apply f_start|].
    eapply fs_first; [eapply (f_child _ _ _ [] _ [_]); apply f_start|].
    eapply fs_first; [eapply (f_child _ _ _ [_] _ []); apply f_spawn|].
    eapply fs_first; [eapply (f_child _ _ _ [_] _ []); eapply (f_child _ _ _ [] _ []); apply f_start|].
    eapply fs_first; [eapply (f_child _ _ _ [_] _ []); eapply (f_child _ _ _ [] _ []); apply f_spawn|].
    eapply fs_first; [eapply (f_child _ _ _ [_] _ []); eapply (f_child _ _ _ [] _ []); eapply (f_child _ _ _ [] _ []); apply f_start|].
    eapply fs_first; [eapply (f_child _ _ _ [] _ [_]); apply f_alloc|].
    eapply fs_first; [eapply (f_child _ _ _ [_] _ []); eapply (f_child _ _ _ [] _ []); eapply (f_child _ _ _ [] _ []); apply f_alloc|].
    eapply fs_first; [eapply (f_child _ _ _ [_] _ []); eapply (f_child _ _ _ [] _ []); eapply (f_child _ _ _ [] _ []); apply f_alloc|].
    eapply fs_first; [eapply (f_child _ _ _ [_] _ []); eapply (f_child _ _ _ [] _ []); eapply (f_child _ _ _ [] _ []); apply f_return|].
    eapply fs_first; [eapply (f_child _ _ _ [_] _ []); eapply (f_child _ _ _ [] _ []); apply f_join; reflexivity|].
    eapply fs_first; [eapply (f_child _ _ _ [_] _ []); eapply (f_child _ _ _ [] _ []); apply f_alloc|].
    eapply fs_first; [eapply (f_child _ _ _ [] _ [_]); apply f_alloc|].
    eapply fs_first; [eapply (f_child _ _ _ [_] _ []); eapply (f_child _ _ _ [] _ []); apply f_return|].
    eapply fs_first; [eapply (f_child _ _ _ [_] _ []); apply f_join; reflexivity|].
    eapply fs_first; [eapply (f_child _ _ _ [_] _ []); apply f_alloc|].
    eapply fs_first; [eapply (f_child _ _ _ [] _ [_]); apply f_return|].
    eapply fs_first; [eapply (f_child _ _ _ [_] _ []); apply f_return|].
    eapply fs_first; [apply f_join; reflexivity|].
    eapply fs_first; [apply f_return|].
    apply fs_refl.
  - repeat split.
Qed.

Example C63_met : exists ops m, fsteps 1 (FNew [AAlloc KMap false; ASpawn true [[AAlloc KData false; AThrow]; [AAlloc KData false]]]) ops m FFail /\
  allocs KData ops = 2%nat /\ allocs KMap ops = 1%nat.
Proof.
  do 2 eexists. split.
  - eapply fs_first; [apply f_start|].
    eapply fs_first; [apply f_alloc|].
    eapply fs_first; [apply f_spawn|].
    eapply fs_first; [eapply (f_child _ _ _ [_] _ []); apply f_start|].
    eapply fs_first; [eapply (f_child _ _ _ [] _ [_]); apply f_start|].
    eapply fs_first; [eapply (f_child _ _ _ [_] _ []); apply f_alloc|].
    eapply fs_first; [eapply (f_child _ _ _ [] _ [_]); apply f_alloc|].
    eapply fs_first; [eapply (f_child _ _ _ [] _ [_]); apply f_throw|].
    eapply fs_first; [eapply (f_child _ _ _ [_] _ []); apply f_return|].
    eapply fs_first; [eapply f_rethrow; reflexivity|].
    apply fs_refl.
  - repeat split.
Qed.
