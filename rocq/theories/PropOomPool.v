(** * Property C109, BridgePools: the eight object pools together when memory runs out. *)
From Verif Require Import Base BaseLemmas ModelPool ModelOom ModelStorage ModelFrames ModelClient ModelOomPool PropPool OomProofs PropFrames ClientProofs PropOom.
From Coq Require Import ZifyBool ZifyNat ZifyN.

(** ** Specification *)

(** A call on BridgePools as a call on object pools. *)
Definition as_pool_call (op : bp_op) : pool_op :=
  match op with
  | BpNew => OpNew
  | BpAlloc i _ throws => OpAlloc i throws
  | BpMerge i j => OpMerge i j
  | BpClear i => OpClear i
  | BpMove j => OpMoveNew j
  | BpAssign i j => OpMoveAssign i j
  | BpDestroy i => OpDestroy i
  end.

(** Owners, per class: number of the BridgePool.  An allocation concerns one class; what
    any other call does to the objects of a class is what it does to one object pool, so a
    [Merge] that throws may have moved any of the objects. *)
Definition own_after (n : nat) (op : bp_op) (r : pool_result) (own own' : cls -> owners) : Prop :=
  forall k, match op with
            | BpAlloc _ k' _ => if cls_eqb k k' then own_next n (as_pool_call op) r (own k) (own' k) else forall s, own' k s = own k s
            | _ => own_next n (as_pool_call op) r (own k) (own' k)
            end.

(** Everything that can have happened to the BridgePools of a program: calls on existing
    ones with their results.  Memory for buffers is there; the vectors of blocks of any
    member may be unable to grow at any time.  (The lists: which BridgePools exist, which
    are torn, as for object pools.) *)
Inductive bp_history : list (bp_op * pool_result) -> list bool -> list bool -> (cls -> pworld) -> Prop :=
| bph_start : bp_history [] [] [] (fun _ => pworld0)
| bph_call hs alive torn ps op m ps' r :
    bp_history hs alive torn ps ->
    legal alive (as_pool_call op) -> (forall k, null_buffer (m k) = false) ->
    bp_step_mem ps op m = Ok (ps', r) -> careful torn (as_pool_call op) r ->
    bp_history (hs ++ [(op, r)]) (alive_next alive (as_pool_call op) r) (torn_next torn (as_pool_call op) r) ps'.

Inductive bp_attributed : list (bp_op * pool_result) -> nat -> (cls -> owners) -> Prop :=
| bpa_start : bp_attributed [] 0 (fun _ _ => None)
| bpa_call hs n own op r own' :
    bp_attributed hs n own -> own_after n op r own own' -> bp_attributed (hs ++ [(op, r)]) (pools_after n (as_pool_call op)) own'.

(** The objects of a class handed out. *)
Definition given (k : cls) (hs : list (bp_op * pool_result)) : list slot_id :=
  flat_map (fun x => match x with
                     | (BpAlloc _ k' _, RSlot s) => if cls_eqb k k' then [s] else []
                     | _ => []
                     end) hs.

(** ** One member *)
Definition CI (k : cls) (alive torn : list bool) (own : owners) (made : list slot_id) (w : pworld) : Prop :=
  exists h, inv (strip w) alive own h /\ tidy torn w /\ heap_run (require_destruct k) heap0 (w_trace w) = Some h /\
    constructed (w_trace w) = made /\ NoDup made.

Lemma CI_step k alive torn own made w c : CI k alive torn own made w -> legal alive (fst c) -> null_buffer (snd c) = false ->
  exists w' r own', pool_step_mem (require_destruct k) w c = Ok (w', r) /\ own_next (length alive) (fst c) r own own' /\ enough c r /\
    (careful torn (fst c) r -> CI k (alive_next alive (fst c) r) (torn_next torn (fst c) r) own' (made ++ slots_returned [r]) w').
Proof.
  intros (h & I & HT & Hr & Hc & Hn) HL HN.
  destruct (mem_step (require_destruct k) w alive torn own h c I HT HL HN) as (w1 & r1 & evs & h1 & own1 & Hs1 & Htr & Hr1 & Hown & I1 & Hc1 & Hnew & HT1 & He).
  exists w1, r1, own1. split; [exact Hs1|]. split; [exact Hown|]. split; [exact He|]. intros Hcar.
  exists h1. split; [exact I1|]. split; [auto|]. split; [now rewrite Htr, heap_run_app, Hr|]. split.
  { rewrite Htr. unfold constructed. rewrite flat_map_app. fold (constructed (w_trace w)). fold (constructed evs). now rewrite Hc, Hc1. }
  apply NoDup_app; [exact Hn| |].
  - destruct r1; cbn; repeat constructor; intros [].
  - intros s H1 H2. destruct r1 as [|s'| |]; cbn in H2; try contradiction. destruct H2 as [->|[]].
    apply (Hnew s eq_refl). apply constructed_In. now rewrite Hc.
Qed.

Lemma CI_torn k alive torn torn' own made w : CI k alive torn own made w -> length torn' = length torn ->
  (forall i, nth i torn' false = false -> nth i torn false = false) -> CI k alive torn' own made w.
Proof.
  intros (h & I & [HT1 HT2] & H) HL Hle. exists h. split; [exact I|]. split; [|exact H]. split; [congruence|].
  intros i. destruct (HT2 i) as [H1 H2]. split; [auto|exact H2].
Qed.

Lemma put_ge {A} n (x : A) l : (length l <= n)%nat -> put n x l = l.
Proof. revert n; induction l as [|y l IH]; intros [|n] H; cbn in *; auto; try lia. rewrite IH by lia. reflexivity. Qed.

(** ** The calls that reach every member *)
Definition everywhere (op : pool_op) : bool := match op with OpNew | OpAlloc _ _ => false | _ => true end.

Lemma each_ok op m alive torn made : everywhere op = true -> legal alive op -> (forall k, null_buffer (m k) = false) ->
  forall ks, NoDup ks -> forall ps own r0, r0 = RNone ->
  (forall k, In k ks -> CI k alive torn (own k) (made k) (ps k)) ->
  exists ps' r own', bp_each ks op m ps r0 = Ok (ps', r) /\ (r = RNone \/ (r = RThrow /\ match op with OpMerge _ _ => True | _ => False end)) /\
    ((forall k, growths (m k) = None) -> r = RNone) /\
    (forall k, ~ In k ks -> ps' k = ps k) /\
    (forall k, In k ks -> own_next (length alive) op r (own k) (own' k)) /\
    (careful torn op r -> forall k, In k ks -> CI k (alive_next alive op r) (torn_next torn op r) (own' k) (made k) (ps' k)).
Proof.
  intros Hop HL HN ks. induction 1 as [|k ks Hk Hnd IH]; intros ps own r0 -> HC.
  { exists ps, RNone, own. cbn. repeat split; auto; intros; contradiction. }
  cbn [bp_each].
  destruct (CI_step k alive torn (own k) (made k) (ps k) (op, m k) (HC k (or_introl eq_refl)) HL (HN k)) as (w' & r & own1 & Hs & Hown & He & HCI).
  rewrite Hs. cbn [obind fst snd] in *.
  assert (Hr : r = RNone \/ (r = RThrow /\ match op with OpMerge _ _ => True | _ => False end)).
  { destruct r as [|s| |].
    - now left.
    - destruct He as (_ & _ & He). specialize (He ltac:(discriminate)). destruct op; cbn in He; try discriminate; discriminate Hop.
    - destruct He as (He & _). congruence.
    - right. split; [reflexivity|]. destruct op as [|i t|i j|i|j|i j|i]; try discriminate Hop; auto; cbn [fst snd] in *;
        (destruct (CI_step k alive torn (own k) (made k) (ps k) (_, plenty) (HC k (or_introl eq_refl)) HL eq_refl) as (w2 & r2 & own2 & Hs2 & _ & (_ & He2 & _) & _);
         specialize (He2 eq_refl); cbn [pool_step_mem fst] in Hs2, Hs; rewrite Hs in Hs2; cbn [good_result fst] in He2; congruence). }
  destruct Hr as [->|[-> Hm]].
  - assert (HC1 : forall k', In k' ks -> CI k' alive torn (own k') (made k') (set_pool k w' ps k')).
    { intros k' Hin. unfold set_pool. destruct (cls_eqb_spec k' k) as [->|_]; [contradiction|]. apply HC. now right. }
    destruct (IH (set_pool k w' ps) own RNone eq_refl HC1) as (ps2 & r2 & own2 & Hb & Hr2 & Hg & Hout & Hin & HC2).
    exists ps2, r2, (fun k' => if cls_eqb k' k then own1 else own2 k'). split; [exact Hb|]. split; [exact Hr2|]. split; [exact Hg|].
    assert (Hkk : ps2 k = w') by (rewrite (Hout k Hk); unfold set_pool; destruct (cls_eqb_spec k k); congruence).
    split; [|split].
    + intros k' Hn. rewrite Hout by (intros Hi; apply Hn; now right). unfold set_pool. destruct (cls_eqb_spec k' k) as [->|_]; [exfalso; apply Hn; now left|reflexivity].
    + intros k' [<-|Hi].
      * destruct (cls_eqb_spec k k) as [_|]; [|congruence]. destruct Hr2 as [->|[-> Hm]]; [exact Hown|].
        destruct op; try contradiction. cbn [own_next own_step] in *. intros s. specialize (Hown s). unfold hand_over in Hown.
        destruct (own k s) as [o|] eqn:Eo; [|left; exact Hown]. destruct (Nat.eqb_spec o j) as [->|]; [right; auto|left; exact Hown].
      * destruct (cls_eqb_spec k' k) as [->|_]; [contradiction|]. now apply Hin.
    + intros Hcar k' [<-|Hi].
      * destruct (cls_eqb_spec k k) as [_|]; [|congruence]. rewrite Hkk.
        assert (HCI' := HCI ltac:(now destruct op)). cbn [slots_returned flat_map] in HCI'. rewrite app_nil_r in HCI'.
        destruct Hr2 as [->|[-> Hm]]; [exact HCI'|]. destruct op as [|?|i j| | | |]; try contradiction. cbn [alive_next torn_next alive_after careful] in *.
        apply (CI_torn _ _ _ _ _ _ _ HCI'); [now rewrite !put_length|]. intros x. rewrite Hcar, Bool.orb_false_r.
        destruct (Nat.lt_ge_cases j (length torn)) as [Hj|Hj].
        { rewrite !nth_put by (rewrite ?put_length; exact Hj). destruct (Nat.eqb_spec x j); [discriminate|].
          destruct (Nat.lt_ge_cases i (length torn)) as [Hi|Hi]; [rewrite nth_put by exact Hi; destruct (Nat.eqb_spec x i) as [->|]; auto|].
          now rewrite (put_ge i). }
        rewrite !put_ge by (rewrite ?put_length; exact Hj).
        destruct (Nat.lt_ge_cases i (length torn)) as [Hi|Hi]; [rewrite nth_put by exact Hi; destruct (Nat.eqb_spec x i) as [->|]; auto|].
        now rewrite (put_ge i).
      * destruct (cls_eqb_spec k' k) as [->|_]; [contradiction|]. now apply HC2.
  - exists (set_pool k w' ps), RThrow, (fun k' => if cls_eqb k' k then own1 else own k'). split; [reflexivity|]. split; [now right|].
    split. { intros Hg. exfalso. destruct He as (_ & He & _). specialize (He (Hg k)). destruct op; try contradiction; discriminate He. }
    destruct op as [|?|i j| | | |]; try contradiction.
    split; [|split].
    + intros k' Hn. unfold set_pool. destruct (cls_eqb_spec k' k) as [->|_]; [exfalso; apply Hn; now left|reflexivity].
    + intros k' [<-|Hi]; [destruct (cls_eqb_spec k k); [exact Hown|congruence]|]. destruct (cls_eqb_spec k' k) as [->|_]; [contradiction|].
      intros s; now left.
    + intros Hcar k' [<-|Hi].
      * unfold set_pool. destruct (cls_eqb_spec k k) as [_|]; [|congruence]. specialize (HCI Hcar). cbn [slots_returned flat_map] in HCI. now rewrite app_nil_r in HCI.
      * unfold set_pool. destruct (cls_eqb_spec k' k) as [->|_]; [contradiction|]. cbn [alive_next torn_next alive_after].
        apply (CI_torn _ _ torn _ _ _ _ (HC k' (or_intror Hi))); [apply put_length|]. intros x.
        destruct (Nat.lt_ge_cases j (length torn)) as [Hj|Hj]; [|now rewrite put_ge].
        rewrite nth_put by exact Hj. destruct (Nat.eqb_spec x j); [discriminate|auto].
Qed.

(** ** Construction *)
Lemma own_beyond k alive torn own made w s : CI k alive torn own made w -> own s <> Some (length alive).
Proof.
  intros (h & I & _) Ho. apply (i_own _ _ _ _ I) in Ho as (b & Hin & _). unfold pool_at in Hin.
  assert (E : nth_error (w_pools (strip w)) (length alive) = None) by (apply nth_error_None; rewrite (i_len _ _ _ _ I); lia).
  rewrite E in Hin. contradiction.
Qed.
Lemma put_last {A} (l : list A) x y : put (length l) y (l ++ [x]) = l ++ [y].
Proof. induction l as [|z l IH]; cbn; [reflexivity|now rewrite IH]. Qed.

(** A member that is not constructed is like one whose constructor throws at once. *)
Definition nothing_left : memory_left := {| null_buffer := false; growths := Some O |}.
Lemma CI_none k alive torn own made w : CI k alive torn own made w ->
  CI k (alive ++ [false]) (torn ++ [false]) own made (no_pool w).
Proof.
  intros HC. destruct (CI_step k alive torn own made w (OpNew, nothing_left) HC I eq_refl) as (w' & r & own' & Hs & Hown & _ & HCI).
  cbn in Hs. assert (r = RThrow) by congruence. assert (w' = no_pool w) by (unfold no_pool; congruence). subst.
  specialize (HCI I). cbn in HCI. rewrite app_nil_r in HCI. cbn in Hown. destruct HCI as (h & Hi & H). exists h. split; [|exact H].
  destruct Hi as [IA IL IG IN IC IH IHO ILO IO IE]. split; auto. intros s i. now rewrite <- IO, <- Hown.
Qed.
Lemma CI_new k alive torn own made w m : CI k alive torn own made w -> null_buffer m = false ->
  exists w' r, pool_step_mem (require_destruct k) w (OpNew, m) = Ok (w', r) /\ (r = RNone \/ r = RThrow) /\ (growths m = None -> r = RNone) /\
    CI k (alive_next alive OpNew r) (torn ++ [false]) own made w' /\
    (r = RNone -> exists w2, pool_step (require_destruct k) w' (OpDestroy (pred (length (w_pools w')))) = Ok (w2, RNone) /\
       CI k (alive ++ [false]) (torn ++ [false]) own made w2).
Proof.
  intros HC HN. destruct (CI_step k alive torn own made w (OpNew, m) HC I HN) as (w' & r & own' & Hs & Hown & He & HCI).
  exists w', r. split; [exact Hs|]. cbn [fst snd] in *. specialize (HCI I).
  assert (Hr : r = RNone \/ r = RThrow).
  { destruct r as [|s| |]; auto; destruct He as (He1 & _ & He); [specialize (He ltac:(discriminate)); discriminate|congruence]. }
  split; [exact Hr|]. split. { intros Hg. destruct He as (_ & He & _). now apply He. }
  assert (Hsame : forall s, own' s = own s) by (intros s; destruct Hr as [-> | ->]; apply Hown).
  assert (Hz : CI k (alive_next alive OpNew r) (torn ++ [false]) own made w').
  { destruct Hr as [-> | ->]; cbn [slots_returned flat_map] in HCI; rewrite app_nil_r in HCI; destruct HCI as (h & Hi & H); exists h; (split; [|exact H]);
      destruct Hi as [IA IL IG IN IC IH IHO ILO IO IE]; split; auto; intros s i; now rewrite <- IO, <- Hsame. }
  split; [exact Hz|]. intros ->. cbn [alive_next alive_after] in Hz.
  assert (Hlen : pred (length (w_pools w')) = length alive).
  { destruct Hz as (h & Hi & _). pose proof (i_len _ _ _ _ Hi) as HL. unfold strip in HL. cbn in HL. rewrite app_length, map_length in HL. cbn in HL. lia. }
  destruct (CI_step k _ _ _ _ _ (OpDestroy (length alive), plenty) Hz) as (w2 & r2 & own2 & Hs2 & Hown2 & (_ & He2 & _) & HCI2).
  { cbn. rewrite nth_error_app2 by lia. now rewrite Nat.sub_diag. } { reflexivity. }
  specialize (He2 eq_refl). cbn in He2. subst r2. cbn [pool_step_mem fst] in Hs2. exists w2. rewrite Hlen. split; [exact Hs2|].
  specialize (HCI2 I). cbn [fst alive_next alive_after torn_next slots_returned flat_map] in HCI2. rewrite app_nil_r, put_last in HCI2.
  assert (HT : length torn = length alive).
  { destruct HC as (h & Hi & [HT _] & _). pose proof (i_len _ _ _ _ Hi) as HL. unfold strip in HL. cbn in HL. rewrite map_length in HL. congruence. }
  rewrite <- HT, put_last in HCI2. destruct HCI2 as (h2 & Hi2 & H2). exists h2. split; [|exact H2].
  destruct Hi2 as [IA IL IG IN IC IH IHO ILO IO IE]. split; auto. intros s i. rewrite <- IO. rewrite (Hown2 s). cbn [fst own_step].
  unfold drop. pose proof (own_beyond k alive torn own made w s HC) as Hb. destruct (own s) as [o|]; [|tauto].
  destruct (Nat.eqb_spec o (length alive)) as [->|]; [congruence|tauto].
Qed.

Lemma no_pools ks : NoDup ks -> forall ps,
  (forall k, In k ks -> fold_right (fun k' q => set_pool k' (no_pool (q k')) q) ps ks k = no_pool (ps k)) /\
  (forall k, ~ In k ks -> fold_right (fun k' q => set_pool k' (no_pool (q k')) q) ps ks k = ps k).
Proof.
  induction 1 as [|k ks Hk Hnd IH]; intros ps; [split; [intros ? []|reflexivity]|]. cbn [fold_right]. destruct (IH ps) as [H1 H2]. split.
  - intros k' [<-|Hi]; unfold set_pool at 1; [destruct (cls_eqb_spec k k); [now rewrite H2|congruence]|].
    destruct (cls_eqb_spec k' k) as [->|_]; [contradiction|]. now apply H1.
  - intros k' Hn. unfold set_pool at 1. destruct (cls_eqb_spec k' k) as [->|_]; [exfalso; apply Hn; now left|]. apply H2. intros Hi; apply Hn; now right.
Qed.

Lemma construct_ok m alive torn own made : (forall k, null_buffer (m k) = false) ->
  forall ks, NoDup ks -> forall ps, (forall k, In k ks -> CI k alive torn (own k) (made k) (ps k)) ->
  exists ps' r, bp_construct ks m ps = Ok (ps', r) /\ (r = RNone \/ r = RThrow) /\ ((forall k, growths (m k) = None) -> r = RNone) /\
    (forall k, ~ In k ks -> ps' k = ps k) /\
    (forall k, In k ks -> CI k (alive_next alive OpNew r) (torn ++ [false]) (own k) (made k) (ps' k)) /\
    (r = RNone -> forall k, In k ks -> exists w2, pool_step (require_destruct k) (ps' k) (OpDestroy (pred (length (w_pools (ps' k))))) = Ok (w2, RNone) /\
       CI k (alive ++ [false]) (torn ++ [false]) (own k) (made k) w2).
Proof.
  intros HN ks. induction 1 as [|k ks Hk Hnd IH]; intros ps HC.
  { exists ps, RNone. cbn. repeat split; auto; intros; contradiction. }
  cbn [bp_construct]. destruct (CI_new k alive torn (own k) (made k) (ps k) (m k) (HC k (or_introl eq_refl)) (HN k)) as (w' & r & Hs & Hr & Hg & HCn & Hd).
  rewrite Hs. cbn [obind]. destruct Hr as [-> | ->].
  - destruct (IH (set_pool k w' ps)) as (ps1 & r1 & Hb & Hr1 & Hg1 & Hout & Hin & Hd1).
    { intros k' Hi. unfold set_pool. destruct (cls_eqb_spec k' k) as [->|_]; [contradiction|]. apply HC. now right. }
    rewrite Hb. cbn [obind]. assert (Hkk : ps1 k = w') by (rewrite (Hout k Hk); unfold set_pool; destruct (cls_eqb_spec k k); congruence).
    assert (Hother : forall k', ~ In k' (k :: ks) -> ps1 k' = ps k').
    { intros k' Hn. rewrite Hout by (intros Hi; apply Hn; now right). unfold set_pool. destruct (cls_eqb_spec k' k) as [->|_]; [exfalso; apply Hn; now left|reflexivity]. }
    destruct (Hd eq_refl) as (w2 & Hs2 & HC2). destruct Hr1 as [-> | ->].
    + exists ps1, RNone. split; [reflexivity|]. split; [now left|]. split; [auto|]. split; [exact Hother|]. split.
      * intros k' [<-|Hi]; [now rewrite Hkk|now apply Hin].
      * intros _ k' [<-|Hi]; [rewrite Hkk; eauto|now apply Hd1].
    + rewrite Hkk, Hs2. cbn [obind]. exists (set_pool k w2 ps1), RThrow. split; [reflexivity|]. split; [now right|].
      split. { intros Hgg. specialize (Hg1 Hgg). discriminate. }
      split. { intros k' Hn. unfold set_pool. destruct (cls_eqb_spec k' k) as [->|_]; [exfalso; apply Hn; now left|now apply Hother]. }
      split; [|discriminate]. intros k' [<-|Hi]; unfold set_pool; [destruct (cls_eqb_spec k k); [exact HC2|congruence]|].
      destruct (cls_eqb_spec k' k) as [->|_]; [contradiction|now apply Hin].
  - eexists _, RThrow. split; [reflexivity|]. split; [now right|]. split. { intros Hgg. specialize (Hg (Hgg k)). discriminate. }
    destruct (no_pools ks Hnd (set_pool k w' ps)) as [H1 H2]. split; [|split; [|discriminate]].
    + intros k' Hn. rewrite H2 by (intros Hi; apply Hn; now right). unfold set_pool. destruct (cls_eqb_spec k' k) as [->|_]; [exfalso; apply Hn; now left|reflexivity].
    + intros k' [<-|Hi].
      * rewrite H2 by exact Hk. unfold set_pool. destruct (cls_eqb_spec k k); [exact HCn|congruence].
      * rewrite H1 by exact Hi. unfold set_pool. destruct (cls_eqb_spec k' k) as [->|_]; [contradiction|]. apply CI_none, HC. now right.
Qed.

(** ** One call *)
Lemma members_nodup : NoDup members /\ NoDup merged_members /\ NoDup cleared_members.
Proof. repeat split; repeat (constructor; [cbn; intuition discriminate|]); constructor. Qed.
Lemma members_all k : In k members /\ In k merged_members /\ In k cleared_members.
Proof. destruct k; cbn; tauto. Qed.

Lemma bp_ok alive torn own made ps op m : (forall k, CI k alive torn (own k) (made k) (ps k)) ->
  legal alive (as_pool_call op) -> (forall k, null_buffer (m k) = false) ->
  exists ps' r own', bp_step_mem ps op m = Ok (ps', r) /\ own_after (length alive) op r own own' /\
    ((forall k, growths (m k) = None) -> good_result (as_pool_call op) r) /\ (r <> RThrow -> good_result (as_pool_call op) r) /\
    (careful torn (as_pool_call op) r -> forall k, CI k (alive_next alive (as_pool_call op) r) (torn_next torn (as_pool_call op) r) (own' k) (made k ++ given k [(op, r)]) (ps' k)).
Proof.
  intros HC HL HN.
  assert (Hgiven : forall k r, match op with BpAlloc _ _ _ => False | _ => True end -> made k ++ given k [(op, r)] = made k).
  { intros k r Hop. destruct op; try contradiction; cbn; apply app_nil_r. }
  assert (Each : everywhere (as_pool_call op) = true -> NoDup (reached op) -> (forall k, In k (reached op)) ->
    exists ps' r own', bp_each (reached op) (as_pool_call op) m ps RNone = Ok (ps', r) /\ own_after (length alive) op r own own' /\
      ((forall k, growths (m k) = None) -> good_result (as_pool_call op) r) /\ (r <> RThrow -> good_result (as_pool_call op) r) /\
      (careful torn (as_pool_call op) r -> forall k, CI k (alive_next alive (as_pool_call op) r) (torn_next torn (as_pool_call op) r) (own' k) (made k ++ given k [(op, r)]) (ps' k))).
  { intros He Hnd Hall. destruct (each_ok (as_pool_call op) m alive torn made He HL HN (reached op) Hnd ps own RNone eq_refl (fun k _ => HC k))
      as (ps' & r & own' & Hb & Hr & Hg & _ & Hown & HCI).
    assert (Hnone : r = RNone -> good_result (as_pool_call op) r) by (intros ->; now destruct op).
    exists ps', r, own'. split; [exact Hb|]. split. { intros k. destruct op; try discriminate He; apply Hown, Hall. }
    split; [auto|]. split; [destruct Hr as [->|[-> _]]; [auto|congruence]|].
    intros Hcar k. rewrite Hgiven by (destruct op; [exact I|discriminate He|exact I|exact I|exact I|exact I|exact I]). now apply HCI. }
  destruct members_nodup as (N1 & N2 & N3).
  destruct op as [|i k throws|i j|i|j|i j|i]; try (apply Each; [reflexivity|assumption|apply members_all]).
  - destruct (construct_ok m alive torn own made HN members N1 ps (fun k _ => HC k)) as (ps' & r & Hb & Hr & Hg & _ & HCI & _).
    exists ps', r, own. split; [exact Hb|]. split; [intros k; destruct r; intros x; reflexivity|]. cbn [call_of as_pool_call good_result].
    split; [exact Hg|]. split; [destruct Hr as [-> | ->]; [auto|congruence]|]. intros _ k. rewrite Hgiven by exact I. apply HCI, members_all.
  - cbn [bp_step_mem reached bp_each call_of as_pool_call].
    destruct (CI_step k alive torn (own k) (made k) (ps k) (OpAlloc i throws, m k) (HC k) HL (HN k)) as (w' & r & own1 & Hs & Hown & He & HCI).
    rewrite Hs. cbn [obind fst snd] in *. destruct He as (Hn & He1 & He2).
    exists (set_pool k w' ps), r, (fun k' => if cls_eqb k' k then own1 else own k'). split; [destruct r; try reflexivity; congruence|].
    split. { intros k'. destruct (cls_eqb_spec k' k) as [->|_]; [exact Hown|reflexivity]. }
    split; [intros Hg; exact (He1 (Hg k))|]. split; [exact He2|]. intros Hcar k'. unfold set_pool, given. cbn [flat_map].
    destruct (cls_eqb_spec k' k) as [->|_].
    + specialize (HCI Hcar). destruct r; exact HCI.
    + replace (match r with RSlot _ => [] | _ => [] end ++ []) with (@nil slot_id) by now destruct r. rewrite app_nil_r. exact (HC k').
Qed.

Lemma bp_history_inv hs alive torn ps : bp_history hs alive torn ps ->
  exists own, bp_attributed hs (length alive) own /\ forall k, CI k alive torn (own k) (given k hs) (ps k).
Proof.
  induction 1 as [|hs alive torn ps op m ps' r H (own & HA & HC) HL HN Hs Hc].
  - exists (fun _ _ => None). split; [constructor|]. intros k. exists heap0. split; [exact inv0|]. split; [exact tidy0|]. repeat split; constructor.
  - destruct (bp_ok alive torn own (fun k => given k hs) ps op m HC HL HN) as (ps1 & r1 & own1 & Hs1 & Hown & _ & _ & HC1).
    rewrite Hs in Hs1. assert (ps1 = ps') by congruence. assert (r1 = r) by congruence. subst ps1 r1.
    exists own1. split; [rewrite alive_next_length; now apply bpa_call with own|]. intros k.
    replace (given k (hs ++ [(op, r)])) with (given k hs ++ given k [(op, r)]) by (unfold given; now rewrite flat_map_app). now apply HC1.
Qed.

(** C109 for BridgePools.  Whatever calls could not get memory for a vector of blocks of
    whatever member: every call on existing BridgePools is defined, a call that does not
    throw has done its work, construction and allocation that throw have no effect, a
    [Merge] that throws has moved some of the objects and lost none; all objects live
    exactly as long as somebody owns them, each is destroyed exactly once (the destructors
    that run), nothing is left once the BridgePools are gone. *)
Theorem C109_bridge_pools_partial : forall hs alive torn ps, bp_history hs alive torn ps ->
  (forall op m, legal alive (as_pool_call op) -> (forall k, null_buffer (m k) = false) ->
     exists ps' r, bp_step_mem ps op m = Ok (ps', r) /\
       ((forall k, growths (m k) = None) -> good_result (as_pool_call op) r) /\ (r <> RThrow -> good_result (as_pool_call op) r)) /\
  exists own, bp_attributed hs (length alive) own /\
    forall k, NoDup (given k hs) /\
      exists h, heap_run (require_destruct k) heap0 (w_trace (ps k)) = Some h /\
        (forall s, h_live h s = true <-> own k s <> None) /\
        (forall s i, own k s = Some i -> nth_error alive i = Some true /\ In s (given k hs)) /\
        (Forall (fun b => b = false) alive -> forall b, h_buf h b = None) /\
        (require_destruct k = true -> forall s, times s (destroyed (w_trace (ps k))) =
           (if in_dec slot_dec s (given k hs) then match own k s with Some _ => 0 | None => 1 end else 0)%nat).
Proof.
  intros hs alive torn ps H. destruct (bp_history_inv hs alive torn ps H) as (own & HA & HC). split.
  - intros op m HL HN. destruct (bp_ok alive torn own _ ps op m HC HL HN) as (ps' & r & _ & Hs & _ & H1 & H2 & _). eauto.
  - exists own. split; [exact HA|]. intros k. destruct (HC k) as (h & Hi & _ & Hr & Hcon & Hnd). split; [exact Hnd|].
    exists h. split; [exact Hr|]. rewrite <- Hcon in *. now apply inv_facts.
Qed.

(** With enough memory these are the calls of C101-C107. *)
Lemma each_plenty op : everywhere (as_pool_call op) = true -> forall ks ps r0 ps' r, NoDup ks ->
  bp_each ks (as_pool_call op) (fun _ => plenty) ps r0 = Ok (ps', r) ->
  (forall k, In k ks -> pool_run (require_destruct k) (ps k) [as_pool_call op] = Ok (ps' k, [RNone])) /\ (forall k, ~ In k ks -> ps' k = ps k).
Proof.
  intros He. induction ks as [|k ks IH]; intros ps r0 ps' r Hnd Hb; cbn [bp_each] in Hb.
  { injection Hb as <- <-. split; [intros ? []|reflexivity]. }
  inversion Hnd as [|? ? Hk Hnd']; subst. rewrite C109_enough_memory in Hb.
  destruct (pool_step (require_destruct k) (ps k) (as_pool_call op)) as [[w' r1]| | | |] eqn:E; try discriminate. cbn [obind] in Hb.
  assert (Hr : r1 = RNone).
  { destruct op; try discriminate He; cbn [call_of as_pool_call pool_step] in E; unfold obind in E;
      repeat match type of E with context [match ?x with _ => _ end] => destruct x; try discriminate E end; congruence. }
  subst r1. destruct (IH _ _ _ _ Hnd' Hb) as [H1 H2]. split.
  - intros k' [<-|Hi].
    + rewrite (H2 k Hk), pool_run_one, E. cbn. unfold set_pool. destruct (cls_eqb_spec k k); congruence.
    + rewrite <- (H1 k' Hi). unfold set_pool. destruct (cls_eqb_spec k' k) as [->|_]; [contradiction|reflexivity].
  - intros k' Hn. rewrite H2 by (intros Hi; apply Hn; now right). unfold set_pool. destruct (cls_eqb_spec k' k) as [->|_]; [exfalso; apply Hn; now left|reflexivity].
Qed.
Lemma construct_plenty ks : NoDup ks -> forall ps, exists ps', bp_construct ks (fun _ => plenty) ps = Ok (ps', RNone) /\
  (forall k, In k ks -> pool_run (require_destruct k) (ps k) [OpNew] = Ok (ps' k, [RNone])) /\ (forall k, ~ In k ks -> ps' k = ps k).
Proof.
  induction 1 as [|k ks Hk Hnd IH]; intros ps; [exists ps; repeat split; intros ? []|]. cbn [bp_construct]. rewrite C109_enough_memory. cbn [pool_step obind].
  match goal with |- context [bp_construct ks _ ?q] => destruct (IH q) as (ps' & -> & H1 & H2) end. exists ps'. cbn [obind]. split; [reflexivity|]. split.
  - intros k' [<-|Hi].
    + rewrite (H2 k Hk). unfold set_pool. destruct (cls_eqb_spec k k); [reflexivity|congruence].
    + rewrite <- (H1 k' Hi). unfold set_pool. destruct (cls_eqb_spec k' k) as [->|_]; [contradiction|reflexivity].
  - intros k' Hn. rewrite H2 by (intros Hi; apply Hn; now right). unfold set_pool. destruct (cls_eqb_spec k' k) as [->|_]; [exfalso; apply Hn; now left|reflexivity].
Qed.

Theorem C109_bridge_enough_memory : forall ps op ps' r, bp_step_mem ps op (fun _ => plenty) = Ok (ps', r) ->
  exists ps2 rs, bp_members members op ps = Ok (ps2, rs) /\ (forall k, ps2 k = ps' k) /\
    rs = match op with BpAlloc _ _ _ => [r] | _ => map (fun _ => RNone) members end.
Proof.
  intros ps op ps' r Hb. destruct members_nodup as (N1 & N2 & N3).
  assert (All : is_alloc op = false -> (forall k, pool_run (require_destruct k) (ps k) [as_pool_call op] = Ok (ps' k, [RNone])) ->
    exists ps2 rs, bp_members members op ps = Ok (ps2, rs) /\ (forall k, ps2 k = ps' k) /\ rs = map (fun _ => RNone) members).
  { intros Ha H. destruct (members_ok op members N1 ps ps' (fun _ => [RNone])) as (ps2 & Hm & H1 & _).
    { intros k _. rewrite (member_one k op Ha). exact (H k). }
    exists ps2, (flat_map (fun _ => [RNone]) members). split; [exact Hm|]. split; [intros k; apply H1, members_all|reflexivity]. }
  assert (Each : everywhere (as_pool_call op) = true -> NoDup (reached op) -> (forall k, In k (reached op)) -> bp_each (reached op) (as_pool_call op) (fun _ => plenty) ps RNone = Ok (ps', r) ->
    exists ps2 rs, bp_members members op ps = Ok (ps2, rs) /\ (forall k, ps2 k = ps' k) /\ rs = map (fun _ => RNone) members).
  { intros He Hn Hall Hbe. destruct (each_plenty op He _ _ _ _ _ Hn Hbe) as [H1 _]. apply All; [now destruct op|]. intros k. apply H1, Hall. }
  destruct op as [|i k throws|i j|i|j|i j|i]; try (apply Each; [reflexivity|assumption|apply members_all|exact Hb]).
  - destruct (construct_plenty members N1 ps) as (ps1 & Hc & H1 & _). cbn [bp_step_mem] in Hb. rewrite Hc in Hb. injection Hb as -> <-.
    apply All; [reflexivity|]. intros k. apply H1, members_all.
  - cbn [bp_step_mem reached bp_each call_of as_pool_call] in Hb. rewrite C109_enough_memory in Hb.
    destruct (pool_step (require_destruct k) (ps k) (OpAlloc i throws)) as [[w' r1]| | | |] eqn:E; try discriminate. cbn [obind] in Hb.
    assert (ps' = set_pool k w' ps /\ r = r1) as [-> ->] by (destruct r1; split; congruence).
    destruct (members_ok (BpAlloc i k throws) members N1 ps (set_pool k w' ps) (fun k' => if cls_eqb k' k then [r1] else [])) as (ps2 & Hm & H1 & _).
    { intros k' _. rewrite member_ops_eq. unfold set_pool. destruct (cls_eqb_spec k' k) as [->|_]; [|reflexivity]. now rewrite pool_run_one, E. }
    do 2 eexists. split; [exact Hm|]. split; [intros k'; apply H1, members_all|]. now destruct k.
Qed.

(** The full claim fails for BridgePools, too: two interrupted merges, then a [Data]. *)
Definition both_calls : list (bp_op * (cls -> memory_left)) :=
  let all _ := plenty in
  let short k := if cls_eqb k KData then nothing_left else plenty in
  let one i := [(BpNew, all); (BpAlloc i KData false, all)] in
  one 0%nat ++ one 1%nat ++ one 2%nat ++ one 3%nat ++ one 4%nat ++ one 5%nat ++ one 6%nat ++ one 7%nat ++
  [(BpMerge 1 2, all); (BpMerge 0 3, all); (BpMerge 0 4, all); (BpMerge 5 6, all); (BpMerge 5 7, all); (BpMerge 0 1, short); (BpMerge 5 1, short)].
Fixpoint bp_run_mem (ps : cls -> pworld) (cs : list (bp_op * (cls -> memory_left))) : outcome ((cls -> pworld) * list pool_result) :=
  match cs with
  | [] => Ok (ps, [])
  | c :: cs' => obind (bp_step_mem ps (fst c) (snd c)) (fun x => obind (bp_run_mem (fst x) cs') (fun y => Ok (fst y, snd x :: snd y)))
  end.
Theorem C109_bridge_merge_refuted : exists cs ps rs,
  legal_run [] (map (fun c => as_pool_call (fst c)) cs) /\ (forall c k, In c cs -> null_buffer (snd c k) = false) /\
  bp_run_mem (fun _ => pworld0) cs = Ok (ps, rs) /\
  (forall m, bp_step_mem ps (BpAlloc 5 KData false) m = UB).
Proof.
  exists both_calls. do 2 eexists. split; [vm_compute; repeat split; try reflexivity; discriminate|].
  split. { intros c k Hc. repeat (destruct Hc as [<-|Hc]; [now destruct k|]). destruct Hc. }
  split; [vm_compute; reflexivity|]. intros m. vm_compute. reflexivity.
Qed.

(** A program that goes on after every kind of exception: a BridgePool whose sixth member
    cannot be constructed, an allocation, a [Merge] that stops at the third member. *)
Fixpoint run_bp_history (alive torn : list bool) (ps : cls -> pworld) (cs : list (bp_op * (cls -> memory_left)))
  : option (list (bp_op * pool_result) * list bool * list bool * (cls -> pworld)) :=
  match cs with
  | [] => Some ([], alive, torn, ps)
  | (op, m) :: cs' =>
      match bp_step_mem ps op m with
      | Ok (ps', r) =>
          if legalb alive (as_pool_call op) && forallb (fun k => negb (null_buffer (m k))) members && carefulb torn (as_pool_call op) r then
            match run_bp_history (alive_next alive (as_pool_call op) r) (torn_next torn (as_pool_call op) r) ps' cs' with
            | Some (hs, a, t, p2) => Some ((op, r) :: hs, a, t, p2)
            | None => None
            end
          else None
      | _ => None
      end
  end.
Lemma run_bp_history_ok cs : forall hs alive torn ps hs' a t p2, bp_history hs alive torn ps ->
  run_bp_history alive torn ps cs = Some (hs', a, t, p2) -> bp_history (hs ++ hs') a t p2.
Proof.
  induction cs as [|[op m] cs IH]; intros hs alive torn ps hs' a t p2 H Hrun; cbn [run_bp_history] in Hrun.
  - injection Hrun as <- <- <- <-. now rewrite app_nil_r.
  - destruct (bp_step_mem ps op m) as [[ps' r]| | | |] eqn:Es; try discriminate.
    destruct (legalb alive (as_pool_call op) && forallb (fun k => negb (null_buffer (m k))) members && carefulb torn (as_pool_call op) r) eqn:Hb; [|discriminate].
    apply andb_prop in Hb as [Hb H3]. apply andb_prop in Hb as [H1 H2].
    destruct (run_bp_history (alive_next alive (as_pool_call op) r) (torn_next torn (as_pool_call op) r) ps' cs) as [[[[h1 a1] t1] p1]|] eqn:Er; [|discriminate].
    injection Hrun as <- <- <- <-.
    replace (hs ++ (op, r) :: h1) with ((hs ++ [(op, r)]) ++ h1) by (now rewrite <- app_assoc).
    eapply IH; [|exact Er]. apply bph_call with ps m; auto.
    + now apply legalb_ok.
    + intros k. rewrite forallb_forall in H2. specialize (H2 k (proj1 (members_all k))). now destruct (null_buffer (m k)).
    + unfold careful, carefulb in *. destruct (as_pool_call op), r; auto. now destruct (nth j torn false).
Qed.

Definition rough_calls : list (bp_op * (cls -> memory_left)) :=
  let all _ := plenty in
  let short k0 k := if cls_eqb k k0 then nothing_left else plenty in
  let fill i := flat_map (fun k => repeat (BpAlloc i k false, all) 3) members in
  [(BpNew, all); (BpNew, all); (BpNew, short KMapItem); (BpNew, all)] ++ fill 0%nat ++ fill 1%nat ++ fill 3%nat ++
  [(BpMerge 0 1, all); (BpAlloc 0 KData true, all); (BpMerge 0 3, short KArray); (BpAlloc 0 KData false, all); (BpAlloc 3 KArray false, all); (BpMerge 0 3, all);
   (BpMove 0, all); (BpAssign 1 4, all); (BpDestroy 0, all); (BpDestroy 3, all); (BpDestroy 4, all); (BpClear 1, all); (BpDestroy 1, all)].
Example C109_bridge_met : exists hs alive torn ps, bp_history hs alive torn ps /\
  Forall (fun b => b = false) alive /\ length alive = 5%nat /\
  map fst (filter (fun x => match snd x with RThrow => true | _ => false end) hs) = [BpNew; BpAlloc 0 KData true; BpMerge 0 3] /\
  forall k, (length (given k hs) >= 9)%nat /\ (require_destruct k = true -> length (destroyed (w_trace (ps k))) = length (given k hs)).
Proof.
  destruct (run_bp_history [] [] (fun _ => pworld0) rough_calls) as [[[[hs a] t] p]|] eqn:E; [|vm_compute in E; discriminate].
  exists hs, a, t, p. split; [apply (run_bp_history_ok rough_calls [] [] [] _ hs a t p bph_start E)|].
  assert (H : match run_bp_history [] [] (fun _ => pworld0) rough_calls with
              | Some (hs, a, t, p) => (forallb negb a && Nat.eqb (length a) 5 &&
                  forallb (fun k => Nat.leb 9 (length (given k hs)) && implb (require_destruct k) (Nat.eqb (length (destroyed (w_trace (p k)))) (length (given k hs)))) members)%bool = true /\
                  map fst (filter (fun x => match snd x with RThrow => true | _ => false end) hs) = [BpNew; BpAlloc 0 KData true; BpMerge 0 3]
              | None => False end) by (vm_compute; split; reflexivity).
  rewrite E in H. destruct H as [H Ht]. apply andb_prop in H as [H H3]. apply andb_prop in H as [H1 H2].
  split. { rewrite forallb_forall in H1. apply Forall_forall. intros b Hb. specialize (H1 b Hb). now destruct b. }
  split; [now apply Nat.eqb_eq|]. split; [exact Ht|]. intros k. rewrite forallb_forall in H3. specialize (H3 k (proj1 (members_all k))).
  apply andb_prop in H3 as [H3 H4]. apply Nat.leb_le in H3. split; [exact H3|]. intros Hd. rewrite Hd in H4. now apply Nat.eqb_eq.
Qed.
