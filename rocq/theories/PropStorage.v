(** * Property C33: storage owned by pooled objects. *)
From Verif Require Import Base BaseLemmas ModelData ModelObject ModelDataLife ModelStorage Samples.
From Coq Require Import ZifyBool ZifyNat ZifyN.

(** C33 fails: clearing (or destroying) a BridgePool releases no string, byte vector
    or key at all, in any history; one string of 16 bytes, one non-empty byte vector
    or one map entry with a key of 16 bytes suffices to leak. *)
Theorem C33_storage_released_refuted :
  (forall st, s_heap (do_call st ClearPool) = s_heap st) /\
  (forall call, In call [NewData (AStr (repeat x00 16)); NewData (ABytes (str [1])); NewMapItem (repeat x00 16)] ->
     s_heap (do_calls [call; ClearPool] bstate0) <> [] /\ s_objs (do_calls [call; ClearPool] bstate0) = []).
Proof.
  split.
  - intros st. cbn. unfold run_dtors. induction (s_objs st) as [|o l IH]; cbn; [reflexivity|].
    destruct (require_destruct (o_cls o)); exact IH.
  - intros call [<-|[<-|[<-|[]]]]; split; vm_compute; congruence.
Qed.

(** Which payloads need heap storage, said without the model's helpers: text of more
    than fifteen characters, a non-empty byte vector. *)
Definition long_payload (a : arg) : bool :=
  match a with
  | AStr s => negb (len s <=? 15)
  | ACstr arr => negb (len (cstr_content arr) <=? 15)
  | ABytes [] | ACustom [] => false
  | ABytes (_ :: _) | ACustom (_ :: _) => true
  | ANum _ _ | AThrowing | AOwn => false
  end.
Definition needs_storage (c : bp_call) : bool :=
  match c with
  | NewData a | AssignData _ a => long_payload a
  | NewMapItem key => negb (len key <=? 15)
  | NewOther _ | ClearPool => false
  end.

Lemma long_payload_eq a : arg_allocates a = long_payload a.
Proof.
  assert (E : forall x, (15 <? x) = negb (x <=? 15)) by (intros x; destruct (N.ltb_spec 15 x), (N.leb_spec x 15); cbn; lia).
  destruct a as [?|?|s|s| | | ]; cbn; unfold str_allocates, vec_allocates, sso; try apply E; try reflexivity;
    destruct s; try reflexivity; unfold len; cbn; apply N.ltb_lt; lia.
Qed.
Lemma long_key_eq s : str_allocates s = negb (len s <=? 15).
Proof. apply (long_payload_eq (AStr s)). Qed.

(** How much is lost, exactly: without reassignments, every long payload ever stored
    is still allocated, whether or not the pool was cleared since. *)
Theorem C33_every_long_payload_leaks_refuted : forall calls, (forall n a, ~ In (AssignData n a) calls) ->
  List.length (s_heap (do_calls calls bstate0)) = List.length (filter needs_storage calls) /\
  List.length (s_heap (do_calls (calls ++ [ClearPool]) bstate0)) = List.length (filter needs_storage calls).
Proof.
  intros calls Hna.
  assert (G : forall st, List.length (s_heap (do_calls calls st)) = (List.length (s_heap st) + List.length (filter needs_storage calls))%nat).
  { unfold do_calls. induction calls as [|c calls IH]; intros st; cbn [fold_left filter]; [cbn; lia|].
    rewrite IH by (intros n a Hin; apply (Hna n a); now right).
    destruct c as [a|k|key|n a|]; cbn [do_call needs_storage].
    - rewrite <- long_payload_eq. unfold add_obj. destruct (arg_allocates a); cbn; lia.
    - reflexivity.
    - rewrite <- long_key_eq. unfold add_obj. destruct (str_allocates key); cbn; lia.
    - exfalso. apply (Hna n a). now left.
    - pose proof (proj1 C33_storage_released_refuted st) as E. cbn [do_call] in E. now rewrite E. }
  split; [exact (G bstate0)|]. unfold do_calls. rewrite fold_left_app. cbn [fold_left].
  rewrite (proj1 C33_storage_released_refuted). exact (G bstate0).
Qed.

(** What holds: calls that need no heap storage leave none behind, in any order and
    number; and reassigning a Data releases what it held. *)
Definition frugal (c : bp_call) : bool := negb (needs_storage c).

Theorem C33_frugal_partial : forall calls, Forall (fun c => frugal c = true) calls ->
  s_heap (do_calls calls bstate0) = [].
Proof.
  intros calls H. unfold do_calls. assert (G : forall st, s_heap st = [] -> s_heap (fold_left do_call calls st) = []).
  { induction H as [|c calls Hc H IH]; intros st Hst; cbn [fold_left]; [exact Hst|]. apply IH.
    destruct c as [a|k|key|n a|]; cbv [frugal needs_storage] in Hc; cbn [do_call]; rewrite <- ?long_payload_eq, <- ?long_key_eq in Hc.
    - unfold add_obj. destruct (arg_allocates a); [discriminate|exact Hst].
    - exact Hst.
    - unfold add_obj. destruct (str_allocates key); [discriminate|exact Hst].
    - destruct (nth_error (s_objs st) n) as [[[] old]|]; try exact Hst. destruct (arg_allocates a); [discriminate|].
      cbn. rewrite Hst. now destruct old.
    - pose proof (proj1 C33_storage_released_refuted st) as E. cbn in E. cbn. now rewrite E. }
  now apply G.
Qed.

(** Between clears: the allocations alive are exactly those owned by some object
    that was not cleared away, so repeated assignment does not leak. *)
Definition owned (st : bstate) : list nat := flat_map (fun o => match o_owns o with Some n => [n] | None => [] end) (s_objs st).

Lemma owned_app l l' : flat_map (fun o => match o_owns o with Some n => [n] | None => [] end) (l ++ l') =
  flat_map (fun o => match o_owns o with Some n => [n] | None => [] end) l ++ flat_map (fun o => match o_owns o with Some n => [n] | None => [] end) l'.
Proof. apply flat_map_app. Qed.

Lemma set_owns_split n l o : nth_error l n = Some o -> exists l1 l2, l = l1 ++ o :: l2 /\
  forall a, set_owns n a l = l1 ++ {| o_cls := o_cls o; o_owns := a |} :: l2.
Proof.
  revert n. induction l as [|x l IH]; intros [|n] H; cbn in H; try discriminate.
  - injection H as ->. exists [], l. auto.
  - destruct (IH n H) as (l1 & l2 & -> & E). exists (x :: l1), l2. split; [reflexivity|]. intros a. cbn. now rewrite E.
Qed.

Lemma filter_all {A} (f : A -> bool) l : (forall x, In x l -> f x = true) -> filter f l = l.
Proof.
  induction l as [|x l IH]; intros H; cbn; [reflexivity|]. rewrite (H x (or_introl eq_refl)). f_equal. apply IH.
  intros y Hy. apply H. now right.
Qed.

Lemma perm_filter {A} (f : A -> bool) l l' : Permutation l l' -> Permutation (filter f l) (filter f l').
Proof.
  induction 1; cbn; try destruct (f x); try destruct (f y); eauto using Permutation.
Qed.

Lemma release_perm n heap l1 l2 : NoDup heap -> Permutation heap (l1 ++ n :: l2) -> Permutation (release (Some n) heap) (l1 ++ l2).
Proof.
  intros HN HP. apply (Permutation_NoDup HP) in HN as HN'. apply NoDup_remove in HN' as [HN1 HN2].
  assert (E : filter (fun m => negb (Nat.eqb m n)) (l1 ++ l2) = l1 ++ l2).
  { apply filter_all. intros m Hm. destruct (Nat.eqb_spec m n); [subst; contradiction|reflexivity]. }
  rewrite <- E. assert (E2 : filter (fun m => negb (Nat.eqb m n)) (l1 ++ n :: l2) = filter (fun m => negb (Nat.eqb m n)) (l1 ++ l2)).
  { rewrite !filter_app. cbn. now rewrite Nat.eqb_refl. }
  rewrite <- E2. cbn. now apply perm_filter.
Qed.

Theorem C33_no_leak_before_clear_partial : forall calls, ~ In ClearPool calls ->
  Permutation (s_heap (do_calls calls bstate0)) (owned (do_calls calls bstate0)).
Proof.
  intros calls Hnc. unfold do_calls.
  assert (G : forall st, Permutation (s_heap st) (owned st) -> NoDup (s_heap st) -> (forall n, In n (s_heap st) -> (n < s_next st)%nat) ->
    Permutation (s_heap (fold_left do_call calls st)) (owned (fold_left do_call calls st))).
  { induction calls as [|c calls IH]; intros st HP HN Hlt; cbn [fold_left]; [exact HP|].
    assert (Hc : c <> ClearPool) by (intros ->; apply Hnc; now left).
    assert (Hadd : forall k b, Permutation (s_heap (add_obj k b st)) (owned (add_obj k b st)) /\ NoDup (s_heap (add_obj k b st)) /\
       (forall n, In n (s_heap (add_obj k b st)) -> (n < s_next (add_obj k b st))%nat)).
    { intros k []; cbn; [|auto]. split; [now constructor|]. split.
      - constructor; [|exact HN]. intros Hin. specialize (Hlt _ Hin). lia.
      - intros n [<-|Hin]; [lia|]. specialize (Hlt _ Hin). lia. }
    assert (HX : Permutation (s_heap (do_call st c)) (owned (do_call st c)) /\ NoDup (s_heap (do_call st c)) /\
       (forall n, In n (s_heap (do_call st c)) -> (n < s_next (do_call st c))%nat)).
    { destruct c as [a|k|key|n a|]; cbn [do_call]; try apply Hadd; [|congruence].
      destruct (nth_error (s_objs st) n) as [[[] old]|] eqn:E; auto.
      destruct (set_owns_split n _ _ E) as (l1 & l2 & El & E1).
      assert (Hrel : Permutation (release old (s_heap st))
        (flat_map (fun o => match o_owns o with Some n => [n] | None => [] end) l1 ++ flat_map (fun o => match o_owns o with Some n => [n] | None => [] end) l2)
        /\ NoDup (release old (s_heap st)) /\ (forall m, In m (release old (s_heap st)) -> In m (s_heap st))).
      { unfold owned in HP. rewrite El, owned_app in HP. cbn [flat_map o_owns] in HP. destruct old as [m|]; cbn [app] in HP.
        - split; [now apply release_perm|]. cbn. split; [now apply NoDup_filter|]. intros x Hx. now apply filter_In in Hx.
        - cbn. auto. }
      destruct Hrel as (HP' & HN' & Hsub).
      destruct (arg_allocates a); cbn [s_heap s_next].
      - split; [|split].
        + unfold owned. cbn [s_objs]. rewrite E1, owned_app. cbn [flat_map o_owns app]. apply Permutation_cons_app. exact HP'.
        + constructor; [|exact HN']. intros Hin. specialize (Hlt _ (Hsub _ Hin)). lia.
        + intros m [<-|Hin]; [lia|]. specialize (Hlt _ (Hsub _ Hin)). lia.
      - split; [|split; [exact HN'|auto]]. unfold owned. cbn [s_objs]. rewrite E1, owned_app. cbn [flat_map o_owns app]. exact HP'. }
    destruct HX as (H1 & H2 & H3). apply IH; auto. intros Hin. apply Hnc. now right. }
  apply G; [apply Permutation_refl|constructor|intros n []].
Qed.

Example C33_met : s_heap (do_calls [NewData (AStr (repeat x00 20)); AssignData 0 (ANum U32 1); NewOther KMap; NewMapItem k_id] bstate0) = [] /\
  s_heap (do_calls [NewData (AStr (str [1])); NewMapItem k_id; NewData (ANum F64 0); ClearPool] bstate0) = [].
Proof. split; reflexivity. Qed.

Example C33_leak_met : List.length (s_heap (do_calls [NewData (AStr (repeat x00 16)); NewData (AStr (repeat x00 15)); ClearPool; NewMapItem (repeat x00 40); NewData (ABytes [x00]); ClearPool] bstate0)) = 3%nat.
Proof. reflexivity. Qed.
