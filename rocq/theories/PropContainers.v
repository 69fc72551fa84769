(** * Properties C17, C18, C20, C22, C52: containers and wrappers over all histories. *)
From Verif Require Import Base BaseLemmas ModelData ModelObject ModelWrapper Spec SpecApi ApiProofs Samples.
From Coq Require Import ZifyBool ZifyNat ZifyN.
Local Open Scope out_scope.

Lemma Forall2_length {A B} (R : A -> B -> Prop) l l' : Forall2 R l l' -> length l = length l'.
Proof. induction 1; cbn; congruence. Qed.

(** ** C17: Array *)
Inductive aop := AInsert (x : obj) | AClear.

Fixpoint arun (live : pool -> bool) (ops : list aop) (a : obj) : outcome obj :=
  match ops with
  | [] => Ok a
  | AInsert x :: l => a' <- Array_Insert live a x ;; arun live l a'
  | AClear :: l => a' <- Container_Clear a ;; arun live l a'
  end.

(** The elements inserted since the last Clear, in order of insertion. *)
Definition elements (ops : list aop) : list obj :=
  fold_left (fun acc op => match op with AInsert x => acc ++ [x] | AClear => [] end) ops [].

Lemma arun_ok live p : live p = true -> forall ops acc, len acc + len ops < 2 ^ 64 ->
  let r := fold_left (fun acc op => match op with AInsert x => acc ++ [x] | AClear => [] end) ops acc in
  arun live ops (OArray p (len acc) (rev acc)) = Ok (OArray p (len r) (rev r)).
Proof.
  intros Hp. induction ops as [|op ops IH]; intros acc HL; cbn; [reflexivity|]. rewrite len_cons in HL.
  destruct op as [x|]; cbn.
  - rewrite Hp. cbn. rewrite u64_small by (rewrite W64_val; lia).
    specialize (IH (acc ++ [x])). rewrite len_app, rev_app_distr in IH. cbn in IH. apply IH. change (len [x]) with 1. lia.
  - apply (IH []). rewrite len_nil. lia.
Qed.

Lemma walk_nth l : forall n, walk n l = nth n l ONull.
Proof. induction l as [|x l IH]; intros [|n]; cbn; auto. Qed.

Theorem C17_array : forall live p ops,
  live p = true -> len ops < 2 ^ 64 ->
  exists a, arun live ops (array_new p) = Ok a /\
    w_Size a = Some (len (elements ops)) /\
    (forall n x, nth_error (elements ops) (N.to_nat n) = Some x -> w_idx a n = Ok x) /\
    (forall n, len (elements ops) <= n -> w_idx a n = Ok ONull).
Proof.
  intros live p ops Hp HL. pose proof (arun_ok live p Hp ops []) as H. cbn in H. fold (elements ops) in H.
  eexists. split; [apply H; rewrite len_nil; lia|]. cbn. split; [reflexivity|]. split.
  - intros n x Hn. assert (Hlt : (N.to_nat n < length (elements ops))%nat) by (apply nth_error_Some; congruence).
    unfold Array_at. destruct (N.leb_spec (len (elements ops)) n); [unfold len in *; lia|].
    f_equal. rewrite walk_nth. replace (N.to_nat (len (elements ops) - 1 - n)) with (length (elements ops) - S (N.to_nat n))%nat by (unfold len; lia).
    rewrite rev_nth by lia. replace (length (elements ops) - S (length (elements ops) - S (N.to_nat n)))%nat with (N.to_nat n) by lia.
    now apply nth_error_nth.
  - intros n Hn. unfold Array_at. destruct (N.leb_spec (len (elements ops)) n); [reflexivity|lia].
Qed.

Example C17_met : exists a, arun all_live [AInsert (data_of_string k_id); AClear; AInsert (data_of_num U32 1); AInsert (data_of_num U32 2)]
    (array_new (PoolId 0)) = Ok a /\ w_idx a 1 = Ok (data_of_num U32 2) /\ w_Size a = Some 2.
Proof. eexists. split; [reflexivity|]. split; reflexivity. Qed.

(** ** C18, C52: Map and MapView.  [MTake k] is [Get(k)], which moves the value out. *)
Inductive mop (K : Type) := MInsert (k : K) (x : obj) | MTake (k : bytes) | MClear.
Arguments MInsert {K} k x.
Arguments MTake {K} k.
Arguments MClear {K}.

Fixpoint mrun (live : pool -> bool) (ops : list (mop bytes)) (m : obj) : outcome obj :=
  match ops with
  | [] => Ok m
  | MInsert k x :: l => m' <- Map_Insert live m k x ;; mrun live l m'
  | MClear :: l => m' <- Container_Clear m ;; mrun live l m'
  | MTake k :: l =>
      match m with
      | OMap p size items => mrun live l (OMap p size (snd (Map_take items k)))
      | _ => UB
      end
  end.

Fixpoint mvrun (live : pool -> bool) (mem : memory) (ops : list (mop view)) (m : obj) : outcome obj :=
  match ops with
  | [] => Ok m
  | MInsert k x :: l => m' <- MapView_Insert live m k x ;; mvrun live mem l m'
  | MClear :: l => m' <- Container_Clear m ;; mvrun live mem l m'
  | MTake k :: l =>
      match m with
      | OMapView p size items => r <- MapView_take mem items k ;; mvrun live mem l (OMapView p size (snd r))
      | _ => UB
      end
  end.

(** Specification: the dictionary after a history, a function from keys to what is
    visible, and the number of inserts since the last Clear. *)
Definition dict := bytes -> obj.
Definition dstep (d : dict) (op : mop bytes) : dict :=
  match op with
  | MInsert k x => fun k' => if bytes_eqb k k' then x else d k'
  | MTake k => fun k' => if bytes_eqb k k' then ONull else d k'
  | MClear => fun _ => ONull
  end.
Definition visible (ops : list (mop bytes)) : dict := fold_left dstep ops (fun _ => ONull).
Definition cstep (n : N) (op : mop bytes) : N :=
  match op with MInsert _ _ => n + 1 | MTake _ => n | MClear => 0 end.
Definition inserts (ops : list (mop bytes)) : N := fold_left cstep ops 0.

Lemma beq_refl k : bytes_eqb k k = true.
Proof. now apply Bool.reflect_iff with (1 := bytes_eqb_spec k k). Qed.
Lemma beq_sym a b : bytes_eqb a b = bytes_eqb b a.
Proof. destruct (bytes_eqb_spec a b), (bytes_eqb_spec b a); congruence. Qed.

Lemma Map_take_at items k k' : Map_at (snd (Map_take items k)) k' = if bytes_eqb k k' then ONull else Map_at items k'.
Proof.
  induction items as [|[q x] items IH]; cbn; [now destruct (bytes_eqb k k')|].
  destruct (bytes_eqb_spec q k) as [->|Hne]; cbn.
  - destruct (bytes_eqb_spec k k') as [->|]; reflexivity.
  - destruct (Map_take items k) as [r l] eqn:Ht. cbn in *. rewrite IH.
    destruct (bytes_eqb_spec q k'), (bytes_eqb_spec k k'); congruence.
Qed.
Lemma Map_take_len items k : len (snd (Map_take items k)) = len items.
Proof.
  induction items as [|[q x] items IH]; cbn; [reflexivity|]. destruct (bytes_eqb q k); cbn; rewrite ?len_cons; [reflexivity|].
  destruct (Map_take items k) as [r l] eqn:Ht. cbn in *. rewrite !len_cons. congruence.
Qed.
Lemma Map_take_fst items k : fst (Map_take items k) = Map_at items k.
Proof.
  induction items as [|[q x] items IH]; cbn; [reflexivity|]. destruct (bytes_eqb q k); [reflexivity|].
  destruct (Map_take items k) as [r l] eqn:Ht. exact IH.
Qed.

Lemma mrun_ok live p : live p = true -> forall ops items (d : dict),
  (forall k, Map_at items k = d k) -> len items + len ops < 2 ^ 64 ->
  exists items', mrun live ops (OMap p (len items) items) = Ok (OMap p (len items') items') /\
    (forall k, Map_at items' k = fold_left dstep ops d k) /\ len items' = fold_left cstep ops (len items).
Proof.
  intros Hp. induction ops as [|op ops IH]; intros items d Hd HL; cbn; [eauto|]. rewrite len_cons in HL.
  destruct op as [k x|k|]; cbn.
  - rewrite Hp. cbn. rewrite u64_small by (rewrite W64_val; lia).
    replace (len items + 1) with (len ((k, x) :: items)) by (rewrite len_cons; lia).
    apply IH; [|rewrite len_cons; lia]. intros k'. cbn. now rewrite Hd.
  - rewrite <- (Map_take_len items k). apply IH; [|rewrite Map_take_len; lia].
    intros k'. now rewrite Map_take_at, Hd.
  - change 0 with (@len (bytes * obj) []). apply IH; [reflexivity|rewrite len_nil; lia].
Qed.

Theorem C18_map : forall live p ops,
  live p = true -> len ops < 2 ^ 64 ->
  exists m, mrun live ops (map_new p) = Ok m /\
    w_Size m = Some (inserts ops) /\
    forall mem k, w_key mem m k = Ok (visible ops k).
Proof.
  intros live p ops Hp HL. destruct (mrun_ok live p Hp ops [] (fun _ => ONull)) as (items & H1 & H2 & H3);
    [reflexivity|rewrite len_nil; lia|].
  eexists. split; [exact H1|]. cbn. split; [now rewrite H3|]. intros mem k. now rewrite H2.
Qed.

(** What [visible] says for plain insert histories: the most recent insert wins. *)
Theorem C18_last_write_wins : forall ops k,
  (forall x ops1 ops2, ops = ops1 ++ MInsert k x :: ops2 ->
     (forall op, In op ops2 -> op <> MClear /\ op <> MTake k /\ forall y, op <> MInsert k y) -> visible ops k = x) /\
  ((forall x ops1 ops2, ops <> ops1 ++ MInsert k x :: ops2) -> visible ops k = ONull).
Proof.
  intros ops k. split.
  - intros x ops1 ops2 -> Hno. unfold visible. rewrite fold_left_app. cbn [fold_left].
    set (d := dstep (fold_left dstep ops1 (fun _ => ONull)) (MInsert k x)). assert (Hd : d k = x) by (subst d; cbn; now rewrite beq_refl).
    clearbody d. revert d Hd. induction ops2 as [|op ops2 IH]; intros d Hd; cbn; [exact Hd|].
    apply IH; [intros o Ho; apply Hno; now right|]. destruct (Hno op (or_introl eq_refl)) as (H1 & H2 & H3).
    destruct op as [k' y|k'|]; cbn.
    + destruct (bytes_eqb_spec k' k) as [->|]; [now contradiction (H3 y)|exact Hd].
    + destruct (bytes_eqb_spec k' k) as [->|]; [now contradiction H2|exact Hd].
    + now contradiction H1.
  - intros Hno. unfold visible. assert (forall (d : dict), d k = ONull -> fold_left dstep ops d k = ONull); [|auto].
    revert Hno. induction ops as [|op ops IH]; intros Hno d Hd; cbn; [exact Hd|]. apply IH.
    + intros x ops1 ops2 ->. apply (Hno x (op :: ops1) ops2). reflexivity.
    + destruct op as [k' y|k'|]; cbn; [|destruct (bytes_eqb k' k); auto|reflexivity].
      destruct (bytes_eqb_spec k' k) as [->|]; [exfalso; now apply (Hno y [] ops)|exact Hd].
Qed.

(** C52: what Get(k) returns and leaves behind. *)
Theorem C52_take : forall live p ops items size k,
  mrun live ops (map_new p) = Ok (OMap p size items) -> live p = true -> len ops < 2 ^ 64 ->
  fst (Map_take items k) = visible ops k /\
  exists m, mrun live (ops ++ [MTake k]) (map_new p) = Ok m /\ w_Size m = Some size /\
    (forall mem k', w_key mem m k' = Ok (if bytes_eqb k k' then ONull else visible ops k')).
Proof.
  intros live p ops items size k Hrun Hp HL.
  destruct (C18_map live p ops Hp HL) as (m & H1 & H2 & H3). rewrite Hrun in H1. injection H1 as <-.
  split. { rewrite Map_take_fst. specialize (H3 (fun _ => None) k). cbn in H3. congruence. }
  assert (Happ : forall l1 l2 m0, mrun live (l1 ++ l2) m0 = (m1 <- mrun live l1 m0 ;; mrun live l2 m1)).
  { induction l1 as [|op l1 IH]; intros l2 m0; [reflexivity|]. cbn. destruct op as [q x|q|].
    - destruct (Map_Insert live m0 q x); cbn; auto.
    - destruct m0; cbn; auto.
    - destruct (Container_Clear m0); cbn; auto. }
  rewrite Happ, Hrun. cbn. eexists. split; [reflexivity|]. split; [reflexivity|]. intros mem k'. cbn.
  rewrite Map_take_at. specialize (H3 mem k'). cbn in H3. injection H3 as H3. now rewrite H3.
Qed.

Example C18_met : exists m, mrun all_live [MInsert k_id (data_of_num U32 1); MInsert k_tags (data_of_num U32 2);
      MInsert k_id (data_of_num U32 3); MTake k_tags] (map_new (PoolId 0)) = Ok m /\
  w_Size m = Some 3 /\ w_key (fun _ => None) m k_id = Ok (data_of_num U32 3) /\ w_key (fun _ => None) m k_tags = Ok ONull.
Proof. eexists. split; [reflexivity|]. repeat split. Qed.

(** MapView: the same dictionary, keys being the strings the views designate. *)
Inductive reads (mem : memory) : list (mop view) -> list (mop bytes) -> Prop :=
| rd_nil : reads mem [] []
| rd_insert v k x l l' : read_view mem v = Ok k -> reads mem l l' -> reads mem (MInsert v x :: l) (MInsert k x :: l')
| rd_take k l l' : reads mem l l' -> reads mem (MTake k :: l) (MTake k :: l')
| rd_clear l l' : reads mem l l' -> reads mem (MClear :: l) (MClear :: l').

Lemma reads_len mem l l' : reads mem l l' -> len l = len l'.
Proof. induction 1 as [|v k x l l' Hv Hr IH|k l l' Hr IH|l l' Hr IH]; [reflexivity|..]; rewrite !len_cons, IH; reflexivity. Qed.

Definition vitems (mem : memory) (items : list (view * obj)) (items' : list (bytes * obj)) : Prop :=
  Forall2 (fun i e => read_view mem (fst i) = Ok (fst e) /\ snd i = snd e) items items'.

Lemma vitems_at mem items items' k : vitems mem items items' -> MapView_at mem items k = Ok (Map_at items' k).
Proof.
  induction 1 as [|[v x] [q y] l l' [H1 H2] HF IH]; [reflexivity|]. cbn in *. subst y. rewrite H1. cbn.
  destruct (bytes_eqb q k); [reflexivity|exact IH].
Qed.

Lemma vitems_take mem items items' k : vitems mem items items' ->
  exists l, MapView_take mem items k = Ok (fst (Map_take items' k), l) /\ vitems mem l (snd (Map_take items' k)).
Proof.
  induction 1 as [|[v x] [q y] l l' [H1 H2] HF (r & IH1 & IH2)]; cbn; [eexists; split; [reflexivity|constructor]|].
  cbn in *. subst y. rewrite H1. cbn. destruct (bytes_eqb q k).
  - eexists. split; [reflexivity|]. constructor; auto.
  - rewrite IH1. cbn. destruct (Map_take l' k) as [o l2]. cbn in *. eexists. split; [reflexivity|]. constructor; auto.
Qed.

Lemma mvrun_ok live mem p : live p = true -> forall ops ops', reads mem ops ops' -> forall items items',
  vitems mem items items' ->
  (forall size m', mrun live ops' (OMap p size items') = Ok m' ->
   exists size' l l', m' = OMap p size' l' /\ mvrun live mem ops (OMapView p size items) = Ok (OMapView p size' l) /\ vitems mem l l').
Proof.
  intros Hp. induction 1 as [|v k x l l' Hv Hr IH|k l l' Hr IH|l l' Hr IH]; intros items items' Hi size m' Hm; cbn in *.
  - injection Hm as <-. eauto 7.
  - rewrite Hp in *. cbn in *. eapply IH; [|exact Hm]. constructor; auto.
  - destruct (vitems_take mem items items' k Hi) as (r & E1 & E2). rewrite E1. cbn. eapply IH; [exact E2|exact Hm].
  - eapply IH; [constructor|exact Hm].
Qed.

Theorem C18_map_view : forall live mem p ops ops',
  live p = true -> len ops < 2 ^ 64 -> reads mem ops ops' ->
  exists m, mvrun live mem ops (map_view_new p) = Ok m /\
    w_Size m = Some (inserts ops') /\
    forall k, w_key mem m k = Ok (visible ops' k).
Proof.
  intros live mem p ops ops' Hp HL Hr. pose proof (reads_len _ _ _ Hr) as Hl.
  destruct (C18_map live p ops' Hp) as (m & H1 & H2 & H3); [lia|].
  destruct (mvrun_ok live mem p Hp ops ops' Hr [] [] (Forall2_nil _) 0 m H1) as (size & l & l' & -> & H4 & H5).
  eexists. split; [exact H4|]. split; [exact H2|]. intros k. cbn. rewrite (vitems_at _ _ _ k H5).
  specialize (H3 mem k). cbn in H3. exact H3.
Qed.

Example C18_view_met : reads (fun _ => Some k_id) [MInsert {| v_buf := 0; v_off := 0; v_len := 2 |} data_default; MClear; MTake k_tags]
  [MInsert k_id data_default; MClear; MTake k_tags].
Proof. repeat constructor. Qed.

(** ** C20: iteration *)
Fixpoint it_advance (n : nat) (i : witer) : outcome witer :=
  match n with O => Ok i | S n' => i' <- it_next i ;; it_advance n' i' end.

(** What GetValue must show at each position. *)
Definition entries_seen (v : value) : list (option bytes * value) :=
  match v with
  | VScalar _ => []
  | VArr l => map (fun x => (None, x)) (rev l)
  | VMap l => map (fun e => (Some (fst e), snd e)) l
  end.

Theorem C20_iteration : forall mem o v,
  denotes mem o v ->
  match w_GetIterator o with
  | None => w_Size o = None
  | Some it =>
      w_Size o = Some (len (entries_seen v)) /\
      (forall n, (n <= length (entries_seen v))%nat ->
         exists i, it_advance n it = Ok i /\
           (it_Valid i = true <-> (n < length (entries_seen v))%nat) /\
           (forall k x, nth_error (entries_seen v) n = Some (k, x) ->
              (exists c, it_GetValue i = Ok c /\ denotes mem c x) /\
              match k with Some k => it_GetKey mem i = Ok k | None => it_GetKey mem i = Throw ERuntime end))
  end.
Proof.
  assert (Hadv : forall n i, it_advance n i =
    match i with
    | ItMap l => if (n <=? length l)%nat then Ok (ItMap (skipn n l)) else UB
    | ItMapView l => if (n <=? length l)%nat then Ok (ItMapView (skipn n l)) else UB
    | ItArray l => if (n <=? length l)%nat then Ok (ItArray (skipn n l)) else UB
    end).
  { induction n as [|n IH]; intros [l|l|l]; try reflexivity; destruct l as [|e l]; try reflexivity; cbn; rewrite IH; reflexivity. }
  intros mem o v H. destruct H as [dt s x H|dt s x H|p size items l Hs HF|p size items l Hs HF|p size items l Hs HF]; try reflexivity.
  - cbn [w_GetIterator w_Size entries_seen]. pose proof (Forall2_length _ _ _ HF) as HL. rewrite map_length, rev_length in *.
    split; [rewrite Hs; unfold len; rewrite map_length, rev_length; congruence|]. intros n Hn. rewrite Hadv.
    destruct (Nat.leb_spec n (length items)); [|lia]. eexists. split; [reflexivity|]. split.
    + destruct (skipn n items) eqn:He; cbn; apply (f_equal (@length _)) in He; rewrite skipn_length in He; cbn in He; (split; [|intros; lia || reflexivity]); [discriminate|lia].
    + intros k x Hnth. rewrite nth_error_map in Hnth. destruct (nth_error (rev l) n) as [y|] eqn:Hy; [|discriminate].
      injection Hnth as <- <-. apply Forall2_flip in HF. destruct (Forall2_nth _ _ _ _ _ HF Hy) as (c & Hc & Hd).
      apply nth_error_split in Hc as (l1 & l2 & -> & Hl). subst n. rewrite skipn_app, skipn_all, Nat.sub_diag. cbn. eauto.
  - cbn [w_GetIterator w_Size entries_seen]. pose proof (Forall2_length _ _ _ HF) as HL. rewrite map_length in *.
    split; [rewrite Hs; unfold len; rewrite map_length; congruence|]. intros n Hn. rewrite Hadv.
    destruct (Nat.leb_spec n (length items)); [|lia]. eexists. split; [reflexivity|]. split.
    + destruct (skipn n items) eqn:He; cbn; apply (f_equal (@length _)) in He; rewrite skipn_length in He; cbn in He; (split; [|intros; lia || reflexivity]); [discriminate|lia].
    + intros k x Hnth. rewrite nth_error_map in Hnth. destruct (nth_error l n) as [[q y]|] eqn:Hy; [|discriminate].
      injection Hnth as <- <-. apply Forall2_flip in HF. destruct (Forall2_nth _ _ _ _ _ HF Hy) as ([q' c] & Hc & Hq & Hd). cbn in *. subst q'.
      apply nth_error_split in Hc as (l1 & l2 & -> & Hl). subst n. rewrite skipn_app, skipn_all, Nat.sub_diag. cbn. eauto.
  - cbn [w_GetIterator w_Size entries_seen]. pose proof (Forall2_length _ _ _ HF) as HL. rewrite map_length in *.
    split; [rewrite Hs; unfold len; rewrite map_length; congruence|]. intros n Hn. rewrite Hadv.
    destruct (Nat.leb_spec n (length items)); [|lia]. eexists. split; [reflexivity|]. split.
    + destruct (skipn n items) eqn:He; cbn; apply (f_equal (@length _)) in He; rewrite skipn_length in He; cbn in He; (split; [|intros; lia || reflexivity]); [discriminate|lia].
    + intros k x Hnth. rewrite nth_error_map in Hnth. destruct (nth_error l n) as [[q y]|] eqn:Hy; [|discriminate].
      injection Hnth as <- <-. apply Forall2_flip in HF. destruct (Forall2_nth _ _ _ _ _ HF Hy) as ([q' c] & Hc & Hq & Hd). cbn in *.
      apply nth_error_split in Hc as (l1 & l2 & -> & Hl). subst n. rewrite skipn_app, skipn_all, Nat.sub_diag. cbn. eauto.
Qed.

(** The order is the one of insertion, most recent first: for a history of inserts
    into a Map the entries are exactly those inserted, in reverse. *)
Theorem C20_insertion_order : forall live p (l : list (bytes * obj)),
  live p = true -> len l < 2 ^ 64 ->
  exists m, mrun live (map (fun e => MInsert (fst e) (snd e)) l) (map_new p) = Ok m /\
            w_GetIterator m = Some (ItMap (rev l)).
Proof.
  intros live p l Hp HL. cut (forall acc, len acc + len l < 2 ^ 64 ->
    exists m, mrun live (map (fun e => MInsert (fst e) (snd e)) l) (OMap p (len acc) acc) = Ok m /\
              w_GetIterator m = Some (ItMap (rev l ++ acc))).
  { intros H. destruct (H []) as (m & H1 & H2); [rewrite len_nil; lia|]. exists m. now rewrite app_nil_r in H2. }
  clear HL. induction l as [|[k x] l IH]; intros acc HL; cbn; [eauto|]. rewrite Hp. cbn. rewrite len_cons in HL.
  rewrite u64_small by (rewrite W64_val; lia).
  replace (len acc + 1) with (len ((k, x) :: acc)) by (rewrite len_cons; lia).
  destruct (IH ((k, x) :: acc)) as (m & H1 & H2); [rewrite len_cons; lia|]. exists m. rewrite <- app_assoc. auto.
Qed.

(** The whole loop [for (it = w.GetIterator(); it.Valid(); ++it)]: it stops, its bodies
    see every element once, in order, and it asks for no key of an array. *)
Lemma collect_spec : forall {A} mem (mk : list A -> witer) (kv : A -> outcome bytes) (ov : A -> obj) (keys : bool)
  (R : A -> option bytes * value -> Prop),
  it_Valid (mk []) = false ->
  (forall a l, it_Valid (mk (a :: l)) = true /\ it_next (mk (a :: l)) = Ok (mk l) /\
               it_GetValue (mk (a :: l)) = Ok (ov a) /\ it_GetKey mem (mk (a :: l)) = kv a) ->
  (forall a e, R a e -> denotes mem (ov a) (snd e) /\ (keys = true -> exists k, fst e = Some k /\ kv a = Ok k)) ->
  forall items seen, Forall2 R items seen -> forall fuel, (length seen < fuel)%nat ->
  exists l, it_collect mem fuel keys (mk items) = Ok l /\
    Forall2 (fun got want => denotes mem (snd got) (snd want) /\ (keys = true -> fst want = Some (fst got))) l seen.
Proof.
  intros A mem mk kv ov keys R H0 H1 HR items seen HF.
  induction HF as [|a e items seen Hae HF IH]; intros fuel Hf; (destruct fuel as [|fuel]; [cbn in Hf; lia|]); cbn [it_collect].
  - rewrite H0. eauto.
  - destruct (H1 a items) as (E1 & E2 & E3 & E4). rewrite E1, E2, E3, E4. cbn [obind].
    destruct (IH fuel) as (l & El & Hl); [cbn in Hf; lia|].
    destruct (HR a e Hae) as (Hd & Hk). destruct keys.
    + destruct (Hk eq_refl) as (k & Ek & Ekv). rewrite Ekv. cbn [obind]. rewrite El. cbn [obind]. eexists. split; [reflexivity|].
      constructor; auto.
    + cbn [obind]. rewrite El. cbn [obind]. eexists. split; [reflexivity|]. constructor; [|exact Hl]. split; [exact Hd|discriminate].
Qed.

Lemma Forall2_map_right : forall {A B C} (f : B -> C) (R : A -> C -> Prop) l l',
  Forall2 (fun a b => R a (f b)) l l' -> Forall2 R l (map f l').
Proof. induction 1; cbn; constructor; auto. Qed.

Theorem C20_loop : forall mem o v it fuel keys,
  denotes mem o v -> w_GetIterator o = Some it -> (length (entries_seen v) < fuel)%nat ->
  (keys = true -> exists l, v = VMap l) ->
  exists l, it_collect mem fuel keys it = Ok l /\
    Forall2 (fun got want => denotes mem (snd got) (snd want) /\ (keys = true -> fst want = Some (fst got)))
            l (entries_seen v).
Proof.
  intros mem o v it fuel keys H Hit Hf Hk.
  destruct H as [dt s x H|dt s x H|p size items l Hs HF|p size items l Hs HF|p size items l Hs HF]; try discriminate; injection Hit as <-.
  - destruct keys; [destruct (Hk eq_refl); discriminate|].
    eapply (collect_spec mem ItArray (fun _ => Throw ERuntime) (fun o => o) false (fun o e => denotes mem o (snd e))); try easy.
    cbn [entries_seen]. apply Forall2_map_right. exact HF.
  - eapply (collect_spec mem ItMap (fun e => Ok (fst e)) snd keys
      (fun i e => denotes mem (snd i) (snd e) /\ fst e = Some (fst i))); try easy.
    + now intros [].
    + intros a e [E1 E2]. split; [exact E1|]. eauto.
    + cbn [entries_seen]. apply Forall2_map_right. eapply Forall2_impl; [|exact HF]. cbn. intros a b _ _ [-> E]. auto.
  - eapply (collect_spec mem ItMapView (fun e => read_view mem (fst e)) snd keys
      (fun i e => denotes mem (snd i) (snd e) /\ exists k, fst e = Some k /\ read_view mem (fst i) = Ok k)); try easy.
    + now intros [].
    + cbn [entries_seen]. apply Forall2_map_right. eapply Forall2_impl; [|exact HF]. cbn. intros a b _ _ [E0 E]. eauto.
Qed.

(** Asking for a key while looping over a non-empty array throws, before any element
    is shown; over an empty array nothing is asked. *)
Theorem C20_array_keys_throw : forall mem o l it fuel,
  denotes mem o (VArr l) -> w_GetIterator o = Some it ->
  it_collect mem (S fuel) true it = match l with [] => Ok [] | _ => Throw ERuntime end.
Proof.
  intros mem o l it fuel H Hit. inversion H as [| |p size items l' Hs HF| |]; subst. injection Hit as <-.
  destruct l as [|x l].
  - inversion HF; subst. reflexivity.
  - cbn [rev] in HF. apply Forall2_length in HF. rewrite app_length in HF. destruct items; [cbn in HF; lia|]. reflexivity.
Qed.

Example C20_loop_met : it_collect (fun _ => None) 3 true (ItMap [(k_id, data_of_num U32 1); (k_tags, data_of_string k_sub)]) =
  Ok [(k_id, data_of_num U32 1); (k_tags, data_of_string k_sub)].
Proof. reflexivity. Qed.

Example C20_met : exists it i, w_GetIterator (OMap (PoolId 0) 2 [(k_id, data_of_num U32 1); (k_tags, data_of_string k_sub)]) = Some it /\
  it_advance 1 it = Ok i /\ it_GetKey (fun _ => None) i = Ok k_tags /\ it_advance 3 it = UB.
Proof. do 2 eexists. repeat split. Qed.

(** ** C22: ObjectWrapper.  Objects here are arbitrary: null children, data in the
    invalid state, sizes that do not match; only the keys of views must be readable. *)
Inductive readable_keys (mem : memory) : obj -> Prop :=
| rk_null : readable_keys mem ONull
| rk_data dt s : readable_keys mem (OData dt s)
| rk_data_view dt s : readable_keys mem (ODataView dt s)
| rk_array p n l : Forall (readable_keys mem) l -> readable_keys mem (OArray p n l)
| rk_map p n l : Forall (fun e => readable_keys mem (snd e)) l -> readable_keys mem (OMap p n l)
| rk_map_view p n l :
    Forall (fun e => (exists k, read_view mem (fst e) = Ok k) /\ readable_keys mem (snd e)) l ->
    readable_keys mem (OMapView p n l).

Theorem C22_wrapper_total : forall mem o path,
  readable_keys mem o -> exists w, api_walk mem o path = Ok w /\ readable_keys mem w.
Proof.
  intros mem o path. revert o. induction path as [|st path IH]; intros o Ho; cbn; [eauto|].
  assert (exists w, match st with Key k => w_key mem o k | Idx n => w_idx o n end = Ok w /\ readable_keys mem w) as (w & Hw & Hr).
  { destruct st as [k|n]; destruct Ho as [|dt s|dt s|p n' l HF|p n' l HF|p n' l HF]; cbn; try (eexists; split; [reflexivity|constructor]; fail).
    - eexists. split; [reflexivity|]. induction HF as [|[q x] l Hx HF IHl]; cbn; [constructor|]. destruct (bytes_eqb q k); auto.
    - induction HF as [|[q x] l [[q' Hq] Hx] HF IHl]; cbn; [eexists; split; [reflexivity|constructor]|]. cbn in Hq. rewrite Hq. cbn.
      destruct (bytes_eqb q' k); eauto.
    - eexists. split; [reflexivity|]. unfold Array_at. destruct (n' <=? n); [constructor|]. rewrite walk_nth.
      revert HF. generalize (N.to_nat (n' - 1 - n)). clear. intros i HF. revert i. induction HF; intros [|i]; cbn; auto; constructor. }
  destruct st as [k|n]; rewrite Hw; cbn; apply IH, Hr.
Qed.

(** On complete trees: the walk ends at the denoted sub-value, or Empty when there
    is none; and each query answers exactly when it applies. *)
Theorem C22_wrapper_exact : forall mem o v path,
  denotes mem o v ->
  exists w, api_walk mem o path = Ok w /\
    match find v path with
    | None => w_Empty w = true /\ w_GetType w = Ok None /\ w_Size w = None /\ w_GetIterator w = None /\
              (forall T, w_Get T w = Ok None /\ w_GetView T w = Ok None /\ w_GetPtr T w = Ok None)
    | Some v' => w_Empty w = false /\ denotes mem w v' /\
        match v' with
        | VScalar x => w_GetType w = Ok (Some TData) /\ w_Size w = None /\ w_GetIterator w = None
        | VArr l => w_GetType w = Ok (Some TArray) /\ w_Size w = Some (len l) /\ w_GetIterator w <> None
        | VMap l => w_GetType w = Ok (Some TMap) /\ w_Size w = Some (len l) /\ w_GetIterator w <> None
        end
    end.
Proof.
  intros mem o v path. revert o v. induction path as [|st path IH]; intros o v Ho; cbn [api_walk find].
  - exists o. split; [reflexivity|]. destruct Ho as [dt s x H|dt s x H|p size items l Hs HF|p size items l Hs HF|p size items l Hs HF];
      (split; [reflexivity|]; split; [|repeat split; cbn; try reflexivity; try discriminate]).
    + now constructor.
    + now constructor.
    + now constructor.
    + rewrite Hs. apply Forall2_length in HF. rewrite rev_length in HF. unfold len. congruence.
    + now constructor.
    + rewrite Hs. apply Forall2_length in HF. unfold len. congruence.
    + now constructor.
    + rewrite Hs. apply Forall2_length in HF. unfold len. congruence.
  - assert (Hempty : forall path, api_walk mem ONull path = Ok ONull).
    { clear. induction path as [|[k|n] path IH]; cbn; auto. }
    assert (exists w, match st with Key k => w_key mem o k | Idx n => w_idx o n end = Ok w /\
       match sub v st with None => w = ONull | Some v' => denotes mem w v' end) as (w & Hw & Hs).
    { destruct st as [k|n]; destruct Ho as [dt s x H|dt s x H|p size items l Hs HF|p size items l Hs HF|p size items l Hs HF]; cbn; eauto.
      - eexists. split; [reflexivity|]. clear -HF. induction HF as [|[q x] [q' y] items l [Hq Hd] HF IHl]; cbn; [reflexivity|].
        cbn in *. subst q'. destruct (bytes_eqb q k); auto.
      - clear -HF. induction HF as [|[q x] [q' y] items l [Hq Hd] HF IHl]; cbn; [eauto|]. cbn in *. rewrite Hq. cbn.
        destruct (bytes_eqb q' k); eauto.
      - eexists. split; [reflexivity|]. pose proof (Forall2_length _ _ _ HF) as HL. rewrite rev_length in HL. unfold Array_at. subst size.
        destruct (N.leb_spec (len items) n) as [Hle|Hlt].
        + rewrite (proj2 (nth_error_None l (N.to_nat n))); [reflexivity|unfold len in *; lia].
        + destruct (nth_error l (N.to_nat n)) as [y|] eqn:Hy; [|apply nth_error_None in Hy; unfold len in *; lia].
          rewrite walk_nth. apply nth_error_split in Hy as (l1 & l2 & -> & Hl1).
          rewrite rev_app_distr in HF. cbn in HF. rewrite <- app_assoc in HF. cbn in HF.
          apply Forall2_app_inv_r in HF as (i1 & i2 & HF1 & HF2 & ->). inversion HF2 as [|a ? i3 ? Ha HF3]; subst.
          apply Forall2_length in HF1. rewrite rev_length in HF1. rewrite app_length in HL. cbn in HL. rewrite app_length in HL. cbn in HL.
          assert (N.to_nat (len (i1 ++ a :: i3) - 1 - n) = length i1) as -> by (unfold len; rewrite app_length; cbn; lia).
          rewrite app_nth2, Nat.sub_diag by lia. exact Ha. }
    assert (Hstep : api_walk mem o (st :: path) = api_walk mem w path) by (destruct st; cbn; rewrite Hw; reflexivity).
    cbn [api_walk] in Hstep. rewrite Hstep. destruct (sub v st) as [v'|].
    + apply IH, Hs.
    + subst w. exists ONull. rewrite Hempty. repeat split.
Qed.

Example C22_met : readable_keys (fun _ => None) (OMap CoroFrame 5 [(k_id, ONull); (k_tags, OArray CoroFrame 7 [ONull; data_default])]) /\
  api_walk (fun _ => None) (OMap CoroFrame 5 [(k_id, ONull); (k_tags, OArray CoroFrame 7 [ONull; data_default])]) [Key k_tags; Idx 6] = Ok ONull.
Proof. split; [repeat constructor|reflexivity]. Qed.
