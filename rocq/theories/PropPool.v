(** * Properties C31, C32: object pools. *)
From Verif Require Import Base BaseLemmas ModelPool.
From Coq Require Import ZifyBool ZifyNat ZifyN.

(** ** Specification: a heap that accepts only legal events *)

Definition slot_eqb (a b : slot_id) : bool := Nat.eqb (fst a) (fst b) && (snd a =? snd b).

(** Allocated buffers with their capacity, and the slots holding a live object. *)
Record heap := { h_buf : nat -> option N; h_live : slot_id -> bool }.
Definition heap0 : heap := {| h_buf := fun _ => None; h_live := fun _ => false |}.

(** [None]: the event is illegal.  A buffer may only be allocated under an unused
    name; an object may only be constructed inside an allocated buffer, in a slot
    that holds no live object; only live objects may be destroyed; only allocated
    buffers may be freed and, for a type whose destructor matters ([rd]), only when
    no live object is left inside. *)
Definition heap_step (rd : bool) (h : heap) (e : event) : option heap :=
  match e with
  | EvBuffer b capacity =>
      match h_buf h b with
      | Some _ => None
      | None => Some {| h_buf := fun x => if Nat.eqb x b then Some capacity else h_buf h x; h_live := h_live h |}
      end
  | EvConstruct s =>
      match h_buf h (fst s) with
      | None => None
      | Some capacity =>
          if (snd s <? capacity) && negb (h_live h s)
          then Some {| h_buf := h_buf h; h_live := fun x => if slot_eqb x s then true else h_live h x |}
          else None
      end
  | EvDestroy s =>
      if h_live h s
      then Some {| h_buf := h_buf h; h_live := fun x => if slot_eqb x s then false else h_live h x |}
      else None
  | EvFree b =>
      match h_buf h b with
      | None => None
      | Some capacity =>
          if rd && existsb (fun i => h_live h (b, i)) (upto (N.to_nat capacity)) then None
          else Some {| h_buf := fun x => if Nat.eqb x b then None else h_buf h x;
                       h_live := fun x => if Nat.eqb (fst x) b then false else h_live h x |}
      end
  end.

Fixpoint heap_run (rd : bool) (h : heap) (l : list event) : option heap :=
  match l with
  | [] => Some h
  | e :: l' => match heap_step rd h e with Some h' => heap_run rd h' l' | None => None end
  end.

(** ** Specification: who owns which object.  The pool that allocated it, until
    that pool is merged or moved into another one; nobody once the owner is cleared,
    overwritten or destroyed.  [n] is the number of pools created so far. *)
Definition owners := slot_id -> option nat.

Definition hand_over (j i : nat) (own : owners) : owners :=
  fun s => match own s with Some k => Some (if Nat.eqb k j then i else k) | None => None end.
Definition drop (i : nat) (own : owners) : owners :=
  fun s => match own s with Some k => if Nat.eqb k i then None else Some k | None => None end.

Definition own_step (n : nat) (op : pool_op) (r : pool_result) (own : owners) : owners :=
  match op with
  | OpNew => own
  | OpAlloc i _ => match r with RSlot s => fun x => if slot_eqb x s then Some i else own x | _ => own end
  | OpMerge i j => hand_over j i own
  | OpClear i | OpDestroy i => drop i own
  | OpMoveNew j => hand_over j n own
  | OpMoveAssign i j => hand_over j i (drop i own)
  end.

Definition pools_after (n : nat) (op : pool_op) : nat :=
  match op with OpNew | OpMoveNew _ => S n | _ => n end.

Fixpoint own_run (n : nat) (ops : list pool_op) (rs : list pool_result) (own : owners) : owners :=
  match ops, rs with
  | op :: ops', r :: rs' => own_run (pools_after n op) ops' rs' (own_step n op r own)
  | _, _ => own
  end.

(** ** Legal programs: existing pools only, no self-merge or self-move. *)
Definition legal (alive : list bool) (op : pool_op) : Prop :=
  let ok i := nth_error alive i = Some true in
  match op with
  | OpNew => True
  | OpAlloc i _ | OpClear i | OpDestroy i => ok i
  | OpMoveNew j => ok j
  | OpMerge i j | OpMoveAssign i j => ok i /\ ok j /\ i <> j
  end.
Definition alive_after (alive : list bool) (op : pool_op) : list bool :=
  match op with
  | OpNew | OpMoveNew _ => alive ++ [true]
  | OpDestroy i => put i false alive
  | _ => alive
  end.
Fixpoint legal_run (alive : list bool) (ops : list pool_op) : Prop :=
  match ops with [] => True | op :: ops' => legal alive op /\ legal_run (alive_after alive op) ops' end.

(** ** Basic facts *)
Lemma slot_eqb_spec a b : reflect (a = b) (slot_eqb a b).
Proof.
  destruct a as [a i], b as [b j]; unfold slot_eqb; cbn. destruct (Nat.eqb_spec a b), (N.eqb_spec i j); cbn; constructor; congruence.
Qed.

Lemma NoDup_app {A} (l l' : list A) : NoDup l -> NoDup l' -> (forall x, In x l -> In x l' -> False) -> NoDup (l ++ l').
Proof.
  induction 1 as [|x l Hx HN IH]; intros HN' Hd; cbn; [exact HN'|]. constructor.
  - intros H. apply in_app_or in H as [H|H]; [contradiction|]. apply (Hd x); [now left|exact H].
  - apply IH; [exact HN'|]. intros y Hy Hy'. apply (Hd y); [now right|exact Hy'].
Qed.

Lemma put_length {A} n (x : A) l : length (put n x l) = length l.
Proof. revert n; induction l as [|y l IH]; intros [|n]; cbn; auto. Qed.

Lemma nth_error_put {A} n (x : A) l i : (n < length l)%nat ->
  nth_error (put n x l) i = if Nat.eqb i n then Some x else nth_error l i.
Proof.
  revert n i; induction l as [|y l IH]; intros [|n] [|i] H; cbn in *; try lia; try reflexivity. apply IH. lia.
Qed.

Lemma upto_In n k : In k (upto n) <-> (N.to_nat k < n)%nat.
Proof.
  induction n as [|n IH]; cbn; [split; [tauto|lia]|]. rewrite in_app_iff, IH. cbn. split; [intros [H|[H|[]]]|intros H]; try lia.
Qed.

Lemma heap_run_app rd h l l' : heap_run rd h (l ++ l') = match heap_run rd h l with Some h' => heap_run rd h' l' | None => None end.
Proof. revert h; induction l as [|e l IH]; intros h; cbn; [reflexivity|]. destruct (heap_step rd h e); auto. Qed.

(** ** Invariant *)
Definition good (fresh : nat) (b : block) : Prop :=
  exists buf, b_buf b = Some buf /\ (buf < fresh)%nat /\ 0 < b_cap b <= 10240 /\ b_top b <= b_cap b.

Definition holds_slot (l : list block) (s : slot_id) : Prop :=
  exists b, In b l /\ b_buf b = Some (fst s) /\ snd s < b_top b.

(** What a list of blocks contributes to the heap. *)
Definition heap_has (h : heap) (b : block) : Prop :=
  match b_buf b with
  | Some buf => h_buf h buf = Some (b_cap b) /\ forall k, h_live h (buf, k) = (k <? b_top b)
  | None => True
  end.

Definition pool_at (w : pworld) (i : nat) : list block :=
  match nth_error (w_pools w) i with Some (Some v) => v_elems v | _ => [] end.

Record inv (w : pworld) (alive : list bool) (own : owners) (h : heap) : Prop := {
  i_alive : forall i, nth_error alive i = Some true <-> exists v, nth_error (w_pools w) i = Some (Some v);
  i_len : length alive = length (w_pools w);
  i_good : forall i, Forall (good (w_fresh w)) (pool_at w i);
  i_nodup : forall i, NoDup (map b_buf (pool_at w i));
  i_cross : forall i j b b', In b (pool_at w i) -> In b' (pool_at w j) -> b_buf b = b_buf b' -> i = j;
  i_heap : forall i b, In b (pool_at w i) -> heap_has h b;
  i_heap_only : forall buf, h_buf h buf <> None -> exists i b, In b (pool_at w i) /\ b_buf b = Some buf;
  i_live_only : forall s, h_live h s = true -> h_buf h (fst s) <> None;
  i_own : forall s i, own s = Some i <-> holds_slot (pool_at w i) s;
  i_once : forall s, In (EvConstruct s) (w_trace w) -> (fst s < w_fresh w)%nat /\
     forall i b, In b (pool_at w i) -> b_buf b = Some (fst s) -> snd s < b_top b
}.

Lemma inv0 : inv pworld0 [] (fun _ => None) heap0.
Proof.
  assert (Hp : forall i, pool_at pworld0 i = []) by (intros [|i]; reflexivity).
  split; intros; rewrite ?Hp in *; cbn in *; try contradiction; try congruence; try (constructor; fail).
  - split; [destruct i; discriminate|intros (v & H); destruct i; discriminate].
  - split; [discriminate|intros (b & [] & _)].
Qed.

(** Effect of a block's destructor. *)
Lemma destroy_all rd buf n h : (forall k, In k (upto n) -> h_live h (buf, k) = true) ->
  exists h', heap_run rd h (map (fun i => EvDestroy (buf, i)) (upto n)) = Some h' /\
    (forall b, h_buf h' b = h_buf h b) /\
    (forall s, h_live h' s = if Nat.eqb (fst s) buf && (N.to_nat (snd s) <? n)%nat then false else h_live h s).
Proof.
  induction n as [|n IH]; intros H; cbn [upto map].
  - exists h. split; [reflexivity|]. split; [reflexivity|]. intros s. rewrite Bool.andb_false_r. reflexivity.
  - rewrite map_app, heap_run_app. destruct IH as (h1 & -> & Hb & Hl).
    { intros k Hk. apply H. cbn. rewrite in_app_iff. auto. }
    cbn [map heap_run heap_step]. rewrite Hl. cbn [fst snd]. rewrite Nat.eqb_refl, Nnat.Nat2N.id, Nat.ltb_irrefl. cbn [andb].
    rewrite H by (apply upto_In; lia).
    eexists. split; [reflexivity|]. cbn [h_buf h_live]. split; [exact Hb|]. intros [b k]. rewrite Hl. unfold slot_eqb; cbn [fst snd].
    destruct (Nat.eqb_spec b buf) as [->|]; cbn [andb]; [|reflexivity].
    destruct (N.eqb_spec k (N.of_nat n)), (Nat.ltb_spec (N.to_nat k) n), (Nat.ltb_spec (N.to_nat k) (S n)); try lia; reflexivity.
Qed.

Lemma dtor_ok rd fresh b h : good fresh b -> heap_has h b ->
  exists h', heap_run rd h (Block_dtor rd b) = Some h' /\
    (forall x, h_buf h' x = if match b_buf b with Some buf => Nat.eqb x buf | None => false end then None else h_buf h x) /\
    (forall s, h_live h' s = if match b_buf b with Some buf => Nat.eqb (fst s) buf | None => false end then false else h_live h s).
Proof.
  intros (buf & Hbuf & _ & _ & Htop) Hh. unfold heap_has in Hh. unfold Block_dtor. rewrite Hbuf in *. destruct Hh as [Hb Hl].
  rewrite heap_run_app. unfold destructor_proxy. destruct rd.
  - destruct (destroy_all true buf (N.to_nat (b_top b)) h) as (h1 & -> & Hb1 & Hl1).
    { intros k Hk. rewrite Hl. apply upto_In in Hk. lia. }
    cbn [heap_run heap_step]. rewrite Hb1, Hb. cbn [andb].
    replace (existsb _ _) with false.
    + eexists. split; [reflexivity|]. cbn. split; [intros x; now rewrite Hb1|]. intros s. rewrite Hl1.
      destruct (Nat.eqb_spec (fst s) buf); reflexivity.
    + symmetry. apply Bool.not_true_iff_false. rewrite existsb_exists. intros (k & _ & Hk).
      rewrite Hl1 in Hk. cbn [fst snd] in Hk. rewrite Nat.eqb_refl, Hl in Hk. cbn [andb] in Hk.
      destruct (Nat.ltb_spec (N.to_nat k) (N.to_nat (b_top b))), (N.ltb_spec k (b_top b)); try discriminate; lia.
  - cbn [heap_run heap_step]. rewrite Hb. cbn [andb]. eexists. split; [reflexivity|]. cbn. auto.
Qed.

Definition buf_in (l : list block) (x : nat) : bool :=
  existsb (fun b => match b_buf b with Some buf => Nat.eqb x buf | None => false end) l.

Lemma buf_in_true l x : buf_in l x = true <-> exists b, In b l /\ b_buf b = Some x.
Proof.
  unfold buf_in. rewrite existsb_exists. split; intros (b & Hin & H); exists b; (split; [exact Hin|]).
  - destruct (b_buf b); [|discriminate]. apply Nat.eqb_eq in H. congruence.
  - rewrite H. apply Nat.eqb_refl.
Qed.

Lemma clear_ok rd fresh l h : Forall (good fresh) l -> NoDup (map b_buf l) -> Forall (heap_has h) l ->
  exists h', heap_run rd h (clear_events rd l) = Some h' /\
    (forall x, h_buf h' x = if buf_in l x then None else h_buf h x) /\
    (forall s, h_live h' s = if buf_in l (fst s) then false else h_live h s).
Proof.
  revert h. induction l as [|b l IH]; intros h HG HN HH; cbn [clear_events flat_map].
  - exists h. cbn. auto.
  - inversion HG as [|? ? Hg HG']; inversion HN as [|? ? Hni HN']; inversion HH as [|? ? Hh HH']; subst.
    rewrite heap_run_app. destruct (dtor_ok rd fresh b h Hg Hh) as (h1 & -> & Hb1 & Hl1).
    destruct Hg as (buf & Hbuf & _). rewrite Hbuf in *.
    destruct (IH h1 HG' HN') as (h2 & H2 & Hb2 & Hl2).
    + apply Forall_forall. intros b' Hin. rewrite Forall_forall in HH'. specialize (HH' b' Hin).
      assert (Hne : b_buf b' <> Some buf) by (intros H; apply Hni; rewrite <- H; now apply in_map).
      unfold heap_has in *. destruct (b_buf b') as [buf'|]; [|exact I].
      assert (buf' <> buf) by congruence.
      rewrite Hb1. destruct (Nat.eqb_spec buf' buf); [congruence|]. split; [apply HH'|].
      intros k. rewrite Hl1. cbn [fst]. destruct (Nat.eqb_spec buf' buf); [congruence|]. apply HH'.
    + exists h2. split; [exact H2|]. split.
      * intros x. rewrite Hb2, Hb1. cbn [buf_in existsb]. rewrite Hbuf. fold (buf_in l x).
        destruct (buf_in l x), (Nat.eqb x buf); reflexivity.
      * intros s. rewrite Hl2, Hl1. cbn [buf_in existsb]. rewrite Hbuf. fold (buf_in l (fst s)).
        destruct (buf_in l (fst s)), (Nat.eqb (fst s) buf); reflexivity.
Qed.

(** Growing the vector is silent and changes no block. *)
Lemma relocate_silent rd l : relocate rd l = (l, []).
Proof.
  unfold relocate. f_equal.
  - rewrite <- (map_id l) at 2. apply map_ext. intros []; reflexivity.
  - induction l; cbn; auto.
Qed.

Lemma emplace_back_ok rd v b : exists cap,
  emplace_back rd v b = ({| v_elems := v_elems v ++ [b]; v_capacity := cap |}, snd (Block_move b), []).
Proof.
  unfold emplace_back. destruct b as [buf top cp]; cbn [Block_move]. destruct (_ <? _)%nat; [eauto|].
  rewrite relocate_silent. eauto.
Qed.

Lemma moved_from_silent rd b : Block_dtor rd (snd (Block_move b)) = [].
Proof. reflexivity. Qed.

Lemma merge_loop_ok rd l : forall v, exists cap,
  merge_loop rd v l = ({| v_elems := v_elems v ++ l; v_capacity := cap |}, map (fun b => snd (Block_move b)) l, []).
Proof.
  induction l as [|b l IH]; intros v; cbn [merge_loop].
  - exists (v_capacity v). rewrite app_nil_r. destruct v; reflexivity.
  - destruct (emplace_back_ok rd v b) as (cap & ->). cbn [v_elems].
    destruct (IH {| v_elems := v_elems v ++ [b]; v_capacity := cap |}) as (cap' & ->). cbn [v_elems].
    exists cap'. rewrite <- app_assoc. reflexivity.
Qed.

Lemma merge_ok rd v other : exists cap,
  Pool_Merge rd v other = ({| v_elems := v_elems v ++ v_elems other; v_capacity := cap |},
                           {| v_elems := []; v_capacity := v_capacity other |}, []).
Proof.
  unfold Pool_Merge. destruct (merge_loop_ok rd (v_elems other) v) as (cap & ->). exists cap. do 2 f_equal.
  unfold clear_events. cbn [app]. induction (v_elems other); cbn; auto.
Qed.

Lemma next_capacity_range n : 0 < next_capacity n <= 10240.
Proof.
  unfold next_capacity. destruct (Nat.ltb_spec n (length capacity_array)); [|cbn; lia].
  do 6 (destruct n; [cbn; lia|]). cbn in *. lia.
Qed.

(** What Alloc does: the last block [b] of the pool, possibly new, hands out its
    next slot. *)
Lemma Alloc_ok rd throws fresh v : Forall (good fresh) (v_elems v) ->
  exists before b buf cap evs,
    b_buf b = Some buf /\ b_top b < b_cap b /\ 0 < b_cap b <= 10240 /\
    ((v_elems v = before ++ [b] /\ evs = [] /\ (buf < fresh)%nat) \/
     (v_elems v = before /\ buf = fresh /\ b_top b = 0 /\ evs = [EvBuffer fresh (b_cap b)])) /\
    Pool_Alloc rd throws fresh v =
      if throws then Ok (None, {| v_elems := before ++ [b]; v_capacity := cap |}, evs, true)
      else Ok (Some (buf, b_top b),
               {| v_elems := before ++ [{| b_buf := Some buf; b_top := b_top b + 1; b_cap := b_cap b |}]; v_capacity := cap |},
               evs ++ [EvConstruct (buf, b_top b)], false).
Proof.
  intros HG. unfold Pool_Alloc. destruct (last_full v) eqn:Hlast.
  - pose proof (next_capacity_range (length (v_elems v))) as Hr. unfold Block_new.
    destruct (N.ltb_spec 0 (next_capacity (length (v_elems v)))); [|lia].
    set (nb := {| b_buf := Some fresh; b_top := 0; b_cap := next_capacity (length (v_elems v)) |}).
    destruct (emplace_back_ok rd v nb) as (cap & ->). cbn [v_elems v_capacity].
    rewrite rev_app_distr. cbn [rev app]. exists (v_elems v), nb, fresh, cap, [EvBuffer fresh (b_cap nb)].
    split; [reflexivity|]. split; [cbn; lia|]. split; [cbn; lia|]. split; [right; auto|].
    unfold Block_Alloc, Full. cbn [b_top b_cap nb b_buf].
    destruct (N.eqb_spec 0 (next_capacity (length (v_elems v)))); [lia|].
    destruct (N.ltb_spec 0 (next_capacity (length (v_elems v)))); [|lia].
    destruct throws; cbn [obind rev]; rewrite rev_involutive; reflexivity.
  - unfold last_full in Hlast. destruct (rev (v_elems v)) as [|b before] eqn:Hrev; [discriminate|].
    assert (He : v_elems v = rev before ++ [b]) by (rewrite <- (rev_involutive (v_elems v)), Hrev; reflexivity).
    assert (Hg : good fresh b). { rewrite Forall_forall in HG. apply HG. rewrite He. apply in_or_app. right. now left. }
    destruct Hg as (buf & Hbuf & Hlt & Hcap & Htop).
    unfold Full in Hlast. exists (rev before), b, buf, (v_capacity v), [].
    split; [exact Hbuf|]. split; [lia|]. split; [exact Hcap|]. split; [left; auto|].
    unfold Block_Alloc, Full. rewrite Hlast, Hbuf. destruct (N.ltb_spec (b_top b) (b_cap b)); [|lia].
    destruct throws; cbn [obind rev app]; [reflexivity|].
    rewrite u64_small by (rewrite W64_val; lia). reflexivity.
Qed.

(** ** Steps *)
Definition alive_ok (alive : list bool) (w : pworld) : Prop :=
  (forall i, nth_error alive i = Some true <-> exists v, nth_error (w_pools w) i = Some (Some v)) /\
  length alive = length (w_pools w).

Lemma clear_no_construct rd l s : ~ In (EvConstruct s) (clear_events rd l).
Proof.
  unfold clear_events. rewrite in_flat_map. intros (b & _ & H). unfold Block_dtor, destructor_proxy in H.
  destruct (b_buf b); [|exact H]. apply in_app_or in H as [H|[H|[]]]; [|discriminate].
  destruct rd; [|exact H]. apply in_map_iff in H as (k & H & _). discriminate.
Qed.

Lemma inv_transfer w w' alive alive' own h i j :
  inv w alive own h -> i <> j -> alive_ok alive' w' ->
  pool_at w' i = pool_at w i ++ pool_at w j -> pool_at w' j = [] ->
  (forall k, k <> i -> k <> j -> pool_at w' k = pool_at w k) ->
  w_fresh w' = w_fresh w -> w_trace w' = w_trace w ->
  inv w' alive' (hand_over j i own) h.
Proof.
  intros [IA IL IG IN IC IH IHO ILO IO IE] Hij [HA HL] Hi Hj Hk Hf Ht.
  assert (Hsrc : forall k b, In b (pool_at w' k) -> exists k0, In b (pool_at w k0) /\ (k = if Nat.eqb k0 j then i else k0)).
  { intros k b Hin. destruct (Nat.eq_dec k i) as [->|Hki].
    - rewrite Hi in Hin. apply in_app_or in Hin as [Hin|Hin].
      + exists i. split; [exact Hin|]. destruct (Nat.eqb_spec i j); [congruence|reflexivity].
      + exists j. split; [exact Hin|]. now rewrite Nat.eqb_refl.
    - destruct (Nat.eq_dec k j) as [->|Hkj]; [rewrite Hj in Hin; contradiction|].
      rewrite Hk in Hin by assumption. exists k. split; [exact Hin|]. destruct (Nat.eqb_spec k j); congruence. }
  assert (Hdst : forall k0 b, In b (pool_at w k0) -> In b (pool_at w' (if Nat.eqb k0 j then i else k0))).
  { intros k0 b Hin. destruct (Nat.eqb_spec k0 j) as [->|Hkj]; [rewrite Hi; apply in_or_app; now right|].
    destruct (Nat.eq_dec k0 i) as [->|Hki]; [rewrite Hi; apply in_or_app; now left|]. rewrite Hk; auto. }
  split; auto.
  - intros k. rewrite Hf. apply Forall_forall. intros b Hb. destruct (Hsrc k b Hb) as (k0 & Hb0 & _).
    specialize (IG k0). rewrite Forall_forall in IG. auto.
  - intros k. destruct (Nat.eq_dec k i) as [->|Hki].
    + rewrite Hi, map_app. apply NoDup_app; auto. intros x H1 H2.
      apply in_map_iff in H1 as (b1 & Hb1 & H1). apply in_map_iff in H2 as (b2 & Hb2 & H2).
      apply Hij. eapply IC; eauto. congruence.
    + destruct (Nat.eq_dec k j) as [->|Hkj]; [rewrite Hj; constructor|]. rewrite Hk; auto.
  - intros k1 k2 b b' H1 H2 Hbb. destruct (Hsrc _ _ H1) as (a1 & Ha1 & ->). destruct (Hsrc _ _ H2) as (a2 & Ha2 & ->).
    now rewrite (IC a1 a2 b b' Ha1 Ha2 Hbb).
  - intros k b Hb. destruct (Hsrc k b Hb) as (k0 & Hb0 & _). eauto.
  - intros buf Hbuf. destruct (IHO buf Hbuf) as (k0 & b & Hb & Hbb). eauto.
  - intros s k. unfold hand_over. split.
    + destruct (own s) as [k0|] eqn:Ho; [|discriminate]. intros [= <-]. apply IO in Ho as (b & Hb & H1 & H2).
      exists b. auto.
    + intros (b & Hb & H1 & H2). destruct (Hsrc k b Hb) as (k0 & Hb0 & ->).
      assert (Ho : own s = Some k0) by (apply IO; exists b; auto). now rewrite Ho.
  - intros s. rewrite Ht, Hf. intros Hs. destruct (IE s Hs) as [H1 H2]. split; [exact H1|]. intros k b Hb Hbb.
    destruct (Hsrc k b Hb) as (k0 & Hb0 & _). eauto.
Qed.

Lemma inv_drop rd w w' alive alive' own h i :
  inv w alive own h -> alive_ok alive' w' ->
  pool_at w' i = [] -> (forall k, k <> i -> pool_at w' k = pool_at w k) ->
  w_fresh w' = w_fresh w -> w_trace w' = w_trace w ++ clear_events rd (pool_at w i) ->
  exists h', heap_run rd h (clear_events rd (pool_at w i)) = Some h' /\ inv w' alive' (drop i own) h'.
Proof.
  intros [IA IL IG IN IC IH IHO ILO IO IE] [HA HL] Hi Hk Hf Ht.
  destruct (clear_ok rd (w_fresh w) (pool_at w i) h (IG i) (IN i)) as (h' & Hrun & Hb' & Hl').
  { apply Forall_forall. intros b Hb. eauto. }
  exists h'. split; [exact Hrun|].
  assert (Hsrc : forall k b, In b (pool_at w' k) -> k <> i /\ In b (pool_at w k)).
  { intros k b Hb. destruct (Nat.eq_dec k i) as [->|Hki]; [rewrite Hi in Hb; contradiction|]. rewrite Hk in Hb; auto. }
  split; auto.
  - intros k. rewrite Hf. apply Forall_forall. intros b Hb. destruct (Hsrc k b Hb) as (_ & Hb0).
    specialize (IG k). rewrite Forall_forall in IG. auto.
  - intros k. destruct (Nat.eq_dec k i) as [->|Hki]; [rewrite Hi; constructor|rewrite Hk; auto].
  - intros k1 k2 b b' H1 H2 Hbb. destruct (Hsrc _ _ H1) as [_ Ha1], (Hsrc _ _ H2) as [_ Ha2]. eauto.
  - intros k b Hb. destruct (Hsrc k b Hb) as (Hki & Hb0). specialize (IH k b Hb0). unfold heap_has in *.
    destruct (b_buf b) as [buf|] eqn:Hbuf; [|exact I].
    assert (Hni : buf_in (pool_at w i) buf = false).
    { apply Bool.not_true_iff_false. rewrite buf_in_true. intros (b2 & Hb2 & Hbb2). apply Hki. eapply IC; eauto. congruence. }
    rewrite Hb', Hni. split; [apply IH|]. intros x. rewrite Hl'. cbn [fst]. rewrite Hni. apply IH.
  - intros buf. rewrite Hb'. destruct (buf_in (pool_at w i) buf) eqn:Hin; [congruence|]. intros Hbuf.
    destruct (IHO buf Hbuf) as (k & b & Hb & Hbb). exists k, b. split; [|exact Hbb].
    rewrite Hk; [exact Hb|]. intros ->. rewrite <- Bool.not_true_iff_false in Hin. apply Hin. apply buf_in_true. eauto.
  - intros s. rewrite Hl', Hb'. destruct (buf_in (pool_at w i) (fst s)); [discriminate|]. apply ILO.
  - intros s k. unfold drop. split.
    + destruct (own s) as [k0|] eqn:Ho; [|discriminate]. destruct (Nat.eqb_spec k0 i); [discriminate|]. intros [= <-].
      rewrite Hk by assumption. now apply IO.
    + intros (b & Hb & H1 & H2). destruct (Hsrc k b Hb) as (Hki & Hb0).
      assert (Ho : own s = Some k) by (apply IO; exists b; auto). rewrite Ho. destruct (Nat.eqb_spec k i); congruence.
  - intros s. rewrite Ht, Hf. intros Hs. apply in_app_or in Hs as [Hs|Hs]; [|now apply clear_no_construct in Hs].
    destruct (IE s Hs) as [H1 H2]. split; [exact H1|]. intros k b Hb Hbb.
    destruct (Hsrc k b Hb) as (_ & Hb0). eauto.
Qed.

Lemma pool_at_put w i v : (i < length (w_pools w))%nat -> forall fresh trace k,
  pool_at {| w_pools := put i (Some v) (w_pools w); w_fresh := fresh; w_trace := trace |} k =
  if Nat.eqb k i then v_elems v else pool_at w k.
Proof. intros H fresh trace k. unfold pool_at; cbn. rewrite nth_error_put by exact H. now destruct (Nat.eqb_spec k i). Qed.

Lemma alive_put alive w i v fresh trace : alive_ok alive w -> nth_error alive i = Some true ->
  alive_ok alive {| w_pools := put i (Some v) (w_pools w); w_fresh := fresh; w_trace := trace |}.
Proof.
  intros [HA HL] Hi. assert (i < length (w_pools w))%nat by (rewrite <- HL; apply nth_error_Some; congruence).
  split; cbn; [|now rewrite put_length]. intros k. rewrite nth_error_put by assumption.
  destruct (Nat.eqb_spec k i) as [->|]; [split; eauto|apply HA].
Qed.

Lemma alive_kill alive w i fresh trace : alive_ok alive w -> nth_error alive i = Some true ->
  alive_ok (put i false alive) {| w_pools := put i None (w_pools w); w_fresh := fresh; w_trace := trace |}.
Proof.
  intros [HA HL] Hi. assert (i < length alive)%nat by (apply nth_error_Some; congruence).
  split; cbn; [|now rewrite !put_length]. intros k. rewrite !nth_error_put by lia.
  destruct (Nat.eqb_spec k i) as [->|]; [split; [discriminate|intros (v & H0); discriminate]|apply HA].
Qed.

Lemma alive_new alive w v fresh trace : alive_ok alive w ->
  alive_ok (alive ++ [true]) {| w_pools := w_pools w ++ [Some v]; w_fresh := fresh; w_trace := trace |}.
Proof.
  intros [HA HL]. split; cbn; [|rewrite !app_length; cbn; lia]. intros k.
  destruct (Nat.lt_ge_cases k (length alive)).
  - rewrite !nth_error_app1 by lia. apply HA.
  - rewrite !nth_error_app2 by lia. rewrite HL. destruct (k - length (w_pools w))%nat as [|m]; cbn; [split; eauto|].
    destruct m; cbn; split; try discriminate; intros (? & ?); discriminate.
Qed.

Lemma pool_at_new w v fresh trace k :
  pool_at {| w_pools := w_pools w ++ [Some v]; w_fresh := fresh; w_trace := trace |} k =
  if Nat.eqb k (length (w_pools w)) then v_elems v else pool_at w k.
Proof.
  unfold pool_at; cbn. destruct (Nat.eqb_spec k (length (w_pools w))) as [->|Hne].
  - rewrite nth_error_app2, Nat.sub_diag by lia. reflexivity.
  - destruct (Nat.lt_ge_cases k (length (w_pools w))); [now rewrite nth_error_app1|].
    rewrite nth_error_app2 by lia. destruct (k - length (w_pools w))%nat as [|m] eqn:E; [lia|]. cbn.
    rewrite (proj2 (nth_error_None (w_pools w) k)) by lia. destruct m; reflexivity.
Qed.

Lemma pool_at_none w k : (length (w_pools w) <= k)%nat -> pool_at w k = [].
Proof. intros H. unfold pool_at. now rewrite (proj2 (nth_error_None _ _) H). Qed.

Lemma get_pool_ok w alive own h i : inv w alive own h -> nth_error alive i = Some true ->
  exists v, get_pool w i = Ok v /\ pool_at w i = v_elems v /\ (i < length (w_pools w))%nat.
Proof.
  intros I Hi. apply (i_alive _ _ _ _ I) in Hi as (v & Hv). exists v. unfold get_pool, pool_at. rewrite Hv.
  split; [reflexivity|]. split; [reflexivity|]. apply nth_error_Some. congruence.
Qed.

Definition good_result (op : pool_op) (r : pool_result) : Prop :=
  match op with
  | OpAlloc _ false => exists s, r = RSlot s
  | OpAlloc _ true => r = RThrow
  | _ => r = RNone
  end.

Lemma inv_ext w w' alive own h : inv w alive own h -> alive_ok alive w' ->
  (forall k, pool_at w' k = pool_at w k) -> w_fresh w' = w_fresh w -> w_trace w' = w_trace w -> inv w' alive own h.
Proof.
  intros [IA IL IG IN IC IH IHO ILO IO IE] [HA HL] Hp Hf Ht. split; auto; intros; repeat rewrite ?Hp, ?Hf, ?Ht in *; eauto.
  - destruct (IHO _ H) as (i & b & Hb). exists i, b. now rewrite Hp.
  - destruct (IE _ H) as [H1 H2]. split; [exact H1|]. intros i b Hb. rewrite Hp in Hb. eauto.
Qed.

Lemma step_ok rd w alive own h op : inv w alive own h -> legal alive op ->
  exists w' r h' evs, pool_step rd w op = Ok (w', r) /\ w_trace w' = w_trace w ++ evs /\
    heap_run rd h evs = Some h' /\ good_result op r /\
    (forall s, r = RSlot s -> own s = None /\ ~ In (EvConstruct s) (w_trace w) /\
       exists evs0, evs = evs0 ++ [EvConstruct s] /\ forall s', ~ In (EvConstruct s') evs0) /\
    ((forall s, r <> RSlot s) -> forall s, ~ In (EvConstruct s) evs) /\
    inv w' (alive_after alive op) (own_step (length alive) op r own) h'.
Proof.
  intros I HL. assert (HAok : alive_ok alive w) by (split; [apply I|apply I]).
  destruct op as [|i throws|i j|i|j|i j|i]; cbn [legal] in HL; cbn [pool_step alive_after own_step good_result].
  - (* New *)
    do 4 eexists. split; [reflexivity|]. cbn [w_trace]. split; [symmetry; apply app_nil_r|]. split; [reflexivity|].
    split; [reflexivity|]. split; [discriminate|]. split; [intros _ s []|].
    pose proof (alive_new alive w Pool_new (w_fresh w) (w_trace w) HAok) as HA'.
    assert (Hp : forall k, pool_at {| w_pools := w_pools w ++ [Some Pool_new]; w_fresh := w_fresh w; w_trace := w_trace w |} k = pool_at w k).
    { intros k. rewrite pool_at_new. destruct (Nat.eqb_spec k (length (w_pools w))) as [->|]; [|reflexivity].
      now rewrite pool_at_none. }
    destruct I as [IA IL IG IN IC IH IHO ILO IO IE]. destruct HA' as [HA1 HA2].
    split; auto; intros; repeat rewrite ?Hp in *; eauto.
    + destruct (IHO _ H) as (i & b & Hb). exists i, b. now rewrite Hp.
    + destruct (IE _ H) as [H1 H2]. split; [exact H1|]. intros i b Hb. rewrite Hp in Hb. eauto.
  - (* Alloc *)
    destruct (get_pool_ok w alive own h i I HL) as (v & Hv & Hpv & Hilt). rewrite Hv. cbn [obind].
    pose proof (i_good _ _ _ _ I i) as HG. rewrite Hpv in HG.
    destruct (Alloc_ok rd throws (w_fresh w) v HG) as (before & b & buf & cap & evs & Hbuf & Htop & Hcap & Hcase & Heq).
    rewrite Heq. clear Heq.
    pose proof I as [IA IL IG IN IC IH IHO ILO IO IE].
    (* the state after the possible new block, before the construction *)
    set (w1 := {| w_pools := put i (Some {| v_elems := before ++ [b]; v_capacity := cap |}) (w_pools w);
                  w_fresh := S (w_fresh w); w_trace := w_trace w ++ evs |}).
    assert (Hp1 : forall k, pool_at w1 k = if Nat.eqb k i then before ++ [b] else pool_at w k).
    { intros k. unfold w1. now rewrite pool_at_put. }
    assert (Hbuf_other : forall k b', k <> i -> In b' (pool_at w k) -> b_buf b' <> Some buf).
    { intros k b' Hki Hb' E. destruct Hcase as [(He & _ & _)|(He & -> & _)].
      - apply Hki. apply (IC k i b' b); [exact Hb'| |congruence]. rewrite Hpv, He. apply in_or_app; right; now left.
      - pose proof (IG k) as HGk. rewrite Forall_forall in HGk. destruct (HGk _ Hb') as (buf' & Hb2 & Hlt & _). 
        rewrite E in Hb2. injection Hb2 as <-. lia. }
    assert (Hnd : NoDup (map b_buf (before ++ [b]))).
    { destruct Hcase as [(He & _)|(He & -> & _)].
      - specialize (IN i). rewrite Hpv, He in IN. exact IN.
      - specialize (IN i). rewrite Hpv, He in IN. rewrite map_app. apply NoDup_app; [exact IN|repeat constructor; intros []|].
        intros x Hx [Hx'|[]]. cbn in Hx'. rewrite <- Hx' in Hx. apply in_map_iff in Hx as (b' & Hb' & Hin). rewrite <- He in Hin.
        rewrite Forall_forall in HG. destruct (HG _ Hin) as (buf' & Hb2 & Hlt & _). rewrite Hb', Hbuf in Hb2. injection Hb2 as <-. lia. }
    assert (Hsame : forall b', In b' (before ++ [b]) -> b_buf b' = Some buf -> b' = b).
    { intros b' Hin E. apply in_app_or in Hin as [Hin|[Hin|[]]]; [|now symmetry]. exfalso.
      rewrite map_app in Hnd. cbn in Hnd. apply NoDup_remove_2 in Hnd. rewrite app_nil_r in Hnd. apply Hnd.
      rewrite Hbuf, <- E. now apply in_map. }
    assert (H1 : exists h1, heap_run rd h evs = Some h1 /\ (forall s, ~ In (EvConstruct s) evs) /\ inv w1 alive own h1).
    { destruct Hcase as [(He & -> & Hlt)|(He & -> & Ht0 & ->)].
      - exists h. split; [reflexivity|]. split; [intros s []|].
        assert (Hpw : forall k, pool_at w1 k = pool_at w k).
        { intros k. rewrite Hp1. destruct (Nat.eqb_spec k i) as [->|]; [now rewrite Hpv, He|reflexivity]. }
        assert (HAok1 : alive_ok alive w1) by now apply alive_put.
        destruct HAok1 as [HA1 HA2]. split; auto; intros; repeat rewrite ?Hpw in *; eauto.
        + eapply Forall_impl; [|apply IG]. intros b' (bf & H1 & H2 & H3). exists bf. cbn. split; [exact H1|]. split; [lia|exact H3].
        + destruct (IHO _ H) as (i' & b' & Hb'). exists i', b'. now rewrite Hpw.
        + cbn in H. rewrite app_nil_r in H. destruct (IE _ H) as [H1 H2]. split; [cbn; lia|]. intros i' b' Hb'. rewrite Hpw in Hb'. eauto.
      - cbn [heap_run heap_step].
        assert (Hnone : h_buf h (w_fresh w) = None).
        { destruct (h_buf h (w_fresh w)) eqn:E; [|reflexivity]. destruct (IHO (w_fresh w)) as (k & b' & Hb' & Hbb); [congruence|].
          pose proof (IG k) as HGk. rewrite Forall_forall in HGk. destruct (HGk _ Hb') as (buf' & Hb2 & Hlt & _).
          rewrite Hbb in Hb2. injection Hb2 as <-. lia. }
        rewrite Hnone. eexists. split; [reflexivity|]. split; [intros s [H|[]]; discriminate|].
        assert (HAok1 : alive_ok alive w1) by now apply alive_put.
        destruct HAok1 as [HA1 HA2].
        assert (Hsrc : forall k b', In b' (pool_at w1 k) -> (k = i /\ b' = b) \/ In b' (pool_at w k)).
        { intros k b' Hin. rewrite Hp1 in Hin. destruct (Nat.eqb_spec k i) as [->|]; [|now right].
          apply in_app_or in Hin as [Hin|[Hin|[]]]; [right; rewrite Hpv, He; exact Hin|left; auto]. }
        assert (Hdst : forall k b', In b' (pool_at w k) -> In b' (pool_at w1 k)).
        { intros k b' Hin. rewrite Hp1. destruct (Nat.eqb_spec k i) as [->|]; [|exact Hin]. rewrite Hpv, He in Hin. apply in_or_app. now left. }
        assert (Hold : forall k b', In b' (pool_at w k) -> exists bf, b_buf b' = Some bf /\ (bf < w_fresh w)%nat).
        { intros k b' Hin. pose proof (IG k) as HGk. rewrite Forall_forall in HGk. destruct (HGk _ Hin) as (bf & E & Hlt & _). eauto. }
        split; auto.
        + intros k. apply Forall_forall. intros b' Hin. destruct (Hsrc k b' Hin) as [[-> ->]|Hin'].
          * exists (w_fresh w). cbn. split; [exact Hbuf|]. split; [lia|]. split; [exact Hcap|lia].
          * pose proof (IG k) as HGk. rewrite Forall_forall in HGk. destruct (HGk _ Hin') as (bf & E & Hlt & Hr). exists bf. cbn.
            split; [exact E|]. split; [lia|exact Hr].
        + intros k. rewrite Hp1. destruct (Nat.eqb_spec k i) as [->|]; [exact Hnd|apply IN].
        + intros k1 k2 b1 b2 Hb1 Hb2 E. destruct (Hsrc _ _ Hb1) as [[-> ->]|Hb1'], (Hsrc _ _ Hb2) as [[-> ->]|Hb2'].
          * reflexivity.
          * destruct (Hold _ _ Hb2') as (bf & E' & Hlt). exfalso. assert (bf = w_fresh w) by congruence. lia.
          * destruct (Hold _ _ Hb1') as (bf & E' & Hlt). exfalso. assert (bf = w_fresh w) by congruence. lia.
          * eauto.
        + intros k b' Hin. destruct (Hsrc _ _ Hin) as [[-> ->]|Hin'].
          * unfold heap_has. rewrite Hbuf. cbn [h_buf h_live]. rewrite Nat.eqb_refl. split; [reflexivity|]. intros x.
            rewrite Ht0. destruct (h_live h (w_fresh w, x)) eqn:E; [|symmetry; apply N.ltb_ge; lia].
            apply ILO in E. cbn in E. congruence.
          * destruct (Hold _ _ Hin') as (bf & E & Hlt). pose proof (IH _ _ Hin') as Hh. unfold heap_has in *. rewrite E in *.
            cbn [h_buf h_live]. destruct (Nat.eqb_spec bf (w_fresh w)); [lia|exact Hh].
        + intros bf. cbn [h_buf]. destruct (Nat.eqb_spec bf (w_fresh w)) as [->|]; intros H.
          * exists i, b. split; [|exact Hbuf]. rewrite Hp1, Nat.eqb_refl. apply in_or_app; right; now left.
          * destruct (IHO bf H) as (k & b' & Hb' & E). exists k, b'. auto.
        + intros s. cbn [h_live h_buf]. intros Hs. destruct (Nat.eqb_spec (fst s) (w_fresh w)); [congruence|]. now apply ILO.
        + intros s k. rewrite (IO s k). split; intros (b' & Hin & E & Hlt).
          * exists b'. auto.
          * destruct (Hsrc _ _ Hin) as [[-> ->]|Hin']; [lia|]. exists b'. auto.
        + intros s Hs. cbn in Hs. apply in_app_or in Hs as [Hs|[Hs|[]]]; [|discriminate].
          destruct (IE s Hs) as [Ha Hb2]. split; [cbn; lia|]. intros k b' Hin E. destruct (Hsrc _ _ Hin) as [[-> ->]|Hin']; [|eauto].
          rewrite Hbuf in E. injection E as E. lia. }
    destruct H1 as (h1 & Hrun & Hnc & I1).
    destruct throws; cbn [obind].
    + exists w1, RThrow, h1, evs. split; [reflexivity|]. split; [reflexivity|]. split; [exact Hrun|]. split; [reflexivity|].
      split; [discriminate|]. split; [auto|]. exact I1.
    + clear IA IL IG IN IC IH IHO ILO IO IE. pose proof I1 as [IA IL IG IN IC IH IHO ILO IO IE].
      assert (Hbin : In b (pool_at w1 i)) by (rewrite Hp1, Nat.eqb_refl; apply in_or_app; right; now left).
      assert (Hh : heap_has h1 b) by eauto. unfold heap_has in Hh. rewrite Hbuf in Hh. destruct Hh as [Hhb Hhl].
      set (s := (buf, b_top b)). set (b2 := {| b_buf := Some buf; b_top := b_top b + 1; b_cap := b_cap b |}).
      do 4 eexists. split; [reflexivity|]. cbn [w_trace]. split; [reflexivity|].
      rewrite heap_run_app, Hrun. cbn [heap_run heap_step]. change (fst s) with buf. change (snd s) with (b_top b). rewrite Hhb.
      replace (h_live h1 s) with false by (unfold s; rewrite Hhl, N.ltb_irrefl; reflexivity).
      destruct (N.ltb_spec (b_top b) (b_cap b)); [|lia]. cbn [andb negb].
      split; [reflexivity|]. split; [eauto|].
      assert (Hnever : forall s', In (EvConstruct s') (w_trace w) -> s' <> s).
      { intros s' Hin E. destruct (IE s') as [_ Hk]; [cbn; apply in_or_app; now left|].
        subst s'. specialize (Hk i b Hbin Hbuf). cbn in Hk. lia. }
      assert (Hown : own s = None).
      { destruct (own s) as [k|] eqn:E; [|reflexivity]. apply IO in E as (b' & Hin & Hb' & Hlt). cbn in Hb', Hlt.
        assert (k = i) by (apply (IC k i b' b Hin Hbin); congruence). subst k. rewrite Hp1, Nat.eqb_refl in Hin.
        rewrite (Hsame _ Hin Hb') in Hlt. lia. }
      split. { intros s' [= <-]. split; [exact Hown|]. split; [intros Hin; now apply (Hnever s Hin)|]. exists evs. auto. }
      split. { intros Hc. exfalso. now apply (Hc s). }
      set (w2 := {| w_pools := _; w_fresh := _; w_trace := _ |}).
      assert (Hp2 : forall k, pool_at w2 k = if Nat.eqb k i then before ++ [b2] else pool_at w k).
      { intros k. unfold w2. rewrite pool_at_put by exact Hilt. reflexivity. }
      assert (Hsrc : forall k b', In b' (pool_at w2 k) -> (k = i /\ b' = b2) \/ (In b' (pool_at w1 k) /\ b_buf b' <> Some buf)).
      { intros k b' Hin. rewrite Hp2 in Hin. rewrite Hp1. destruct (Nat.eqb_spec k i) as [->|Hki].
        - apply in_app_or in Hin as [Hin|[Hin|[]]]; [right|left; auto]. split; [apply in_or_app; now left|].
          intros E. rewrite map_app in Hnd. cbn in Hnd. apply NoDup_remove_2 in Hnd. rewrite app_nil_r in Hnd. apply Hnd.
          rewrite Hbuf, <- E. now apply in_map.
        - right. split; [exact Hin|]. now apply Hbuf_other with k. }
      assert (Hdst : forall k b', In b' (pool_at w1 k) -> b_buf b' <> Some buf -> In b' (pool_at w2 k)).
      { intros k b' Hin Hne. rewrite Hp1 in Hin. rewrite Hp2. destruct (Nat.eqb_spec k i) as [->|Hki]; [|exact Hin].
        apply in_app_or in Hin as [Hin|[Hin|[]]]; [apply in_or_app; now left|congruence]. }
      assert (Hb2in : In b2 (pool_at w2 i)) by (rewrite Hp2, Nat.eqb_refl; apply in_or_app; right; now left).
      assert (HAok2 : alive_ok alive w2) by now apply alive_put. destruct HAok2 as [HA1 HA2].
      split; auto.
      * intros k. apply Forall_forall. intros b' Hin. destruct (Hsrc _ _ Hin) as [[-> ->]|[Hin' _]].
        -- pose proof (IG i) as HGi. rewrite Forall_forall in HGi. destruct (HGi _ Hbin) as (bf & E & Hlt & Hr & _).
           rewrite Hbuf in E. injection E as <-. exists buf. cbn. split; [reflexivity|]. split; [exact Hlt|]. split; [exact Hr|lia].
        -- pose proof (IG k) as HGi. rewrite Forall_forall in HGi. exact (HGi _ Hin').
      * intros k. rewrite Hp2. destruct (Nat.eqb_spec k i) as [->|Hki].
        -- rewrite map_app in Hnd |- *. cbn [map] in *. rewrite Hbuf in Hnd. exact Hnd.
        -- specialize (IN k). rewrite Hp1 in IN. destruct (Nat.eqb_spec k i); [congruence|exact IN].
      * intros k1 k2 c1 c2 Hc1 Hc2 E. destruct (Hsrc _ _ Hc1) as [[-> ->]|[Hc1' Hn1]], (Hsrc _ _ Hc2) as [[-> ->]|[Hc2' Hn2]]; eauto.
        -- exfalso. apply Hn2. rewrite <- E. reflexivity.
        -- exfalso. apply Hn1. rewrite E. reflexivity.
      * intros k b' Hin. destruct (Hsrc _ _ Hin) as [[-> ->]|[Hin' Hne]].
        -- unfold heap_has; cbn [b_buf b2 h_buf h_live b_cap b_top]. split; [exact Hhb|]. intros x. unfold slot_eqb, s; cbn [fst snd].
           rewrite Nat.eqb_refl, Hhl. cbn [andb].
           destruct (N.eqb_spec x (b_top b)), (N.ltb_spec x (b_top b)), (N.ltb_spec x (b_top b + 1)); try lia; reflexivity.
        -- pose proof (IH _ _ Hin') as Hh. unfold heap_has in *. destruct (b_buf b') as [bf|] eqn:E; [|exact Logic.I].
           cbn [h_buf h_live]. split; [apply Hh|]. intros x. unfold slot_eqb, s; cbn [fst snd].
           destruct (Nat.eqb_spec bf buf); [congruence|]. apply Hh.
      * intros bf. cbn [h_buf]. intros Hbf. destruct (IHO bf Hbf) as (k & b' & Hb' & E).
        destruct (Nat.eq_dec bf buf) as [->|Hne]; [exists i, b2; auto|]. exists k, b'. split; [apply Hdst; [exact Hb'|congruence]|exact E].
      * intros x. cbn [h_live h_buf]. destruct (slot_eqb_spec x s) as [->|]; [unfold s; cbn [fst]; rewrite Hhb; discriminate|apply ILO].
      * intros x k. destruct (slot_eqb_spec x s) as [->|Hxs].
        -- split.
           ++ intros [= <-]. exists b2. split; [exact Hb2in|]. cbn. split; [reflexivity|lia].
           ++ intros (b' & Hin & E & Hlt). destruct (Hsrc _ _ Hin) as [[-> ->]|[Hin' Hne]]; [reflexivity|]. now cbn in E.
        -- rewrite (IO x k). split; intros (b' & Hin & E & Hlt).
           ++ destruct (Nat.eq_dec (fst x) buf) as [Hf|Hf].
              ** assert (k = i) by (apply (IC k i b' b Hin Hbin); congruence). subst k. rewrite Hp1, Nat.eqb_refl in Hin.
                 assert (b' = b) by (apply Hsame; [exact Hin|congruence]). subst b'.
                 exists b2. split; [exact Hb2in|]. cbn. split; [congruence|lia].
              ** exists b'. split; [apply Hdst; [exact Hin|congruence]|]. auto.
           ++ destruct (Hsrc _ _ Hin) as [[-> ->]|[Hin' Hne]].
              ** exists b. split; [exact Hbin|]. cbn in E, Hlt. split; [congruence|]. injection E as E.
                 assert (snd x <> b_top b); [|lia]. intros E2. apply Hxs. destruct x as [x1 x2]. cbn in *. unfold s. congruence.
              ** exists b'. auto.
      * intros x. cbn [w_trace w2 w_fresh]. rewrite app_assoc. intros Hx. apply in_app_or in Hx as [Hx|[Hx|[]]].
        -- destruct (IE x Hx) as [Ha Hb]. split; [exact Ha|]. intros k b' Hin E.
           destruct (Hsrc _ _ Hin) as [[-> ->]|[Hin' Hne]]; [|eauto]. cbn in E. injection E as E.
           cbn. assert (snd x < b_top b); [|lia]. apply (Hb i b Hbin). congruence.
        -- injection Hx as <-. split.
           ++ pose proof (IG i) as HGi. rewrite Forall_forall in HGi. destruct (HGi _ Hbin) as (bf & E & Hlt & _).
              rewrite Hbuf in E. injection E as <-. exact Hlt.
           ++ intros k b' Hin E. cbn in E. destruct (Hsrc _ _ Hin) as [[-> ->]|[Hin' Hne]]; [cbn; lia|congruence].
  - (* Merge *)
    destruct HL as (Hi & Hj & Hij).
    destruct (get_pool_ok w alive own h i I Hi) as (v & Hv & Hpv & Hilt). rewrite Hv. cbn [obind].
    destruct (get_pool_ok w alive own h j I Hj) as (v2 & Hv2 & Hpv2 & Hjlt). rewrite Hv2. cbn [obind].
    destruct (Nat.eqb_spec i j); [congruence|]. destruct (merge_ok rd v v2) as (cap & ->).
    do 4 eexists. split; [reflexivity|]. cbn [w_trace]. split; [reflexivity|]. split; [reflexivity|].
    split; [reflexivity|]. split; [discriminate|]. split; [intros _ s []|].
    set (w1 := {| w_pools := put i (Some {| v_elems := v_elems v ++ v_elems v2; v_capacity := cap |}) (w_pools w);
                  w_fresh := w_fresh w; w_trace := w_trace w |}).
    assert (Hl1 : (j < length (w_pools w1))%nat) by (cbn; now rewrite put_length).
    assert (Hp : forall tr k, pool_at {| w_pools := put j (Some {| v_elems := []; v_capacity := v_capacity v2 |}) (w_pools w1);
       w_fresh := w_fresh w; w_trace := tr |} k = if Nat.eqb k j then [] else if Nat.eqb k i then v_elems v ++ v_elems v2 else pool_at w k).
    { intros tr k. rewrite (pool_at_put w1 j) by exact Hl1. destruct (Nat.eqb k j); [reflexivity|].
      unfold w1. now rewrite pool_at_put. }
    eapply inv_transfer with (i := i) (j := j); try exact I; try exact Hij.
    + apply (alive_put alive w1 j); [|exact Hj]. now apply alive_put.
    + change (w_pools w1) with (put i (Some {| v_elems := v_elems v ++ v_elems v2; v_capacity := cap |}) (w_pools w)) in Hp.
      rewrite Hp, Nat.eqb_refl. destruct (Nat.eqb_spec i j); [congruence|]. now rewrite Hpv, Hpv2.
    + change (w_pools w1) with (put i (Some {| v_elems := v_elems v ++ v_elems v2; v_capacity := cap |}) (w_pools w)) in Hp.
      rewrite Hp, Nat.eqb_refl. reflexivity.
    + intros k Hki Hkj. change (w_pools w1) with (put i (Some {| v_elems := v_elems v ++ v_elems v2; v_capacity := cap |}) (w_pools w)) in Hp.
      rewrite Hp. destruct (Nat.eqb_spec k j), (Nat.eqb_spec k i); congruence || reflexivity.
    + reflexivity.
    + cbn. apply app_nil_r.
  - (* Clear *)
    destruct (get_pool_ok w alive own h i I HL) as (v & Hv & Hpv & Hilt). rewrite Hv. cbn [obind Pool_Clear].
    edestruct (inv_drop rd w {| w_pools := put i (Some {| v_elems := []; v_capacity := v_capacity v |}) (w_pools w);
      w_fresh := w_fresh w; w_trace := w_trace w ++ clear_events rd (v_elems v) |} alive alive own h i I) as (h' & Hrun & I').
    + now apply alive_put.
    + rewrite pool_at_put by exact Hilt. now rewrite Nat.eqb_refl.
    + intros k Hk. rewrite pool_at_put by exact Hilt. destruct (Nat.eqb_spec k i); congruence || reflexivity.
    + reflexivity.
    + cbn. now rewrite Hpv.
    + rewrite Hpv in Hrun. do 4 eexists. split; [reflexivity|]. cbn [w_trace]. split; [reflexivity|]. split; [exact Hrun|].
      split; [reflexivity|]. split; [discriminate|]. split; [intros _ s; apply clear_no_construct|exact I'].
  - (* MoveNew *)
    destruct (get_pool_ok w alive own h j I HL) as (v & Hv & Hpv & Hjlt). rewrite Hv. cbn [obind].
    do 4 eexists. split; [reflexivity|]. cbn [w_trace]. split; [symmetry; apply app_nil_r|]. split; [reflexivity|].
    split; [reflexivity|]. split; [discriminate|]. split; [intros _ s []|].
    set (w1 := {| w_pools := put j (Some {| v_elems := []; v_capacity := 0 |}) (w_pools w); w_fresh := w_fresh w; w_trace := w_trace w |}).
    assert (Hl1 : length (w_pools w1) = length alive) by (cbn; rewrite put_length; symmetry; apply I).
    assert (Hla : length (w_pools w) = length alive) by (symmetry; apply I).
    change (put j (Some {| v_elems := []; v_capacity := 0 |}) (w_pools w)) with (w_pools w1).
    assert (Hp : forall k, pool_at {| w_pools := w_pools w1 ++ [Some v]; w_fresh := w_fresh w; w_trace := w_trace w |} k =
       if Nat.eqb k (length alive) then v_elems v else if Nat.eqb k j then [] else pool_at w k).
    { intros k. rewrite pool_at_new, Hl1. destruct (Nat.eqb k (length alive)); [reflexivity|]. unfold w1. now rewrite pool_at_put. }
    eapply inv_transfer with (i := length alive) (j := j); try exact I; try reflexivity.
    + lia.
    + apply alive_new. now apply alive_put.
    + rewrite Hp, Nat.eqb_refl. rewrite (pool_at_none w (length alive)) by lia. cbn. congruence.
    + rewrite Hp, Nat.eqb_refl. destruct (Nat.eqb_spec j (length alive)); [lia|reflexivity].
    + intros k H1 H2. rewrite Hp. destruct (Nat.eqb_spec k (length alive)), (Nat.eqb_spec k j); congruence || reflexivity.
  - (* MoveAssign *)
    destruct HL as (Hi & Hj & Hij).
    destruct (get_pool_ok w alive own h i I Hi) as (v & Hv & Hpv & Hilt). rewrite Hv. cbn [obind].
    destruct (get_pool_ok w alive own h j I Hj) as (v2 & Hv2 & Hpv2 & Hjlt). rewrite Hv2. cbn [obind].
    destruct (Nat.eqb_spec i j); [congruence|].
    edestruct (inv_drop rd w {| w_pools := put i (Some {| v_elems := []; v_capacity := 0 |}) (w_pools w);
      w_fresh := w_fresh w; w_trace := w_trace w ++ clear_events rd (v_elems v) |} alive alive own h i I) as (h' & Hrun & I').
    + now apply alive_put.
    + rewrite pool_at_put by exact Hilt. now rewrite Nat.eqb_refl.
    + intros k Hk. rewrite pool_at_put by exact Hilt. destruct (Nat.eqb_spec k i); congruence || reflexivity.
    + reflexivity.
    + cbn. now rewrite Hpv.
    + rewrite Hpv in Hrun. do 4 eexists. split; [reflexivity|]. cbn [w_trace]. split; [reflexivity|]. split; [exact Hrun|].
      split; [reflexivity|]. split; [discriminate|]. split; [intros _ s; apply clear_no_construct|].
      set (w1 := {| w_pools := put i (Some v2) (w_pools w); w_fresh := w_fresh w; w_trace := w_trace w ++ clear_events rd (v_elems v) |}).
      assert (Hl1 : (j < length (w_pools w1))%nat) by (cbn; now rewrite put_length).
      change (put i (Some v2) (w_pools w)) with (w_pools w1).
      assert (Hp : forall tr k, pool_at {| w_pools := put j (Some {| v_elems := []; v_capacity := 0 |}) (w_pools w1);
         w_fresh := w_fresh w; w_trace := tr |} k = if Nat.eqb k j then [] else if Nat.eqb k i then v_elems v2 else pool_at w k).
      { intros tr k. rewrite (pool_at_put w1 j) by exact Hl1. destruct (Nat.eqb k j); [reflexivity|].
        unfold w1. now rewrite pool_at_put. }
      eapply inv_transfer with (i := i) (j := j); try exact I'; try exact Hij; try reflexivity.
      * apply (alive_put alive w1 j); [|exact Hj]. now apply alive_put.
      * rewrite Hp, Nat.eqb_refl, !pool_at_put, Nat.eqb_refl by exact Hilt.
        destruct (Nat.eqb_spec i j); [congruence|]. destruct (Nat.eqb_spec j i); [congruence|]. cbn. congruence.
      * rewrite Hp, Nat.eqb_refl. reflexivity.
      * intros k Hki Hkj. rewrite Hp, pool_at_put by exact Hilt. destruct (Nat.eqb_spec k j), (Nat.eqb_spec k i); congruence || reflexivity.
  - (* Destroy *)
    destruct (get_pool_ok w alive own h i I HL) as (v & Hv & Hpv & Hilt). rewrite Hv. cbn [obind Pool_Clear snd].
    assert (Hp : forall tr k, pool_at {| w_pools := put i None (w_pools w); w_fresh := w_fresh w; w_trace := tr |} k =
       if Nat.eqb k i then [] else pool_at w k).
    { intros tr k. unfold pool_at; cbn. rewrite nth_error_put by exact Hilt. now destruct (Nat.eqb_spec k i). }
    edestruct (inv_drop rd w {| w_pools := put i None (w_pools w);
      w_fresh := w_fresh w; w_trace := w_trace w ++ clear_events rd (v_elems v) |} alive (put i false alive) own h i I) as (h' & Hrun & I').
    + now apply alive_kill.
    + now rewrite Hp, Nat.eqb_refl.
    + intros k Hk. rewrite Hp. destruct (Nat.eqb_spec k i); congruence || reflexivity.
    + reflexivity.
    + cbn. now rewrite Hpv.
    + rewrite Hpv in Hrun. do 4 eexists. split; [reflexivity|]. cbn [w_trace]. split; [reflexivity|]. split; [exact Hrun|].
      split; [reflexivity|]. split; [discriminate|]. split; [intros _ s; apply clear_no_construct|exact I'].
Qed.

(** ** Whole programs *)
Definition slots_returned (rs : list pool_result) : list slot_id :=
  flat_map (fun r => match r with RSlot s => [s] | _ => [] end) rs.
Definition constructed (l : list event) : list slot_id :=
  flat_map (fun e => match e with EvConstruct s => [s] | _ => [] end) l.
Definition destroyed (l : list event) : list slot_id :=
  flat_map (fun e => match e with EvDestroy s => [s] | _ => [] end) l.

Lemma constructed_In l s : In s (constructed l) <-> In (EvConstruct s) l.
Proof.
  unfold constructed. rewrite in_flat_map. split.
  - intros (e & He & Hs). destruct e; cbn in Hs; try contradiction. destruct Hs as [->|[]]. exact He.
  - intros H. exists (EvConstruct s). split; [exact H|now left].
Qed.

Lemma constructed_none l : (forall s, ~ In (EvConstruct s) l) -> constructed l = [].
Proof.
  intros H. destruct (constructed l) as [|s t] eqn:E; [reflexivity|]. exfalso. apply (H s). apply constructed_In. rewrite E. now left.
Qed.

Lemma run_ok rd ops : forall w alive own h, inv w alive own h -> heap_run rd heap0 (w_trace w) = Some h ->
  NoDup (constructed (w_trace w)) -> legal_run alive ops ->
  exists w' rs h', pool_run rd w ops = Ok (w', rs) /\ Forall2 good_result ops rs /\
    heap_run rd heap0 (w_trace w') = Some h' /\
    constructed (w_trace w') = constructed (w_trace w) ++ slots_returned rs /\ NoDup (constructed (w_trace w')) /\
    inv w' (fold_left alive_after ops alive) (own_run (length alive) ops rs own) h'.
Proof.
  induction ops as [|op ops IH]; intros w alive own h I Hrun HN HL.
  - exists w, [], h. split; [reflexivity|]. split; [constructor|]. split; [exact Hrun|]. split; [cbn; now rewrite app_nil_r|].
    split; [exact HN|exact I].
  - destruct HL as [Hop HL]. destruct (step_ok rd w alive own h op I Hop) as (w1 & r & h1 & evs & Hs & Ht & Hr1 & Hg & Hslot & Hnone & I1).
    assert (Hrun1 : heap_run rd heap0 (w_trace w1) = Some h1) by (rewrite Ht, heap_run_app, Hrun; exact Hr1).
    assert (Hc : constructed evs = slots_returned [r] /\ NoDup (constructed (w_trace w1))).
    { rewrite Ht. unfold constructed. rewrite flat_map_app. fold (constructed (w_trace w)). fold (constructed evs).
      destruct r as [|s| |]; try (rewrite (constructed_none evs) by (apply Hnone; discriminate); split; [reflexivity|now rewrite app_nil_r]).
      destruct (Hslot s eq_refl) as (_ & Hnew & evs0 & -> & He0). unfold constructed. rewrite flat_map_app.
      fold (constructed evs0). rewrite (constructed_none evs0 He0). split; [reflexivity|]. cbn.
      apply NoDup_app; [exact HN|repeat constructor; intros []|]. intros x Hx [<-|[]]. apply Hnew. now apply constructed_In. }
    destruct Hc as [Hc HN1].
    assert (Hlen : length (alive_after alive op) = pools_after (length alive) op).
    { destruct op; cbn; try reflexivity; try (rewrite app_length; cbn; lia). apply put_length. }
    destruct (IH w1 _ _ h1 I1 Hrun1 HN1 HL) as (w2 & rs & h2 & Hs2 & Hg2 & Hr2 & Hc2 & HN2 & I2).
    exists w2, (r :: rs), h2. cbn [pool_run]. rewrite Hs. cbn [obind]. rewrite Hs2. cbn [obind].
    split; [reflexivity|]. split; [now constructor|]. split; [exact Hr2|]. split.
    + rewrite Hc2, Ht. unfold constructed. rewrite flat_map_app. fold (constructed (w_trace w)). fold (constructed evs).
      rewrite Hc. rewrite <- app_assoc. f_equal. cbn. now rewrite app_nil_r.
    + split; [exact HN2|]. cbn [fold_left own_run]. rewrite <- Hlen. exact I2.
Qed.

(** C31.  In every legal program over any number of pools, every Alloc whose
    constructor does not throw returns a slot (never a null pointer); all slots
    handed out in the whole history are different; every object is constructed in
    free memory of an allocated buffer ([heap_run] succeeds); and an object stays
    constructed at its address as long as somebody owns it, through every later
    Alloc, Merge and move. *)
Theorem C31_alloc_unique_stable : forall rd ops, legal_run [] ops ->
  exists w rs h, pool_run rd pworld0 ops = Ok (w, rs) /\ Forall2 good_result ops rs /\
    heap_run rd heap0 (w_trace w) = Some h /\
    NoDup (slots_returned rs) /\
    (forall s, own_run 0 ops rs (fun _ => None) s <> None -> h_live h s = true) /\
    (forall s, h_live h s = true -> exists capacity, h_buf h (fst s) = Some capacity /\ snd s < capacity).
Proof.
  intros rd ops HL. destruct (run_ok rd ops pworld0 [] (fun _ => None) heap0 inv0) as (w & rs & h & Hs & Hg & Hr & Hc & HN & I);
    [reflexivity|constructor|exact HL|].
  exists w, rs, h. split; [exact Hs|]. split; [exact Hg|]. split; [exact Hr|]. split; [rewrite Hc in HN; exact HN|].
  assert (Hlive : forall i b s, In b (pool_at w i) -> b_buf b = Some (fst s) -> h_live h s = (snd s <? b_top b) /\ h_buf h (fst s) = Some (b_cap b)).
  { intros i b s Hin E. pose proof (i_heap _ _ _ _ I i b Hin) as Hh. unfold heap_has in Hh. rewrite E in Hh. destruct s as [s1 s2].
    cbn in *. split; [apply Hh|apply Hh]. }
  split.
  - intros s Ho. destruct (own_run 0 ops rs (fun _ => None) s) as [i|] eqn:E; [|congruence].
    apply (i_own _ _ _ _ I) in E as (b & Hin & Hb & Hlt). destruct (Hlive i b s Hin Hb) as [-> _]. now apply N.ltb_lt.
  - intros s Hl. pose proof (i_live_only _ _ _ _ I s Hl) as Hb. destruct (i_heap_only _ _ _ _ I _ Hb) as (i & b & Hin & E).
    destruct (Hlive i b s Hin E) as [Hl' Hcap]. exists (b_cap b). split; [exact Hcap|].
    rewrite Hl in Hl'. symmetry in Hl'. apply N.ltb_lt in Hl'.
    pose proof (i_good _ _ _ _ I i) as HG. rewrite Forall_forall in HG. destruct (HG b Hin) as (? & _ & _ & _ & Ht). lia.
Qed.

(** In bytes: object_pool.h:67-70 puts slot [k] of a buffer at [base + k * sizeof(T)].
    Buffers that are allocated at the same time are disjoint (aligned_alloc), so
    different live slots do not overlap, lie inside their buffer and are aligned. *)
Definition slot_addr (base : nat -> N) (sz : N) (s : slot_id) : N := base (fst s) + snd s * sz.

Theorem C31_no_overlap : forall (base : nat -> N) sz align h s s',
  0 < sz -> sz mod align = 0 -> 0 < align ->
  (forall b cap, h_buf h b = Some cap -> base b mod align = 0) ->
  (forall b b' cap cap', b <> b' -> h_buf h b = Some cap -> h_buf h b' = Some cap' ->
     base b + cap * sz <= base b' \/ base b' + cap' * sz <= base b) ->
  (forall x, h_live h x = true -> exists cap, h_buf h (fst x) = Some cap /\ snd x < cap) ->
  h_live h s = true -> h_live h s' = true -> s <> s' ->
  slot_addr base sz s mod align = 0 /\
  (slot_addr base sz s + sz <= slot_addr base sz s' \/ slot_addr base sz s' + sz <= slot_addr base sz s).
Proof.
  intros base sz align h [b k] [b' k'] Hsz Hmod Hal Hbase Hdis Hin Hs Hs' Hne. unfold slot_addr; cbn [fst snd].
  destruct (Hin _ Hs) as (cap & Hb & Hk), (Hin _ Hs') as (cap' & Hb' & Hk'). cbn [fst snd] in *. split.
  - rewrite N.add_mod by lia. rewrite (Hbase _ _ Hb). rewrite N.mul_mod by lia. rewrite Hmod, N.mul_0_r.
    rewrite N.add_0_l. rewrite !N.mod_0_l by lia. reflexivity.
  - destruct (Nat.eq_dec b b') as [->|Hbb].
    + assert (k <> k') by congruence. destruct (N.lt_total k k') as [Hlt|[Hlt|Hlt]]; [left; nia|congruence|right; nia].
    + destruct (Hdis b b' cap cap' Hbb Hb Hb') as [H|H]; [left; nia|right; nia].
Qed.

(** ** C32 *)
Definition slot_dec : forall a b : slot_id, {a = b} + {a <> b}.
Proof. decide equality; [apply N.eq_dec|apply Nat.eq_dec]. Defined.
Definition times (s : slot_id) (l : list slot_id) : nat := count_occ slot_dec l s.

Lemma heap_counts l : forall h h' s, heap_run true h l = Some h' ->
  (forall x, h_live h x = true -> exists cap, h_buf h (fst x) = Some cap /\ snd x < cap) ->
  (times s (constructed l) + (if h_live h s then 1 else 0) = times s (destroyed l) + (if h_live h' s then 1 else 0))%nat /\
  (forall x, h_live h' x = true -> exists cap, h_buf h' (fst x) = Some cap /\ snd x < cap).
Proof.
  induction l as [|e l IH]; intros h h' s Hrun Hin; cbn [heap_run] in Hrun.
  - injection Hrun as <-. cbn. auto.
  - destruct (heap_step true h e) as [h1|] eqn:E; [|discriminate].
    assert (H1 : (forall x, h_live h1 x = true -> exists cap, h_buf h1 (fst x) = Some cap /\ snd x < cap) /\
      (times s (constructed [e]) + (if h_live h s then 1 else 0) = times s (destroyed [e]) + (if h_live h1 s then 1 else 0))%nat).
    { destruct e as [b cap|x|x|b]; cbn [heap_step] in E.
      - destruct (h_buf h b) eqn:Hb; [discriminate|]. injection E as <-. cbn [h_buf h_live constructed destroyed flat_map app times count_occ]. split; [|lia]. intros x Hx.
        destruct (Nat.eqb_spec (fst x) b) as [Hxb|]; [destruct (Hin x Hx) as (c & Hc & _); congruence|auto].
      - destruct (h_buf h (fst x)) as [cap|] eqn:Hb; [|discriminate]. destruct ((snd x <? cap) && negb (h_live h x)) eqn:Hc; [|discriminate].
        injection E as <-. apply andb_prop in Hc as [Hc1 Hc2]. cbn [h_buf h_live constructed destroyed flat_map app]. unfold times; cbn [count_occ]. split.
        + intros y. destruct (slot_eqb_spec y x) as [->|]; [intros _; exists cap; split; [exact Hb|lia]|apply Hin].
        + destruct (slot_dec x s) as [->|Hne].
          * destruct (slot_eqb_spec s s); [|congruence]. destruct (h_live h s); [discriminate|reflexivity].
          * destruct (slot_eqb_spec s x); [congruence|]. reflexivity.
      - destruct (h_live h x) eqn:Hx; [|discriminate]. injection E as <-. cbn [h_buf h_live constructed destroyed flat_map app]. unfold times; cbn [count_occ]. split.
        + intros y. destruct (slot_eqb_spec y x); [discriminate|apply Hin].
        + destruct (slot_dec x s) as [->|Hne].
          * destruct (slot_eqb_spec s s); [|congruence]. rewrite Hx. reflexivity.
          * destruct (slot_eqb_spec s x); [congruence|]. reflexivity.
      - destruct (h_buf h b) as [cap|] eqn:Hb; [|discriminate]. cbn [andb] in E.
        destruct (existsb _ _) eqn:Hex; [discriminate|]. injection E as <-. cbn [h_buf h_live constructed destroyed flat_map app]. unfold times; cbn [count_occ]. split.
        + intros y. destruct (Nat.eqb_spec (fst y) b); [discriminate|]. intros Hy. destruct (Hin y Hy) as (c & Hc). eauto.
        + destruct (Nat.eqb_spec (fst s) b) as [Hsb|]; [|reflexivity]. destruct (h_live h s) eqn:Hs; [|reflexivity].
          exfalso. destruct (Hin s Hs) as (c & Hc & Hlt). rewrite Hsb, Hb in Hc. injection Hc as <-.
          rewrite <- Bool.not_true_iff_false in Hex. apply Hex. apply existsb_exists. exists (snd s). split; [apply upto_In; lia|].
          destruct s as [s1 s2]; cbn in *. now subst. }
    destruct H1 as [Hin1 Hc1]. destruct (IH h1 h' s Hrun Hin1) as [Hc Hin'].
    split; [|exact Hin'].
    replace (constructed (e :: l)) with (constructed [e] ++ constructed l) by (unfold constructed; cbn; now rewrite app_nil_r).
    replace (destroyed (e :: l)) with (destroyed [e] ++ destroyed l) by (unfold destroyed; cbn; now rewrite app_nil_r).
    unfold times in *. rewrite !count_occ_app. lia.
Qed.

(** C32.  For a type with a destructor, in every legal program: an object that is
    owned has been constructed once and not destroyed; one that is not owned any
    more (its owner was cleared, overwritten or destroyed) has been destroyed
    exactly once; nothing else is ever destroyed. *)
Theorem C32_destroyed_exactly_once : forall ops, legal_run [] ops ->
  exists w rs, pool_run true pworld0 ops = Ok (w, rs) /\
    (exists h, heap_run true heap0 (w_trace w) = Some h) /\
    forall s,
      times s (constructed (w_trace w)) = (if in_dec slot_dec s (slots_returned rs) then 1 else 0)%nat /\
      times s (destroyed (w_trace w)) =
        (if in_dec slot_dec s (slots_returned rs) then
           match own_run 0 ops rs (fun _ => None) s with Some _ => 0 | None => 1 end
         else 0)%nat.
Proof.
  intros ops HL. destruct (run_ok true ops pworld0 [] (fun _ => None) heap0 inv0) as (w & rs & h & Hs & Hg & Hr & Hc & HN & I);
    [reflexivity|constructor|exact HL|].
  exists w, rs. split; [exact Hs|]. split; [eauto|]. intros s. cbn [app constructed w_trace pworld0 flat_map] in Hc. cbn in Hc.
  assert (H1 : times s (constructed (w_trace w)) = (if in_dec slot_dec s (slots_returned rs) then 1 else 0)%nat).
  { rewrite Hc in HN |- *. unfold times. destruct (in_dec slot_dec s (slots_returned rs)) as [Hin|Hni].
    - now apply NoDup_count_occ'.
    - now apply count_occ_not_In. }
  split; [exact H1|].
  destruct (heap_counts (w_trace w) heap0 h s Hr) as [Hcount _]; [discriminate|]. cbn [h_live heap0] in Hcount.
  assert (Hl : h_live h s = match own_run 0 ops rs (fun _ => None) s with Some _ => true | None => false end).
  { change 0%nat with (@length bool []). destruct (own_run (length (@nil bool)) ops rs (fun _ => None) s) as [i|] eqn:E.
    - apply (i_own _ _ _ _ I) in E as (b & Hin & Hb & Hlt). pose proof (i_heap _ _ _ _ I i b Hin) as Hh. unfold heap_has in Hh.
      rewrite Hb in Hh. destruct s as [s1 s2]; cbn in *. destruct Hh as [_ ->]. now apply N.ltb_lt.
    - apply Bool.not_true_iff_false. intros Hl. pose proof (i_live_only _ _ _ _ I s Hl) as Hb.
      destruct (i_heap_only _ _ _ _ I _ Hb) as (i & b & Hin & Eb). pose proof (i_heap _ _ _ _ I i b Hin) as Hh. unfold heap_has in Hh.
      rewrite Eb in Hh. destruct Hh as [_ Hk]. destruct s as [s1 s2]; cbn in *. rewrite Hk in Hl. apply N.ltb_lt in Hl.
      assert (own_run 0 ops rs (fun _ => None) (s1, s2) = Some i); [|congruence].
      apply (i_own _ _ _ _ I). exists b. auto. }
  rewrite H1, Hl in Hcount. destruct (in_dec slot_dec s (slots_returned rs)), (own_run 0 ops rs (fun _ => None) s); lia.
Qed.

(** When every pool has been destroyed no buffer of any pool is left allocated,
    whether the type has a destructor or not. *)
Theorem C32_all_memory_returned : forall rd ops, legal_run [] ops ->
  Forall (fun b => b = false) (fold_left alive_after ops []) ->
  exists w rs h, pool_run rd pworld0 ops = Ok (w, rs) /\ heap_run rd heap0 (w_trace w) = Some h /\
    (forall b, h_buf h b = None) /\ (forall s, h_live h s = false).
Proof.
  intros rd ops HL Hdead. destruct (run_ok rd ops pworld0 [] (fun _ => None) heap0 inv0) as (w & rs & h & Hs & Hg & Hr & Hc & HN & I);
    [reflexivity|constructor|exact HL|].
  exists w, rs, h. split; [exact Hs|]. split; [exact Hr|].
  assert (Hnone : forall b, h_buf h b = None).
  { intros b. destruct (h_buf h b) as [cap|] eqn:E; [|reflexivity]. exfalso.
    destruct (i_heap_only _ _ _ _ I b) as (i & blk & Hin & _); [congruence|]. unfold pool_at in Hin.
    destruct (nth_error (w_pools w) i) as [[v|]|] eqn:En; [|contradiction|contradiction].
    pose proof (proj2 (i_alive _ _ _ _ I i) (ex_intro _ v En)) as Ha. rewrite Forall_forall in Hdead.
    apply nth_error_In in Ha. specialize (Hdead _ Ha). discriminate. }
  split; [exact Hnone|]. intros s. apply Bool.not_true_iff_false. intros Hl. apply (i_live_only _ _ _ _ I s Hl). apply Hnone.
Qed.

(** Three pools, a merge, a move, a throwing constructor, clears. *)
Definition sample_ops : list pool_op :=
  [OpNew; OpNew; OpAlloc 0 false; OpAlloc 0 false; OpAlloc 0 false; OpAlloc 1 false; OpAlloc 1 true;
   OpMerge 0 1; OpAlloc 0 false; OpAlloc 1 false; OpMoveNew 1; OpClear 0; OpAlloc 0 false; OpMoveAssign 0 2].

Example C31_met : legal_run [] sample_ops /\
  exists w, pool_run true pworld0 sample_ops =
    Ok (w, [RNone; RNone; RSlot (0%nat, 0); RSlot (0%nat, 1); RSlot (2%nat, 0); RSlot (3%nat, 0); RThrow; RNone; RSlot (3%nat, 1); RSlot (6%nat, 0); RNone; RNone;
            RSlot (7%nat, 0); RNone]) /\
    length (destroyed (w_trace w)) = 6%nat /\ In (EvFree 7) (w_trace w).
Proof. split; [cbn; repeat split; try reflexivity; lia|]. eexists. vm_compute. repeat split; try reflexivity. repeat (first [left; reflexivity|right]). Qed.

Example C32_met : exists w rs, pool_run true pworld0 (sample_ops ++ [OpDestroy 2; OpDestroy 1; OpDestroy 0]) = Ok (w, rs) /\
  length (destroyed (w_trace w)) = 7%nat /\ length (constructed (w_trace w)) = 7%nat.
Proof. do 2 eexists. vm_compute. repeat split. Qed.
