(** * Property C109: object pools when memory runs out. *)
From Verif Require Import Base BaseLemmas ModelPool ModelOom PropPool OomProofs.
From Coq Require Import ZifyBool ZifyNat ZifyN.

(** ** Specification

    A call that throws leaves every object with its owner, except [Merge]: each object of
    the pool it was taking from may already have gone over. *)
Definition own_next (n : nat) (op : pool_op) (r : pool_result) (own own' : owners) : Prop :=
  match op, r with
  | OpMerge i j, RThrow => forall s, own' s = own s \/ (own s = Some j /\ own' s = Some i)
  | _, _ => forall s, own' s = own_step n op r own s
  end.
(** A pool whose constructor throws does not exist. *)
Definition alive_next (alive : list bool) (op : pool_op) (r : pool_result) : list bool :=
  match op, r with OpNew, RThrow => alive ++ [false] | _, _ => alive_after alive op end.

(** Torn pools: a [Merge] from them was interrupted, and they have not been cleared since;
    also pools such a pool has been merged or moved into. *)
Definition torn_next (torn : list bool) (op : pool_op) (r : pool_result) : list bool :=
  let at_ k := nth k torn false in
  match op with
  | OpNew => torn ++ [false]
  | OpAlloc _ _ => torn
  | OpMerge i j => match r with RThrow => put j true torn | _ => put j false (put i (at_ i || at_ j) torn) end
  | OpClear i | OpDestroy i => put i false torn
  | OpMoveNew j => put j false torn ++ [at_ j]
  | OpMoveAssign i j => put j false (put i (at_ j) torn)
  end.
(** [Merge] from a torn pool is not interrupted again. *)
Definition careful (torn : list bool) (op : pool_op) (r : pool_result) : Prop :=
  match op, r with OpMerge _ j, RThrow => nth j torn false = false | _, _ => True end.

(** Everything that can have happened: calls on existing pools with their results.
    Memory for buffers is there, the vectors of blocks may be unable to grow at any time. *)
Inductive history (rd : bool) : list (pool_op * pool_result) -> list bool -> list bool -> pworld -> Prop :=
| history_start : history rd [] [] [] pworld0
| history_call hs alive torn w c w' r :
    history rd hs alive torn w ->
    legal alive (fst c) -> null_buffer (snd c) = false ->
    pool_step_mem rd w c = Ok (w', r) -> careful torn (fst c) r ->
    history rd (hs ++ [(fst c, r)]) (alive_next alive (fst c) r) (torn_next torn (fst c) r) w'.

(** An attribution of the objects to pools that agrees with all calls. *)
Inductive attributed : list (pool_op * pool_result) -> nat -> owners -> Prop :=
| attributed_start : attributed [] 0 (fun _ => None)
| attributed_call hs n own op r own' :
    attributed hs n own -> own_next n op r own own' -> attributed (hs ++ [(op, r)]) (pools_after n op) own'.

(** ** Moved-from blocks do not count *)
Definition real (b : block) : bool := match b_buf b with Some _ => true | None => false end.
Definition strip_v (v : blocks) : blocks := {| v_elems := filter real (v_elems v); v_capacity := v_capacity v |}.
Definition strip (w : pworld) : pworld :=
  {| w_pools := map (option_map strip_v) (w_pools w); w_fresh := w_fresh w; w_trace := w_trace w |}.

Lemma pool_at_strip w k : pool_at (strip w) k = filter real (pool_at w k).
Proof. unfold pool_at, strip; cbn. rewrite nth_error_map. destruct (nth_error (w_pools w) k) as [[v|]|]; reflexivity. Qed.
Lemma put_map {A B} (f : A -> B) n x l : put n (f x) (map f l) = map f (put n x l).
Proof. revert n; induction l as [|y l IH]; intros [|n]; cbn; auto. now rewrite IH. Qed.
Lemma get_pool_strip w i : get_pool (strip w) i = omap strip_v (get_pool w i).
Proof. unfold get_pool, strip; cbn. rewrite nth_error_map. destruct (nth_error (w_pools w) i) as [[v|]|]; reflexivity. Qed.
Lemma clear_strip rd l : clear_events rd (filter real l) = clear_events rd l.
Proof.
  unfold clear_events. induction l as [|b l IH]; [reflexivity|]. cbn. unfold real at 1, Block_dtor at 2.
  destruct (b_buf b) eqn:E; cbn; [|exact IH]. unfold Block_dtor at 1. rewrite E. now rewrite IH.
Qed.
Lemma alive_strip alive w : alive_ok alive w -> alive_ok alive (strip w).
Proof.
  intros [H1 H2]. split; [|cbn; now rewrite map_length]. intros i. rewrite H1. cbn. rewrite nth_error_map. split.
  - intros (v & ->). cbn. eauto.
  - destruct (nth_error (w_pools w) i) as [[v|]|]; cbn; intros (v' & E); try discriminate. eauto.
Qed.
Lemma alive_unstrip alive w : alive_ok alive (strip w) -> alive_ok alive w.
Proof.
  intros [H1 H2]. split; [|cbn in H2; now rewrite map_length in H2]. intros i. rewrite H1. cbn. rewrite nth_error_map. split.
  - destruct (nth_error (w_pools w) i) as [[v|]|]; cbn; intros (v' & E); try discriminate. eauto.
  - intros (v & ->). cbn. eauto.
Qed.

Lemma strip_step rd w op : match op with OpNew | OpClear _ | OpMoveNew _ | OpMoveAssign _ _ | OpDestroy _ => True | _ => False end ->
  pool_step rd (strip w) op = omap (fun x => (strip (fst x), snd x)) (pool_step rd w op).
Proof.
  destruct op as [|i t|i j|i|j|i j|i]; intros []; cbn [pool_step]; rewrite ?get_pool_strip.
  - cbn [omap obind fst snd]. unfold strip; cbn [w_pools w_fresh w_trace]. now rewrite map_app.
  - destruct (get_pool w i) as [v| | | |]; try reflexivity. cbn [omap obind Pool_Clear fst snd strip_v v_elems v_capacity].
    rewrite clear_strip. unfold strip; cbn [w_pools w_fresh w_trace]. now rewrite <- put_map.
  - destruct (get_pool w j) as [v| | | |]; try reflexivity. cbn [omap obind fst snd].
    unfold strip; cbn [w_pools w_fresh w_trace]. now rewrite map_app, <- put_map.
  - destruct (get_pool w i) as [v| | | |]; try reflexivity. cbn [omap obind].
    destruct (get_pool w j) as [v2| | | |]; try reflexivity. cbn [omap obind].
    destruct (Nat.eqb i j); [reflexivity|]. cbn [omap obind fst snd strip_v v_elems]. rewrite clear_strip.
    unfold strip; cbn [w_pools w_fresh w_trace]. now rewrite <- !put_map.
  - destruct (get_pool w i) as [v| | | |]; try reflexivity. cbn [omap obind Pool_Clear fst snd strip_v v_elems v_capacity].
    rewrite clear_strip. unfold strip; cbn [w_pools w_fresh w_trace]. now rewrite <- put_map.
Qed.

(** Torn pools may contain moved-from blocks, but not as their last one. *)
Definition ends_real (l : list block) : Prop := l = [] \/ exists l' b, l = l' ++ [b] /\ real b = true.
Definition tidy (torn : list bool) (w : pworld) : Prop :=
  length torn = length (w_pools w) /\
  forall i, (nth i torn false = false -> Forall (fun b => real b = true) (pool_at w i)) /\ ends_real (pool_at w i).

Lemma ends_real_app l l' : ends_real l -> ends_real l' -> ends_real (l ++ l').
Proof.
  intros H [->|(x & b & -> & Hb)]; [now rewrite app_nil_r|]. right. exists (l ++ x), b. now rewrite app_assoc.
Qed.
Lemma all_ends_real l : Forall (fun b => real b = true) l -> ends_real l.
Proof.
  intros H. destruct l as [|b l] using rev_ind; [now left|]. right. exists l, b. split; [reflexivity|].
  rewrite Forall_forall in H. apply H, in_or_app; right; now left.
Qed.
Lemma ends_real_tail l l' : ends_real (l ++ l') -> ends_real l'.
Proof.
  destruct l' as [|b l'] using rev_ind; [now left|]. intros [H|(x & c & H & Hc)].
  - destruct l; cbn in H; [|discriminate]. destruct l'; discriminate.
  - rewrite app_assoc in H. apply app_inj_tail in H as [_ <-]. right. eauto.
Qed.

Lemma nth_put {A} n (x d : A) l i : (n < length l)%nat -> nth i (put n x l) d = if Nat.eqb i n then x else nth i l d.
Proof.
  revert n i; induction l as [|y l IH]; intros [|n] [|i] H; cbn in *; try lia; try reflexivity. apply IH. lia.
Qed.

(** ** What the calls do *)
Lemma emplace_mem rd g v b :
  (exists cap, fst (emplace_back_mem rd g v b) = Some ({| v_elems := v_elems v ++ [b]; v_capacity := cap |}, snd (Block_move b), [])) \/
  (g <> None /\ emplace_back_mem rd g v b = (None, g)).
Proof.
  unfold emplace_back_mem. destruct (emplace_back_ok rd v b) as (cap & E).
  destruct (_ <? _)%nat; [left; exists cap; cbn [fst]; now rewrite E|].
  destruct g as [[|n]|]; [right; split; [discriminate|reflexivity]| |]; left; exists cap; cbn [fst]; now rewrite E.
Qed.

Definition gone (b : block) : block := snd (Block_move b).

Lemma merge_mem rd l : forall g v, exists done todo cap t,
  merge_loop_mem rd g v l = ({| v_elems := v_elems v ++ done; v_capacity := cap |}, map gone done ++ todo, [], t) /\
  l = done ++ todo /\ (t = true -> todo <> [] /\ g <> None) /\ (t = false -> todo = []).
Proof.
  induction l as [|b l IH]; intros g v; cbn [merge_loop_mem].
  - exists [], [], (v_capacity v), false. rewrite app_nil_r. destruct v; cbn. split; [reflexivity|]. split; [reflexivity|]. split; [discriminate|reflexivity].
  - destruct (emplace_back_mem rd g v b) as [[[[v1 b'] evs]|] g'] eqn:E; destruct (emplace_mem rd g v b) as [(cap & E2)|(Hg & E2)]; rewrite E in E2; try discriminate.
    + cbn [fst] in E2. assert (v1 = {| v_elems := v_elems v ++ [b]; v_capacity := cap |} /\ b' = gone b /\ evs = []) as (-> & -> & ->) by (unfold gone; split; [|split]; congruence).
      destruct (IH g' {| v_elems := v_elems v ++ [b]; v_capacity := cap |}) as (done & todo & cap' & t & E3 & Hl & H1 & H2). rewrite E3.
      exists (b :: done), todo, cap', t. cbn. rewrite <- app_assoc. cbn. split; [reflexivity|]. split; [now rewrite Hl|]. split; [|exact H2].
      intros Ht. destruct (H1 Ht) as [H3 H4]. split; [exact H3|]. intros ->. unfold emplace_back_mem in E. destruct (_ <? _)%nat; cbn in E; congruence.
    + assert (g' = g) by congruence. subst g'. exists [], (b :: l), (v_capacity v), true. rewrite app_nil_r. destruct v; cbn.
      split; [reflexivity|]. split; [reflexivity|]. split; [intros _; split; [discriminate|exact Hg]|discriminate].
Qed.

Lemma gone_filter l : filter real (map gone l) = [].
Proof. induction l as [|b l IH]; cbn; auto. Qed.
Lemma gone_clear rd l : clear_events rd (map gone l) = [].
Proof. induction l as [|b l IH]; cbn; auto. Qed.

Lemma back_Alloc_ok throws before b cap evs buf : b_buf b = Some buf -> b_top b < b_cap b -> b_cap b <= 10240 ->
  back_Alloc throws {| v_elems := before ++ [b]; v_capacity := cap |} evs =
  if throws then Ok (None, {| v_elems := before ++ [b]; v_capacity := cap |}, evs, true)
  else Ok (Some (buf, b_top b), {| v_elems := before ++ [{| b_buf := Some buf; b_top := b_top b + 1; b_cap := b_cap b |}]; v_capacity := cap |},
           evs ++ [EvConstruct (buf, b_top b)], false).
Proof.
  intros Hb Ht Hc. unfold back_Alloc. cbn [v_elems v_capacity]. rewrite rev_app_distr. cbn [rev app].
  unfold Block_Alloc, Full. destruct (N.eqb_spec (b_top b) (b_cap b)); [lia|]. rewrite Hb. destruct (N.ltb_spec (b_top b) (b_cap b)); [|lia].
  destruct throws; cbn [obind rev]; rewrite rev_involutive; [now rewrite app_nil_r|].
  rewrite u64_small by (rewrite W64_val; lia). reflexivity.
Qed.

Definition enough (c : pool_op * memory_left) (r : pool_result) : Prop :=
  r <> RNull /\
  (growths (snd c) = None -> good_result (fst c) r) /\
  (r <> RThrow -> good_result (fst c) r).

Lemma mem_step rd w alive torn own h c :
  inv (strip w) alive own h -> tidy torn w -> legal alive (fst c) -> null_buffer (snd c) = false ->
  exists w' r evs h' own', pool_step_mem rd w c = Ok (w', r) /\ w_trace w' = w_trace w ++ evs /\ heap_run rd h evs = Some h' /\
    own_next (length alive) (fst c) r own own' /\ inv (strip w') (alive_next alive (fst c) r) own' h' /\
    constructed evs = slots_returned [r] /\ (forall s, r = RSlot s -> ~ In (EvConstruct s) (w_trace w)) /\
    (careful torn (fst c) r -> tidy (torn_next torn (fst c) r) w') /\ enough c r.
Proof.
  intros I HT HL HN. assert (HA : alive_ok alive w) by (apply alive_unstrip; split; apply I).
  assert (Hpool : forall i, nth_error alive i = Some true -> exists v, get_pool w i = Ok v /\ pool_at w i = v_elems v /\ (i < length (w_pools w))%nat).
  { intros i Hi. apply HA in Hi as (v & Hv). exists v. unfold get_pool, pool_at. rewrite Hv. split; [reflexivity|]. split; [reflexivity|].
    apply nth_error_Some. congruence. }
  destruct HT as [HTL HT].
  destruct c as [op m]. cbn [fst snd] in *.
  assert (Simple : match op with OpNew | OpClear _ | OpMoveNew _ | OpMoveAssign _ _ | OpDestroy _ => True | _ => False end ->
    exists w' evs h', pool_step rd w op = Ok (w', RNone) /\ w_trace w' = w_trace w ++ evs /\ heap_run rd h evs = Some h' /\
      inv (strip w') (alive_after alive op) (own_step (length alive) op RNone own) h' /\ constructed evs = []).
  { intros Hop. destruct (step_ok rd (strip w) alive own h op I HL) as (w2 & r & h2 & evs & Hs & Htr & Hr & Hg & _ & Hc & I2).
    rewrite strip_step in Hs by exact Hop. destruct (pool_step rd w op) as [[w' r']| | | |] eqn:E; try discriminate. cbn [omap obind fst snd] in Hs.
    assert (E1 : strip w' = w2) by congruence. assert (E2 : r' = r) by congruence. subst w2 r'.
    assert (E3 : r = RNone) by (destruct op; try contradiction; exact Hg). subst r.
    exists w', evs, h2. split; [reflexivity|]. split; [exact Htr|]. split; [exact Hr|]. split; [exact I2|].
    apply constructed_none. intros s. apply Hc. discriminate. }
  destruct op as [|i throws|i j|i|j|i j|i].
  - (* New *)
    cbn [pool_step_mem fst snd].
    assert (Hgrow : growths m = Some O \/ (match growths m with Some O => Ok ({| w_pools := w_pools w ++ [None]; w_fresh := w_fresh w; w_trace := w_trace w |}, RThrow) | _ => pool_step rd w OpNew end = pool_step rd w OpNew)).
    { destruct (growths m) as [[|n]|]; auto. }
    assert (Htidy : forall x, (forall v, x = Some v -> v_elems v = []) -> tidy (torn ++ [false]) {| w_pools := w_pools w ++ [x]; w_fresh := w_fresh w; w_trace := w_trace w |}).
    { intros x Hx. split; [cbn; rewrite !app_length; cbn; lia|]. intros k.
      assert (Hk : pool_at {| w_pools := w_pools w ++ [x]; w_fresh := w_fresh w; w_trace := w_trace w |} k = [] \/
                   ((k < length (w_pools w))%nat /\ pool_at {| w_pools := w_pools w ++ [x]; w_fresh := w_fresh w; w_trace := w_trace w |} k = pool_at w k)).
      { unfold pool_at; cbn [w_pools]. destruct (Nat.lt_ge_cases k (length (w_pools w))); [right; now rewrite nth_error_app1|left].
        rewrite nth_error_app2 by lia. destruct (k - length (w_pools w))%nat as [|[|n]]; cbn; [|reflexivity|reflexivity].
        destruct x as [v|]; [now apply Hx|reflexivity]. }
      destruct Hk as [->|[Hlt ->]]; [split; [constructor|now left]|]. rewrite app_nth1 by lia. apply HT. }
    destruct Hgrow as [Hg|Hg].
    + rewrite Hg. do 5 eexists. split; [reflexivity|]. cbn [w_trace]. split; [symmetry; apply app_nil_r|]. split; [reflexivity|].
      split; [cbn; reflexivity|]. split.
      { cbn [alive_next]. apply inv_stillborn in I. unfold strip in *. cbn [w_pools w_fresh w_trace] in *. rewrite map_app. exact I. }
      split; [reflexivity|]. split; [discriminate|]. split; [intros _; apply Htidy; discriminate|].
      split; [discriminate|]. cbn. rewrite Hg. split; [discriminate|congruence].
    + rewrite Hg. destruct (Simple Logic.I) as (w' & evs & h' & Hs & Htr & Hr & I' & Hc). exists w', RNone, evs, h', own.
      split; [exact Hs|]. split; [exact Htr|]. split; [exact Hr|]. split; [cbn; reflexivity|]. split; [exact I'|]. split; [exact Hc|].
      split; [discriminate|]. split.
      { intros _. cbn [pool_step] in Hs. assert (w' = {| w_pools := w_pools w ++ [Some Pool_new]; w_fresh := w_fresh w; w_trace := w_trace w |}) as -> by congruence.
        apply Htidy. now intros v [= <-]. }
      split; [discriminate|]. split; reflexivity.
  - (* Alloc *)
    destruct (Hpool i HL) as (v & Hv & Hpv & Hilt). cbn [pool_step_mem fst snd]. rewrite Hv. cbn [obind].
    destruct (HT i) as [HT1 HT2]. rewrite Hpv in HT1, HT2.
    assert (Hput : forall x, put i (Some (strip_v x)) (w_pools (strip w)) = w_pools (strip {| w_pools := put i (Some x) (w_pools w); w_fresh := 0; w_trace := [] |})).
    { intros x. unfold strip; cbn [w_pools]. now rewrite <- put_map. }
    assert (Htidy : forall x fr tr, ends_real (v_elems x) -> (nth i torn false = false -> Forall (fun b => real b = true) (v_elems x)) ->
              tidy torn {| w_pools := put i (Some x) (w_pools w); w_fresh := fr; w_trace := tr |}).
    { intros x fr tr H1 H2. split; [cbn; now rewrite put_length|]. intros k. rewrite pool_at_put by exact Hilt.
      destruct (Nat.eqb_spec k i) as [->|]; [auto|apply HT]. }
    assert (Main : forall before b buf cap evs, b_buf b = Some buf -> b_top b < b_cap b -> 0 < b_cap b <= 10240 ->
      ((filter real (v_elems v) = filter real before ++ [b] /\ v_elems v = before ++ [b] /\ evs = [] /\ (buf < w_fresh w)%nat) \/
       (filter real (v_elems v) = filter real before /\ v_elems v = before /\ buf = w_fresh w /\ b_top b = 0 /\ evs = [EvBuffer (w_fresh w) (b_cap b)])) ->
      exists w' r evs' h' own',
        obind (back_Alloc throws {| v_elems := before ++ [b]; v_capacity := cap |} evs)
          (fun '(r, v', evs, e) => Ok ({| w_pools := put i (Some v') (w_pools w); w_fresh := S (w_fresh w); w_trace := w_trace w ++ evs |},
             if e : bool then RThrow else match r with Some s => RSlot s | None => RNull end)) = Ok (w', r) /\
        w_trace w' = w_trace w ++ evs' /\ heap_run rd h evs' = Some h' /\
        own_next (length alive) (OpAlloc i throws) r own own' /\ inv (strip w') alive own' h' /\
        constructed evs' = slots_returned [r] /\ (forall s, r = RSlot s -> ~ In (EvConstruct s) (w_trace w)) /\
        (careful torn (OpAlloc i throws) r -> tidy torn w') /\ enough (OpAlloc i throws, m) r).
    { intros before b buf cap evs Hbuf Htop Hcap Hcase.
      assert (Hcase' : (pool_at (strip w) i = filter real before ++ [b] /\ evs = [] /\ (buf < w_fresh (strip w))%nat) \/
        (pool_at (strip w) i = filter real before /\ buf = w_fresh (strip w) /\ b_top b = 0 /\ evs = [EvBuffer (w_fresh (strip w)) (b_cap b)])).
      { rewrite pool_at_strip, Hpv. destruct Hcase as [(H1 & _ & H2)|(H1 & _ & H2)]; [left|right]; auto. }
      destruct (inv_alloc rd throws (strip w) alive own h i (filter real before) b buf cap evs I HL Hbuf Htop Hcap Hcase') as (h' & Hrun & Hnew & Hcon & I').
      rewrite (back_Alloc_ok throws before b cap evs buf Hbuf Htop (proj2 Hcap)).
      assert (Hb : real b = true) by (unfold real; now rewrite Hbuf).
      assert (Hends : forall b', real b' = true -> ends_real (before ++ [b'])) by (intros b' Hb'; right; eauto).
      assert (Hall : forall b', real b' = true -> nth i torn false = false -> Forall (fun b => real b = true) (before ++ [b'])).
      { intros b' Hb' Ht. apply Forall_app. split; [|now constructor]. specialize (HT1 Ht).
        destruct Hcase as [(_ & E & _)|(_ & E & _)]; rewrite E in HT1; [now apply Forall_app in HT1|exact HT1]. }
      destruct throws; cbn [obind].
      - exists {| w_pools := put i (Some {| v_elems := before ++ [b]; v_capacity := cap |}) (w_pools w); w_fresh := S (w_fresh w); w_trace := w_trace w ++ evs |}, RThrow, evs, h', own.
        split; [reflexivity|]. split; [reflexivity|]. split; [exact Hrun|]. split; [cbn; reflexivity|].
        split. { unfold strip; cbn [w_pools w_fresh w_trace]. rewrite <- put_map. cbn [option_map]. unfold strip_v; cbn [v_elems v_capacity].
          rewrite filter_app. cbn [filter]. rewrite Hb. exact I'. }
        split; [exact Hcon|]. split; [discriminate|]. split; [intros _; apply Htidy; cbn; auto|]. split; [discriminate|]. cbn. split; [reflexivity|congruence].
      - set (b2 := {| b_buf := Some buf; b_top := b_top b + 1; b_cap := b_cap b |}).
        exists {| w_pools := put i (Some {| v_elems := before ++ [b2]; v_capacity := cap |}) (w_pools w); w_fresh := S (w_fresh w); w_trace := w_trace w ++ evs ++ [EvConstruct (buf, b_top b)] |},
          (RSlot (buf, b_top b)), (evs ++ [EvConstruct (buf, b_top b)]), h', (fun x => if slot_eqb x (buf, b_top b) then Some i else own x).
        split; [reflexivity|]. split; [reflexivity|]. split; [exact Hrun|]. split; [cbn; reflexivity|].
        split. { unfold strip; cbn [w_pools w_fresh w_trace]. rewrite <- put_map. cbn [option_map]. unfold strip_v; cbn [v_elems v_capacity].
          rewrite filter_app. exact I'. }
        split; [unfold constructed in *; rewrite flat_map_app, Hcon; reflexivity|]. split; [intros s [= <-]; now apply Hnew|].
        split; [intros _; apply Htidy; cbn; auto|]. split; [discriminate|]. cbn. split; eauto. }
    cbn [alive_next alive_after torn_next]. unfold Pool_Alloc_mem. destruct (last_full v) eqn:Hlast.
    + rewrite HN. unfold Block_new. pose proof (next_capacity_range (length (v_elems v))) as Hr.
      destruct (N.ltb_spec 0 (next_capacity (length (v_elems v)))); [|lia].
      set (nb := {| b_buf := Some (w_fresh w); b_top := 0; b_cap := next_capacity (length (v_elems v)) |}).
      destruct (emplace_mem rd (growths m) v nb) as [(cap & E)|(Hg & E)]; rewrite E; cbn [fst].
      * apply (Main (v_elems v) nb (w_fresh w) cap [EvBuffer (w_fresh w) (b_cap nb)]); [reflexivity|cbn; lia|exact Hr|].
        right. split; [reflexivity|]. split; [reflexivity|]. split; [reflexivity|]. split; reflexivity.
      * cbn [obind]. assert (Hd : Block_dtor rd nb = [EvFree (w_fresh w)]) by (unfold Block_dtor, destructor_proxy; cbn; now destruct rd).
        rewrite Hd. cbn [app].
        edestruct (inv_passing rd (strip w) (strip {| w_pools := put i (Some v) (w_pools w); w_fresh := S (w_fresh w);
          w_trace := w_trace w ++ [EvBuffer (w_fresh w) (next_capacity (length (v_elems v))); EvFree (w_fresh w)] |}) alive own h) as (h' & Hrun & I').
        -- exact I.
        -- apply alive_strip. now apply alive_put.
        -- intros k. rewrite !pool_at_strip. rewrite pool_at_put by exact Hilt. destruct (Nat.eqb_spec k i) as [->|]; [now rewrite Hpv|reflexivity].
        -- reflexivity.
        -- reflexivity.
        -- do 5 eexists. split; [reflexivity|]. split; [reflexivity|]. split; [exact Hrun|]. split; [cbn; reflexivity|]. split; [exact I'|].
           split; [reflexivity|]. split; [discriminate|]. split; [intros _; apply Htidy; auto|]. split; [discriminate|].
           cbn. split; congruence.
    + unfold last_full in Hlast. destruct (rev (v_elems v)) as [|b before] eqn:Hrev; [discriminate|].
      assert (He : v_elems v = rev before ++ [b]) by (rewrite <- (rev_involutive (v_elems v)), Hrev; reflexivity).
      assert (Hb : real b = true).
      { destruct HT2 as [H|(l' & b' & H & Hb')]; [rewrite H in Hrev; discriminate|]. rewrite He in H. apply app_inj_tail in H as [_ ->]. exact Hb'. }
      assert (Hg : good (w_fresh w) b).
      { pose proof (i_good _ _ _ _ I i) as HG. rewrite pool_at_strip, Hpv, He, filter_app in HG. cbn [filter] in HG. rewrite Hb in HG.
        apply Forall_app in HG as [_ HG]. now inversion HG. }
      destruct Hg as (buf & Hbuf & Hlt & Hcap & Htop). unfold Full in Hlast.
      destruct v as [el cap]. cbn [v_elems v_capacity] in *. rewrite He.
      apply (Main (rev before) b buf cap []); [exact Hbuf|lia|exact Hcap|].
      left. split; [rewrite He, filter_app; cbn; now rewrite Hb|]. auto.
  - (* Merge *)
    destruct HL as (Hi & Hj & Hij).
    destruct (Hpool i Hi) as (v & Hv & Hpv & Hilt). destruct (Hpool j Hj) as (v2 & Hv2 & Hpv2 & Hjlt).
    cbn [pool_step_mem fst snd]. rewrite Hv, Hv2. cbn [obind]. destruct (Nat.eqb_spec i j); [congruence|].
    destruct (merge_mem rd (v_elems v2) (growths m) v) as (done & todo & cap & t & E & Hsplit & Ht & Hf).
    unfold Pool_Merge_mem. rewrite E. clear E.
    assert (Hp : forall a b tr k, pool_at {| w_pools := put j (Some b) (put i (Some a) (w_pools w)); w_fresh := w_fresh w; w_trace := tr |} k =
       if Nat.eqb k j then v_elems b else if Nat.eqb k i then v_elems a else pool_at w k).
    { intros a b tr k. unfold pool_at; cbn [w_pools]. rewrite nth_error_put by (now rewrite put_length). destruct (Nat.eqb k j); [reflexivity|].
      rewrite nth_error_put by exact Hilt. destruct (Nat.eqb k i); reflexivity. }
    assert (HA2 : forall a b tr, alive_ok alive {| w_pools := put j (Some b) (put i (Some a) (w_pools w)); w_fresh := w_fresh w; w_trace := tr |}).
    { intros a b tr. apply (alive_put alive {| w_pools := put i (Some a) (w_pools w); w_fresh := w_fresh w; w_trace := tr |} j b); [|exact Hj]. now apply alive_put. }
    destruct (HT i) as [HTi1 HTi2]. destruct (HT j) as [HTj1 HTj2]. rewrite Hpv in HTi1, HTi2. rewrite Hpv2 in HTj1, HTj2.
    assert (HTLi : (i < length torn)%nat) by lia. assert (HTLj : (j < length torn)%nat) by lia.
    destruct t.
    + (* interrupted *)
      destruct (Ht eq_refl) as [Htodo Hg]. cbn [obind].
      do 3 eexists. exists h, (hand_over_some j i (filter real done) own). split; [reflexivity|]. cbn [w_trace]. split; [reflexivity|]. split; [reflexivity|].
      split. { cbn. intros s. unfold hand_over_some. destruct (own s) as [k|]; [|now left]. destruct (Nat.eqb_spec k j) as [->|]; [|now left]. cbn.
        destruct (buf_in _ _); [right; auto|now left]. }
      split. { cbn [alive_next alive_after]. eapply (inv_transfer_some (strip w)) with (l := filter real done) (rest := filter real todo); [exact I|exact Hij| | | | | | |].
        - apply alive_strip, HA2.
        - rewrite pool_at_strip, Hpv2, Hsplit. apply filter_app.
        - rewrite !pool_at_strip, Hp. destruct (Nat.eqb_spec i j); [congruence|]. rewrite Nat.eqb_refl. cbn [v_elems]. rewrite Hpv. apply filter_app.
        - rewrite pool_at_strip, Hp, Nat.eqb_refl. cbn [v_elems]. now rewrite filter_app, gone_filter.
        - intros k H1 H2. rewrite !pool_at_strip, Hp. destruct (Nat.eqb_spec k j), (Nat.eqb_spec k i); congruence || reflexivity.
        - reflexivity.
        - cbn. apply app_nil_r. }
      split; [reflexivity|]. split; [discriminate|]. split.
      { intros Hc. cbn in Hc. specialize (HTj1 Hc). cbn [torn_next]. split; [cbn; now rewrite !put_length|]. intros k. rewrite Hp.
        rewrite nth_put by exact HTLj. destruct (Nat.eqb_spec k j) as [->|Hkj].
        - split; [discriminate|]. cbn [v_elems]. rewrite Hsplit in HTj2. apply ends_real_tail in HTj2.
          destruct HTj2 as [H|(l' & b & H & Hb)]; [congruence|]. right. exists (map gone done ++ l'), b. rewrite H. now rewrite app_assoc.
        - destruct (Nat.eqb_spec k i) as [->|]; [|apply HT]. cbn [v_elems]. rewrite Hsplit in HTj1. apply Forall_app in HTj1 as [Hd _]. split.
          + intros H. apply Forall_app. auto.
          + apply ends_real_app; [exact HTi2|now apply all_ends_real]. }
      split; [discriminate|]. cbn. split; [congruence|congruence].
    + rewrite (Hf eq_refl) in *. rewrite app_nil_r in Hsplit. subst done. rewrite app_nil_r. cbn [app]. rewrite gone_clear. cbn [obind].
      do 3 eexists. exists h, (hand_over j i own). split; [reflexivity|]. cbn [w_trace]. split; [reflexivity|]. split; [reflexivity|].
      split; [cbn; reflexivity|]. split.
      { cbn [alive_next alive_after]. eapply (inv_transfer (strip w)); [exact I|exact Hij| | | | | |].
        - apply alive_strip, HA2.
        - rewrite !pool_at_strip, Hp. destruct (Nat.eqb_spec i j); [congruence|]. rewrite Nat.eqb_refl. cbn [v_elems]. rewrite Hpv, Hpv2. apply filter_app.
        - rewrite pool_at_strip, Hp, Nat.eqb_refl. reflexivity.
        - intros k H1 H2. rewrite !pool_at_strip, Hp. destruct (Nat.eqb_spec k j), (Nat.eqb_spec k i); congruence || reflexivity.
        - reflexivity.
        - cbn. apply app_nil_r. }
      split; [reflexivity|]. split; [discriminate|]. split.
      { intros _. cbn [torn_next]. split; [cbn; now rewrite !put_length|]. intros k. rewrite Hp.
        rewrite nth_put by (now rewrite put_length). rewrite nth_put by exact HTLi. destruct (Nat.eqb_spec k j) as [->|Hkj].
        - cbn [v_elems]. split; [constructor|now left].
        - destruct (Nat.eqb_spec k i) as [->|]; [|apply HT]. cbn [v_elems]. split.
          + intros H. apply orb_false_elim in H as [H1 H2]. apply Forall_app. auto.
          + now apply ends_real_app. }
      split; [discriminate|]. cbn. split; reflexivity.
  - (* Clear *)
    destruct (Simple Logic.I) as (w' & evs & h' & Hs & Htr & Hr & I' & Hc). destruct (Hpool i HL) as (v & Hv & Hpv & Hilt).
    exists w', RNone, evs, h', (own_step (length alive) (OpClear i) RNone own). split; [exact Hs|]. split; [exact Htr|]. split; [exact Hr|].
    split; [cbn; reflexivity|]. split; [exact I'|]. split; [exact Hc|]. split; [discriminate|]. split.
    { intros _. cbn [pool_step] in Hs. rewrite Hv in Hs. cbn [obind Pool_Clear] in Hs. 
      assert (w' = {| w_pools := put i (Some {| v_elems := []; v_capacity := v_capacity v |}) (w_pools w); w_fresh := w_fresh w; w_trace := w_trace w ++ clear_events rd (v_elems v) |}) as -> by congruence.
      cbn [torn_next]. split; [cbn; now rewrite !put_length|]. intros k. rewrite pool_at_put by exact Hilt. rewrite nth_put by lia.
      destruct (Nat.eqb_spec k i); [split; [constructor|now left]|apply HT]. }
    split; [discriminate|]. cbn. split; reflexivity.
  - (* MoveNew *)
    destruct (Simple Logic.I) as (w' & evs & h' & Hs & Htr & Hr & I' & Hc). destruct (Hpool j HL) as (v & Hv & Hpv & Hjlt).
    exists w', RNone, evs, h', (own_step (length alive) (OpMoveNew j) RNone own). split; [exact Hs|]. split; [exact Htr|]. split; [exact Hr|].
    split; [cbn; reflexivity|]. split; [exact I'|]. split; [exact Hc|]. split; [discriminate|]. split.
    { intros _. cbn [pool_step] in Hs. rewrite Hv in Hs. cbn [obind] in Hs.
      set (w1 := {| w_pools := put j (Some {| v_elems := []; v_capacity := 0 |}) (w_pools w); w_fresh := w_fresh w; w_trace := w_trace w |}).
      assert (w' = {| w_pools := w_pools w1 ++ [Some v]; w_fresh := w_fresh w1; w_trace := w_trace w1 |}) as -> by (unfold w1; cbn; congruence).
      cbn [torn_next]. split; [cbn; rewrite !app_length, !put_length; cbn; lia|]. intros k. rewrite pool_at_new.
      replace (length (w_pools w1)) with (length (w_pools w)) by (unfold w1; cbn; now rewrite put_length).
      destruct (Nat.eqb_spec k (length (w_pools w))) as [->|Hk].
      - rewrite app_nth2 by (rewrite put_length; lia). rewrite put_length. replace (length (w_pools w) - length torn)%nat with O by lia. cbn [nth].
        rewrite <- Hpv. apply HT.
      - unfold w1. rewrite pool_at_put by exact Hjlt. destruct (Nat.eqb_spec k j) as [->|Hkj]; [split; [constructor|now left]|].
        destruct (Nat.lt_ge_cases k (length torn)).
        + rewrite app_nth1 by (now rewrite put_length). rewrite nth_put by lia. destruct (Nat.eqb_spec k j); [congruence|apply HT].
        + rewrite pool_at_none by lia. split; [constructor|now left]. }
    split; [discriminate|]. cbn. split; reflexivity.
  - (* MoveAssign *)
    destruct (Simple Logic.I) as (w' & evs & h' & Hs & Htr & Hr & I' & Hc). destruct HL as (Hi & Hj & Hij).
    destruct (Hpool i Hi) as (v & Hv & Hpv & Hilt). destruct (Hpool j Hj) as (v2 & Hv2 & Hpv2 & Hjlt).
    exists w', RNone, evs, h', (own_step (length alive) (OpMoveAssign i j) RNone own). split; [exact Hs|]. split; [exact Htr|]. split; [exact Hr|].
    split; [cbn; reflexivity|]. split; [exact I'|]. split; [exact Hc|]. split; [discriminate|]. split.
    { intros _. cbn [pool_step] in Hs. rewrite Hv, Hv2 in Hs. cbn [obind] in Hs. destruct (Nat.eqb_spec i j); [congruence|].
      set (w1 := {| w_pools := put i (Some v2) (w_pools w); w_fresh := w_fresh w; w_trace := w_trace w |}).
      assert (w' = {| w_pools := put j (Some {| v_elems := []; v_capacity := 0 |}) (w_pools w1); w_fresh := w_fresh w; w_trace := w_trace w ++ clear_events rd (v_elems v) |}) as -> by (unfold w1; cbn; congruence).
      cbn [torn_next]. split; [cbn; now rewrite !put_length|]. intros k. rewrite pool_at_put by (cbn; now rewrite put_length).
      rewrite nth_put by (rewrite put_length; lia). rewrite nth_put by lia.
      destruct (Nat.eqb_spec k j); [split; [constructor|now left]|]. unfold w1. rewrite pool_at_put by exact Hilt.
      destruct (Nat.eqb_spec k i); [rewrite <- Hpv2; apply HT|apply HT]. }
    split; [discriminate|]. cbn. split; reflexivity.
  - (* Destroy *)
    destruct (Simple Logic.I) as (w' & evs & h' & Hs & Htr & Hr & I' & Hc). destruct (Hpool i HL) as (v & Hv & Hpv & Hilt).
    exists w', RNone, evs, h', (own_step (length alive) (OpDestroy i) RNone own). split; [exact Hs|]. split; [exact Htr|]. split; [exact Hr|].
    split; [cbn; reflexivity|]. split; [exact I'|]. split; [exact Hc|]. split; [discriminate|]. split.
    { intros _. cbn [pool_step] in Hs. rewrite Hv in Hs. cbn [obind Pool_Clear snd] in Hs.
      assert (w_pools w' = put i None (w_pools w)) as Hw by (assert (E : w' = {| w_pools := put i None (w_pools w); w_fresh := w_fresh w; w_trace := w_trace w ++ clear_events rd (v_elems v) |}) by congruence; now rewrite E).
      cbn [torn_next]. split; [rewrite Hw; now rewrite !put_length|]. intros k. unfold pool_at. rewrite Hw, nth_error_put by exact Hilt. rewrite nth_put by lia.
      destruct (Nat.eqb_spec k i); [split; [constructor|now left]|apply HT]. }
    split; [discriminate|]. cbn. split; reflexivity.
Qed.

Lemma tidy0 : tidy [] pworld0.
Proof. split; [reflexivity|]. intros [|i]; (split; [constructor|now left]). Qed.

Lemma alive_next_length alive op r : length (alive_next alive op r) = pools_after (length alive) op.
Proof. destruct op, r; cbn; rewrite ?app_length, ?put_length; cbn; lia. Qed.

Lemma slots_returned_app a b : slots_returned (a ++ b) = slots_returned a ++ slots_returned b.
Proof. apply flat_map_app. Qed.

Lemma history_inv rd hs alive torn w : history rd hs alive torn w ->
  exists own h, attributed hs (length alive) own /\ inv (strip w) alive own h /\ tidy torn w /\
    heap_run rd heap0 (w_trace w) = Some h /\
    constructed (w_trace w) = slots_returned (map snd hs) /\ NoDup (slots_returned (map snd hs)).
Proof.
  induction 1 as [|hs alive torn w c w' r H IH HL HN Hs Hc].
  - exists (fun _ => None), heap0. split; [constructor|]. split; [exact inv0|]. split; [exact tidy0|]. split; [reflexivity|]. split; [reflexivity|constructor].
  - destruct IH as (own & h & HA & I & HT & Hr & Hcon & Hnd).
    destruct (mem_step rd w alive torn own h c I HT HL HN) as (w1 & r1 & evs & h1 & own1 & Hs1 & Htr & Hr1 & Hown & I1 & Hc1 & Hnew & HT1 & _).
    rewrite Hs in Hs1. assert (w1 = w') by congruence. assert (r1 = r) by congruence. subst w1 r1.
    exists own1, h1. split; [rewrite alive_next_length; now apply attributed_call with own|]. split; [exact I1|]. split; [auto|].
    split; [rewrite Htr, heap_run_app, Hr; exact Hr1|].
    assert (E : constructed (w_trace w') = slots_returned (map snd (hs ++ [(fst c, r)]))).
    { rewrite Htr. unfold constructed. rewrite flat_map_app. fold (constructed (w_trace w)). fold (constructed evs).
      rewrite Hcon, Hc1, map_app, slots_returned_app. reflexivity. }
    split; [exact E|]. rewrite map_app, slots_returned_app. apply NoDup_app; [exact Hnd| |].
    + destruct r; cbn; repeat constructor; intros [].
    + intros s H1 H2. destruct r as [|s'| |]; cbn in H2; try contradiction. destruct H2 as [->|[]].
      apply (Hnew s eq_refl). apply constructed_In. now rewrite Hcon.
Qed.

(** What the invariant says about the objects. *)
Lemma inv_facts rd w alive own h : inv (strip w) alive own h -> heap_run rd heap0 (w_trace w) = Some h -> NoDup (constructed (w_trace w)) ->
  (forall s, h_live h s = true <-> own s <> None) /\
  (forall s i, own s = Some i -> nth_error alive i = Some true /\ In s (constructed (w_trace w))) /\
  (Forall (fun b => b = false) alive -> forall b, h_buf h b = None) /\
  (rd = true -> forall s, times s (destroyed (w_trace w)) =
     (if in_dec slot_dec s (constructed (w_trace w)) then match own s with Some _ => 0 | None => 1 end else 0)%nat).
Proof.
  intros I Hr Hnd.
  assert (Hblk : forall i b s, In b (pool_at (strip w) i) -> b_buf b = Some (fst s) -> h_live h s = (snd s <? b_top b)).
  { intros i b s Hin E. pose proof (i_heap _ _ _ _ I i b Hin) as Hh. unfold heap_has in Hh. rewrite E in Hh. destruct s as [s1 s2]. apply Hh. }
  assert (Hlive : forall s, h_live h s = true <-> own s <> None).
  { intros s. split.
    - intros Hl. pose proof (i_live_only _ _ _ _ I s Hl) as Hb. destruct (i_heap_only _ _ _ _ I _ Hb) as (i & b & Hin & E).
      rewrite (Hblk i b s Hin E) in Hl. apply N.ltb_lt in Hl.
      assert (Ho : own s = Some i) by (apply (i_own _ _ _ _ I); exists b; auto). congruence.
    - intros Ho. destruct (own s) as [i|] eqn:E; [|congruence]. apply (i_own _ _ _ _ I) in E as (b & Hin & E & Hlt).
      rewrite (Hblk i b s Hin E). now apply N.ltb_lt. }
  split; [exact Hlive|].
  assert (Hmade : forall l h1 h2 s, heap_run rd h1 l = Some h2 -> h_live h2 s = true -> h_live h1 s = true \/ In s (constructed l)).
  { induction l as [|e l IH]; intros h1 h2 s Hrun Hs; cbn in Hrun; [left; congruence|].
    destruct (heap_step rd h1 e) as [h3|] eqn:E; [|discriminate]. destruct (IH h3 h2 s Hrun Hs) as [Hl|Hin].
    - destruct e as [b cap|x|x|b]; cbn [heap_step] in E.
      + destruct (h_buf h1 b); [discriminate|]. injection E as <-. now left.
      + destruct (h_buf h1 (fst x)); [|discriminate]. destruct (_ && _); [|discriminate]. injection E as <-. cbn in Hl.
        destruct (slot_eqb_spec s x) as [->|]; [right; now left|now left].
      + destruct (h_live h1 x); [|discriminate]. injection E as <-. cbn in Hl. destruct (slot_eqb s x); [discriminate|now left].
      + destruct (h_buf h1 b); [|discriminate]. destruct (_ && _); [discriminate|]. injection E as <-. cbn in Hl.
        destruct (Nat.eqb (fst s) b); [discriminate|now left].
    - right. unfold constructed in *. cbn. apply in_or_app. now right. }
  assert (Hgiven : forall s, h_live h s = true -> In s (constructed (w_trace w))).
  { intros s Hs. destruct (Hmade (w_trace w) heap0 h s Hr Hs) as [Hc|Hc]; [discriminate|]. exact Hc. }
  split. { intros s i Ho. split.
    - pose proof (proj1 (i_own _ _ _ _ I s i) Ho) as (b & Hin & _). apply (i_alive _ _ _ _ I). unfold pool_at in Hin.
      destruct (nth_error (w_pools (strip w)) i) as [[v|]|]; [eauto|contradiction|contradiction].
    - apply Hgiven, Hlive. congruence. }
  split. { intros Hdead b. destruct (h_buf h b) as [cap|] eqn:E; [|reflexivity]. exfalso.
    destruct (i_heap_only _ _ _ _ I b) as (i & blk & Hin & _); [congruence|]. unfold pool_at in Hin.
    destruct (nth_error (w_pools (strip w)) i) as [[v|]|] eqn:En; [|contradiction|contradiction].
    pose proof (proj2 (i_alive _ _ _ _ I i) (ex_intro _ v En)) as Ha. rewrite Forall_forall in Hdead.
    apply nth_error_In in Ha. specialize (Hdead _ Ha). discriminate. }
  intros -> s. destruct (heap_counts (w_trace w) heap0 h s Hr) as [Hcount _]; [discriminate|]. cbn [h_live heap0] in Hcount.
  specialize (Hlive s). specialize (Hgiven s).
  destruct (in_dec slot_dec s (constructed (w_trace w))) as [Hin|Hni].
  - assert (E : times s (constructed (w_trace w)) = 1%nat) by (now apply NoDup_count_occ'). rewrite E in Hcount.
    destruct (own s) as [k|] eqn:Ho.
    + rewrite (proj2 Hlive) in Hcount by discriminate. lia.
    + destruct (h_live h s); [exfalso; now apply (proj1 Hlive)|]. lia.
  - assert (E : times s (constructed (w_trace w)) = 0%nat) by (now apply count_occ_not_In). rewrite E in Hcount.
    destruct (h_live h s); [exfalso; auto|]. lia.
Qed.

(** With enough memory these are the calls of C31 and C32. *)
Theorem C109_enough_memory : forall rd w op, pool_step_mem rd w (op, plenty) = pool_step rd w op.
Proof.
  assert (Hemp : forall rd v b, emplace_back_mem rd None v b = (Some (emplace_back rd v b), None)) by (intros; unfold emplace_back_mem; now destruct (_ <? _)%nat).
  intros rd w op. destruct op as [|i throws|i j|i|j|i j|i]; try reflexivity; cbn [pool_step_mem pool_step fst snd].
  - destruct (get_pool w i) as [v| | | |]; try reflexivity. cbn [obind].
    assert (E : Pool_Alloc_mem rd throws plenty (w_fresh w) v = Pool_Alloc rd throws (w_fresh w) v).
    { unfold Pool_Alloc_mem, Pool_Alloc, back_Alloc. destruct (last_full v); [|reflexivity]. cbn [null_buffer growths plenty].
      destruct (Block_new _ _) as [tmp evs1]. rewrite Hemp. cbn [fst]. destruct (emplace_back rd v tmp) as [[v1 tmp'] evs2]. reflexivity. }
    now rewrite E.
  - destruct (get_pool w i) as [v| | | |]; try reflexivity. cbn [obind]. destruct (get_pool w j) as [v2| | | |]; try reflexivity. cbn [obind].
    destruct (Nat.eqb i j); [reflexivity|]. unfold Pool_Merge_mem, Pool_Merge. cbn [growths plenty].
    assert (E : forall l v, merge_loop_mem rd None v l = (merge_loop rd v l, false)).
    { induction l as [|b l IH]; intros u; [reflexivity|]. cbn [merge_loop_mem merge_loop]. rewrite Hemp.
      destruct (emplace_back rd u b) as [[v1 b'] evs]. rewrite IH. destruct (merge_loop rd v1 l) as [[v3 rest] evs']. reflexivity. }
    rewrite E. destruct (merge_loop rd v (v_elems v2)) as [[v1 rest] evs]. reflexivity.
Qed.

(** C109.  Memory runs out: wanted is that the pools throw and stay usable.  The code
    achieves that except in two situations.

    First: [aligned_alloc] returns a null pointer, which nobody checks.  Any program that
    allocates then constructs an object at address zero (plus an offset). *)
Theorem C109_null_buffer_refuted : exists cs, legal_run [] (map fst cs) /\
  (forall c, In c cs -> growths (snd c) = None) /\
  forall rd, pool_run_mem rd pworld0 cs = UB.
Proof.
  exists [(OpNew, plenty); (OpAlloc 0 false, {| null_buffer := true; growths := None |})].
  split; [cbn; auto|]. split; [intros c [<-|[<-|[]]]; reflexivity|]. intros []; reflexivity.
Qed.

(** Second: a [Merge] interrupted by [std::bad_alloc] leaves moved-from blocks in the
    pool it was taking from, with their old fill level; when a second [Merge] from there
    is interrupted behind such a block, the next [Alloc] of that target constructs an
    object in the buffer the block no longer has. *)
Definition torn_calls : list (pool_op * memory_left) :=
  let one i := [(OpNew, plenty); (OpAlloc i false, plenty)] in
  let short := {| null_buffer := false; growths := Some O |} in
  one 0%nat ++ one 1%nat ++ one 2%nat ++ one 3%nat ++ one 4%nat ++ one 5%nat ++ one 6%nat ++ one 7%nat ++
  [(OpMerge 1 2, plenty); (OpMerge 0 3, plenty); (OpMerge 0 4, plenty); (OpMerge 5 6, plenty); (OpMerge 5 7, plenty);
   (OpMerge 0 1, short); (OpMerge 5 1, short)].
Theorem C109_merge_refuted : exists cs w rs,
  legal_run [] (map fst cs) /\ (forall c, In c cs -> null_buffer (snd c) = false) /\
  pool_run_mem true pworld0 cs = Ok (w, rs) /\
  (forall m, pool_step_mem true w (OpAlloc 5 false, m) = UB) /\
  length (filter (fun r => match r with RThrow => true | _ => false end) rs) = 2%nat.
Proof.
  exists torn_calls. do 2 eexists. split; [vm_compute; repeat split; try reflexivity; discriminate|].
  split. { intros c Hc. repeat (destruct Hc as [<-|Hc]; [reflexivity|]). destruct Hc. }
  split; [vm_compute; reflexivity|]. split; [intros m; vm_compute; reflexivity|reflexivity].
Qed.

(** Otherwise nothing goes wrong: whatever calls could not get memory for their vector of
    blocks, every call on an existing pool is defined, the objects handed out are all
    different, they live exactly as long as somebody owns them, each is destroyed exactly
    once, nothing of a buffer is used before its allocation or after it was freed, and no
    buffer is left once all pools are gone.  With memory for the vectors nothing throws
    (except a constructor of the user's), and an [Alloc] that does not throw has made an
    object. *)
Theorem C109_bad_alloc_partial : forall rd hs alive torn w, history rd hs alive torn w ->
  (forall c, legal alive (fst c) -> null_buffer (snd c) = false ->
     exists w' r, pool_step_mem rd w c = Ok (w', r) /\
       (growths (snd c) = None -> good_result (fst c) r) /\
       (r <> RThrow -> good_result (fst c) r)) /\
  NoDup (slots_returned (map snd hs)) /\
  exists own h, attributed hs (length alive) own /\
    heap_run rd heap0 (w_trace w) = Some h /\
    (forall s, h_live h s = true <-> own s <> None) /\
    (forall s i, own s = Some i -> nth_error alive i = Some true /\ In s (slots_returned (map snd hs))) /\
    (Forall (fun b => b = false) alive -> forall b, h_buf h b = None) /\
    (rd = true -> forall s, times s (destroyed (w_trace w)) =
       (if in_dec slot_dec s (slots_returned (map snd hs)) then match own s with Some _ => 0 | None => 1 end else 0)%nat).
Proof.
  intros rd hs alive torn w H. destruct (history_inv rd hs alive torn w H) as (own & h & HA & I & HT & Hr & Hcon & Hnd).
  split.
  { intros c HL HN. destruct (mem_step rd w alive torn own h c I HT HL HN) as (w1 & r1 & evs & h1 & own1 & Hs1 & _ & _ & _ & _ & _ & _ & _ & _ & He).
    exists w1, r1. split; [exact Hs1|exact He]. }
  split; [exact Hnd|]. exists own, h. split; [exact HA|]. split; [exact Hr|].
  rewrite <- Hcon in *. now apply inv_facts.
Qed.

(** The same beginning, one interrupted merge, then ordinary use of both pools: more
    objects, a second merge of what is left, the end of all pools. *)
Definition legalb (alive : list bool) (op : pool_op) : bool :=
  let ok i := nth i alive false in
  match op with
  | OpNew => true
  | OpAlloc i _ | OpClear i | OpDestroy i => ok i
  | OpMoveNew j => ok j
  | OpMerge i j | OpMoveAssign i j => ok i && ok j && negb (Nat.eqb i j)
  end.
Definition carefulb (torn : list bool) (op : pool_op) (r : pool_result) : bool :=
  match op, r with OpMerge _ j, RThrow => negb (nth j torn false) | _, _ => true end.
Fixpoint run_history (rd : bool) (alive torn : list bool) (w : pworld) (cs : list (pool_op * memory_left)) : option (list (pool_op * pool_result) * list bool * list bool * pworld) :=
  match cs with
  | [] => Some ([], alive, torn, w)
  | c :: cs' =>
      match pool_step_mem rd w c with
      | Ok (w', r) =>
          if legalb alive (fst c) && negb (null_buffer (snd c)) && carefulb torn (fst c) r then
            match run_history rd (alive_next alive (fst c) r) (torn_next torn (fst c) r) w' cs' with
            | Some (hs, a, t, w2) => Some ((fst c, r) :: hs, a, t, w2)
            | None => None
            end
          else None
      | _ => None
      end
  end.
Lemma nth_alive i (alive : list bool) : nth i alive false = true -> nth_error alive i = Some true.
Proof. revert i; induction alive as [|b l IH]; intros [|i] H; cbn in *; try discriminate; [congruence|auto]. Qed.
Lemma legalb_ok alive op : legalb alive op = true -> legal alive op.
Proof.
  destruct op; cbn; auto using nth_alive; intros H; apply andb_prop in H as [H H3]; apply andb_prop in H as [H1 H2];
    (split; [now apply nth_alive|]; split; [now apply nth_alive|]; intros ->; now rewrite Nat.eqb_refl in H3).
Qed.
Lemma run_history_ok rd cs : forall hs alive torn w hs' a t w2, history rd hs alive torn w ->
  run_history rd alive torn w cs = Some (hs', a, t, w2) -> history rd (hs ++ hs') a t w2.
Proof.
  induction cs as [|c cs IH]; intros hs alive torn w hs' a t w2 H Hrun; cbn in Hrun.
  - injection Hrun as <- <- <- <-. now rewrite app_nil_r.
  - destruct (pool_step_mem rd w c) as [[w' r]| | | |] eqn:Es; try discriminate.
    destruct (legalb alive (fst c) && negb (null_buffer (snd c)) && carefulb torn (fst c) r) eqn:Hb; [|discriminate].
    apply andb_prop in Hb as [Hb H3]. apply andb_prop in Hb as [H1 H2].
    destruct (run_history rd (alive_next alive (fst c) r) (torn_next torn (fst c) r) w' cs) as [[[[h1 a1] t1] w1]|] eqn:Er; [|discriminate].
    injection Hrun as <- <- <- <-.
    replace (hs ++ (fst c, r) :: h1) with ((hs ++ [(fst c, r)]) ++ h1) by (now rewrite <- app_assoc).
    eapply IH; [|exact Er]. apply history_call with w; auto.
    + now apply legalb_ok.
    + now destruct (null_buffer (snd c)).
    + unfold careful, carefulb in *. destruct (fst c), r; auto. now destruct (nth j torn false).
Qed.

Definition survived_calls : list (pool_op * memory_left) :=
  let short := {| null_buffer := false; growths := Some O |} in
  removelast torn_calls ++
  [(OpNew, short); (OpAlloc 0 false, short); (OpAlloc 0 false, short); (OpAlloc 1 false, short); (OpAlloc 1 true, plenty); (OpAlloc 1 false, plenty);
   (OpMerge 0 1, plenty); (OpAlloc 0 false, plenty); (OpDestroy 0, plenty); (OpDestroy 1, plenty); (OpDestroy 5, plenty);
   (OpDestroy 2, plenty); (OpDestroy 3, plenty); (OpDestroy 4, plenty); (OpDestroy 6, plenty); (OpDestroy 7, plenty)].

Example C109_met : exists hs alive torn w, history true hs alive torn w /\
  Forall (fun b => b = false) alive /\
  length (filter (fun x => match snd x with RThrow => true | _ => false end) hs) = 4%nat /\
  (length (slots_returned (map snd hs)) > 8)%nat /\
  length (destroyed (w_trace w)) = length (slots_returned (map snd hs)).
Proof.
  destruct (run_history true [] [] pworld0 survived_calls) as [[[[hs a] t] w]|] eqn:E; [|vm_compute in E; discriminate].
  exists hs, a, t, w. split; [apply (run_history_ok true survived_calls [] [] [] pworld0 hs a t w (history_start true) E)|].
  vm_compute in E. injection E as <- <- <- <-. split; [repeat constructor|]. split; [reflexivity|]. split; [vm_compute; lia|reflexivity].
Qed.
