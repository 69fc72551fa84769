(** * Property C111: programs over pools and containers that run out of memory. *)
From Verif Require Import Base BaseLemmas ModelData ModelObject ModelPool ModelOom ModelStorage ModelFrames ModelClient ModelOomPool ModelOomClient SpecClient
  PropPool OomProofs PropFrames ClientProofs PropOom PropOomPool PropClient.
From Coq Require Import ZifyBool ZifyNat ZifyN.
Local Open Scope out_scope.

(** ** Specification *)

(** The calls that may throw, and when: creating a value (its constructor throws, or the
    pool cannot grow), creating a container, inserting (the pool cannot grow, or the key
    cannot be copied - the views of a [MapView] are never copied). *)
Definition may_throw (op : ccall) (x : trouble) : Prop :=
  match op with
  | CData _ _ _ => ctor_throws x = true \/ growths (lack x) <> None
  | CCont _ _ | CScratch _ _ => growths (lack x) <> None
  | CInsert _ key _ => growths (lack x) <> None \/ (key_throws x = true /\ exists l, key = OwnKey l)
  | _ => False
  end.

(** The calls that did not throw, and the answers there were. *)
Fixpoint calls_done (ops : list (ccall * trouble)) (rs : list (option canswer)) : list ccall :=
  match ops, rs with
  | o :: ops', r :: rs' => match r with Some _ => [fst o] | None => [] end ++ calls_done ops' rs'
  | _, _ => []
  end.
Fixpoint answers (rs : list (option canswer)) : list canswer :=
  match rs with [] => [] | r :: rs' => match r with Some a => [a] | None => [] end ++ answers rs' end.

(** ** One allocation in one object pool *)
Lemma alloc_step_case rd w i throws m : null_buffer m = false ->
  pool_step_mem rd w (OpAlloc i throws, m) = pool_step rd w (OpAlloc i throws) \/
  exists v n, growths m <> None /\ get_pool w i = Ok v /\
    pool_step_mem rd w (OpAlloc i throws, m) =
      Ok ({| w_pools := put i (Some v) (w_pools w); w_fresh := S (w_fresh w); w_trace := w_trace w ++ [EvBuffer (w_fresh w) n; EvFree (w_fresh w)] |}, RThrow).
Proof.
  intros HN. cbn [pool_step_mem pool_step fst snd]. destruct (get_pool w i) as [v| | | |] eqn:Ev; cbn [obind]; auto.
  unfold Pool_Alloc_mem, Pool_Alloc. destruct (last_full v).
  2:{ left. unfold back_Alloc. reflexivity. }
  rewrite HN. pose proof (next_capacity_range (length (v_elems v))) as Hr. unfold Block_new. destruct (N.ltb_spec 0 (next_capacity (length (v_elems v)))); [|lia].
  set (nb := {| b_buf := Some (w_fresh w); b_top := 0; b_cap := next_capacity (length (v_elems v)) |}).
  unfold emplace_back_mem. destruct (_ <? _)%nat; [left|destruct (growths m) as [[|n]|] eqn:Eg; [right|left|left]];
    try (cbn [fst]; destruct (emplace_back rd v nb) as [[v1 tmp'] evs2]; unfold back_Alloc; reflexivity).
  exists v, (next_capacity (length (v_elems v))). split; [discriminate|]. split; [reflexivity|]. cbn [fst obind].
  replace (Block_dtor rd nb) with [EvFree (w_fresh w)] by (unfold Block_dtor, destructor_proxy; cbn; now destruct rd). reflexivity.
Qed.

(** ** One allocation in a BridgePool *)

(** The same memory, seen member by member. *)
Definition weq (w w' : client) : Prop := (forall k, k_pools w k = k_pools w' k) /\ k_mem w = k_mem w' /\ k_vars w = k_vars w'.

Lemma weq_refl w : weq w w.
Proof. repeat split. Qed.

Lemma members_alloc_throw w alive owns i k m th : PI (k_pools w) alive owns -> null_buffer m = false ->
  (th = true \/ exists p, pool_step_mem (require_destruct k) (k_pools w k) (OpAlloc i th, m) = Ok (p, RThrow)) ->
  (nth_error alive i <> Some true /\ pool_step_mem (require_destruct k) (k_pools w k) (OpAlloc i th, m) = UB) \/
  exists p, nth_error alive i = Some true /\ pool_step_mem (require_destruct k) (k_pools w k) (OpAlloc i th, m) = Ok (p, RThrow) /\
    (th = true \/ growths m <> None) /\ PI (set_pool k p (k_pools w)) alive owns /\ grows (k_pools w) (set_pool k p (k_pools w)).
Proof.
  intros P HN Hth. destruct (P k) as (h & I & Hr).
  assert (Done : forall p evs h', w_trace p = w_trace (k_pools w k) ++ evs -> heap_run (require_destruct k) h evs = Some h' -> inv p alive (owns k) h' ->
    PI (set_pool k p (k_pools w)) alive owns /\ grows (k_pools w) (set_pool k p (k_pools w))).
  { intros p evs h' Ht Hh I'. split; intros k'; unfold set_pool; destruct (cls_eqb_spec k' k) as [->|_].
    - exists h'. split; [exact I'|]. now rewrite Ht, heap_run_app, Hr.
    - apply P.
    - eauto.
    - exists []. now rewrite app_nil_r. }
  destruct (alloc_step_case (require_destruct k) (k_pools w k) i th m HN) as [E|(v & n & Hg & Hv & E)].
  - rewrite E in Hth |- *.
    assert (HLD : legal alive (OpAlloc i th) \/ ~ legal alive (OpAlloc i th)).
    { cbn. destruct (nth_error alive i) as [[]|]; [now left|right; congruence|right; congruence]. }
    destruct HLD as [HL|HL]; [|left; split; [exact HL|exact (illegal_UB _ _ _ _ _ _ I HL)]].
    right. destruct (step_ok (require_destruct k) _ _ _ _ _ I HL) as (p & r & h' & evs & Hs & Ht & Hh & Hg & _ & _ & I').
    assert (Er : r = RThrow).
    { destruct Hth as [->|(p' & Hp')]; [exact Hg|]. congruence. }
    assert (Eth : th = true).
    { destruct th; [reflexivity|]. destruct Hg as (s & Hg). congruence. }
    subst r. exists p. split; [exact HL|]. split; [exact Hs|]. split; [now left|]. eapply Done; eauto.
  - right. assert (HL : nth_error alive i = Some true).
    { unfold get_pool in Hv. destruct (nth_error (w_pools (k_pools w k)) i) as [[v0|]|] eqn:En; try discriminate. apply (i_alive _ _ _ _ I). eauto. }
    eexists. split; [exact HL|]. split; [exact E|]. split; [now right|].
    assert (HA : alive_ok alive (k_pools w k)) by (split; apply I).
    assert (Hpv : pool_at (k_pools w k) i = v_elems v /\ (i < length (w_pools (k_pools w k)))%nat).
    { unfold get_pool in Hv. unfold pool_at. destruct (nth_error (w_pools (k_pools w k)) i) as [[v0|]|] eqn:En; try discriminate. split; [congruence|]. apply nth_error_Some. congruence. }
    edestruct (inv_passing (require_destruct k) (k_pools w k) {| w_pools := put i (Some v) (w_pools (k_pools w k)); w_fresh := S (w_fresh (k_pools w k));
      w_trace := w_trace (k_pools w k) ++ [EvBuffer (w_fresh (k_pools w k)) n; EvFree (w_fresh (k_pools w k))] |} alive (owns k) h) as (h' & Hrun & I').
    + exact I.
    + now apply alive_put.
    + intros x. rewrite pool_at_put by apply Hpv. destruct (Nat.eqb_spec x i) as [->|]; [symmetry; apply Hpv|reflexivity].
    + reflexivity.
    + reflexivity.
    + eapply Done; [reflexivity|exact Hrun|exact I'].
Qed.

(** With enough memory and no exception, the allocation of C101; else nothing but the
    pool itself changes, and all objects stay. *)
Lemma alloc_mem_case w alive owns i k c m th : PI (k_pools w) alive owns -> null_buffer m = false ->
  ores (fun x y => snd x = Some (snd y) /\ weq (fst x) (fst y)) (alloc_mem w i k c m th) (alloc w i k c) \/
  exists ps, alloc_mem w i k c m th = Ok ({| k_pools := ps; k_mem := k_mem w; k_vars := k_vars w |}, None) /\ nth_error alive i = Some true /\
    (th = true \/ growths m <> None) /\ PI ps alive owns /\ grows (k_pools w) ps.
Proof.
  intros P HN.
  assert (Throw : (th = true \/ exists p, pool_step_mem (require_destruct k) (k_pools w k) (OpAlloc i th, m) = Ok (p, RThrow)) ->
    ores (fun x y => snd x = Some (snd y) /\ weq (fst x) (fst y)) (alloc_mem w i k c m th) (alloc w i k c) \/
    exists ps, alloc_mem w i k c m th = Ok ({| k_pools := ps; k_mem := k_mem w; k_vars := k_vars w |}, None) /\ nth_error alive i = Some true /\
      (th = true \/ growths m <> None) /\ PI ps alive owns /\ grows (k_pools w) ps).
  { intros Hth. destruct (members_alloc_throw w alive owns i k m th P HN Hth) as [(Hi & E)|(p & Hi & E & Hw & P' & Hgr)].
    - left. unfold alloc_mem. cbn [bp_step_mem reached bp_each call_of]. rewrite E. rewrite (alloc_UB w _ owns i k c P Hi). constructor.
    - right. exists (set_pool k p (k_pools w)). split; [|auto]. unfold alloc_mem. cbn [bp_step_mem reached bp_each call_of]. now rewrite E. }
  destruct th; [apply Throw; now left|].
  destruct (alloc_step_case (require_destruct k) (k_pools w k) i false m HN) as [E|(v & n & Hg & Hv & E)]; [|apply Throw; eauto].
  left. destruct (nth_error alive i) as [[]|] eqn:Hi.
  2,3: rewrite (alloc_UB w alive owns i k c P ltac:(congruence)); unfold alloc_mem; cbn [bp_step_mem reached bp_each call_of]; rewrite E;
    destruct (P k) as (h & I & _); rewrite (illegal_UB _ _ _ _ _ (OpAlloc i false) I ltac:(cbn; congruence)); constructor.
  destruct (P k) as (h & I & Hr). destruct (step_ok (require_destruct k) _ _ _ _ (OpAlloc i false) I Hi) as (p & r & h' & evs & Hs & Ht & Hh & (s & ->) & _ & _ & I').
  destruct (members_ok (BpAlloc i k false) members ClientProofs.members_nodup (k_pools w)
     (fun k' => if cls_eqb k' k then p else k_pools w k') (fun k' => if cls_eqb k' k then [RSlot s] else [])) as (ps & Hb & H1 & _).
  { intros k' _. rewrite member_ops_eq. destruct (cls_eqb_spec k' k) as [->|_]; [|reflexivity]. now rewrite pool_run_one, Hs. }
  unfold alloc, bp_do. rewrite Hb. cbn [obind k_mem k_vars k_pools].
  replace (flat_map (fun k' => if cls_eqb k' k then [RSlot s] else []) members) with [RSlot s] by (destruct k; reflexivity).
  unfold alloc_mem. cbn [bp_step_mem reached bp_each call_of]. rewrite E, Hs. cbn [obind]. constructor. cbn [fst snd].
  split; [reflexivity|]. split; [|split; reflexivity]. intros k'. cbn [k_pools]. rewrite (H1 k' (ClientProofs.members_all k')). reflexivity.
Qed.

(** ** The calls see the pools member by member *)
Definition oweq : outcome client -> outcome client -> Prop := ores weq.

Lemma touchable_weq w w' a : weq w w' -> touchable w a = touchable w' a.
Proof. intros (H & _). unfold touchable. now rewrite H. Qed.
Lemma fetch_weq w w' a : weq w w' -> fetch w a = fetch w' a.
Proof. intros H. unfold fetch. rewrite (touchable_weq w w' a H). destruct H as (_ & -> & _). reflexivity. Qed.
Lemma get_cont_weq w w' a : weq w w' -> get_cont w a = get_cont w' a.
Proof. intros H. unfold get_cont. now rewrite (fetch_weq w w' a H). Qed.
Lemma get_item_weq w w' a : weq w w' -> get_item w a = get_item w' a.
Proof. intros H. unfold get_item. now rewrite (fetch_weq w w' a H). Qed.
Lemma store_weq w w' a c : weq w w' -> oweq (store w a c) (store w' a c).
Proof.
  intros H. unfold store. rewrite (touchable_weq w w' a H). destruct (touchable w' a); constructor.
  destruct H as (H1 & H2 & H3). repeat split; cbn; [exact H1|now rewrite H2|exact H3].
Qed.

Lemma rel_weq w w' st owns G t : weq w w' -> rel w' st owns G t -> rel w st owns G t.
Proof.
  intros (Hk & Hm & Hv) [RP RL RG RV RM RO RD]. split; rewrite ?Hv; auto.
  - intros k. rewrite Hk. apply RP.
  - intros a Ha. unfold made. rewrite Hk. now apply RM.
  - intros n a o g Ha Ho Hg. destruct (RO n a o g Ha Ho Hg) as (H1 & H2 & H3). split; [exact H1|]. split; [exact H2|]. rewrite Hm, Hv.
    destruct (so_content o); [exact H3|]. destruct H3 as (ik & last & A1 & A2 & A3 & A4 & A5 & A6). exists ik, last. repeat split; auto.
    intros s Hs. unfold made. rewrite Hk. now apply A5.
Qed.

(** What follows the allocation in [Insert], with its results. *)
Lemma insert_tail_weq w w' a ik p s key v : weq w w' ->
  ores (fun x y => snd x = Some (snd y) /\ weq (fst x) (fst y))
    (w2 <- store w (ik, s) (CellItem (if cls_eqb ik KArrayItem then OwnKey [] else key) v None) ;;
     '(_, _, last, size) <- get_cont w2 a ;;
     w3 <- match last with
           | None => Ok w2
           | Some _ => '(key', v', _) <- get_item w2 (ik, s) ;; store w2 (ik, s) (CellItem key' v' last)
           end ;;
     w4 <- store w3 a (CellCont p (Some s) (u64 (size + 1))) ;;
     Ok (w4, Some AnNone))
    ('w4 <- (w2 <- store w' (ik, s) (CellItem (if cls_eqb ik KArrayItem then OwnKey [] else key) v None) ;;
     '(_, _, last, size) <- get_cont w2 a ;;
     w3 <- match last with
           | None => Ok w2
           | Some _ => '(key', v', _) <- get_item w2 (ik, s) ;; store w2 (ik, s) (CellItem key' v' last)
           end ;;
     store w3 a (CellCont p (Some s) (u64 (size + 1)))) ;; Ok (w4, AnNone)).
Proof.
  intros H. destruct (store_weq w w' (ik, s) (CellItem (if cls_eqb ik KArrayItem then OwnKey [] else key) v None) H) as [w2 w2' H2| |]; cbn [obind]; try constructor.
  rewrite (get_cont_weq _ _ a H2). destruct (get_cont w2' a) as [[[[x y] last] size]| | | |] eqn:Eg; cbn [obind]; try constructor.
  2,3: exfalso; unfold get_cont, fetch in Eg; destruct (touchable w2' a); [|discriminate]; destruct (k_mem w2' (fst a) (snd a)) as [[]|]; try discriminate; cbn in Eg; destruct (item_cls (fst a)); discriminate.
  assert (H3 : oweq (match last with None => Ok w2 | Some _ => '(key', v', _) <- get_item w2 (ik, s) ;; store w2 (ik, s) (CellItem key' v' last) end)
                    (match last with None => Ok w2' | Some _ => '(key', v', _) <- get_item w2' (ik, s) ;; store w2' (ik, s) (CellItem key' v' last) end)).
  { destruct last as [l|]; [|now constructor]. rewrite (get_item_weq _ _ (ik, s) H2). destruct (get_item w2' (ik, s)) as [[[k' v'] n]| | | |] eqn:Ei; cbn [obind]; try constructor.
    - now apply store_weq.
    - exfalso. unfold get_item, fetch in Ei. destruct (touchable w2' (ik, s)); [|discriminate]. cbn in Ei. destruct (k_mem w2' ik s) as [[]|]; discriminate.
    - exfalso. unfold get_item, fetch in Ei. destruct (touchable w2' (ik, s)); [|discriminate]. cbn in Ei. destruct (k_mem w2' ik s) as [[]|]; discriminate. }
  destruct H3 as [w3 w3' H3| |]; cbn [obind]; try constructor.
  destruct (store_weq w3 w3' a (CellCont p (Some s) (u64 (size + 1))) H3) as [w4 w4' H4| |]; cbn [obind]; constructor. cbn. auto.
Qed.

(** ** One call *)
Lemma rel_grown w st owns G t ps : rel w st owns G t -> PI ps (st_alive st) owns -> grows (k_pools w) ps ->
  rel {| k_pools := ps; k_mem := k_mem w; k_vars := k_vars w |} st owns G (t + 1).
Proof.
  intros R P' Hgr. apply rel_t with t; [|lia]. destruct R as [RP RL RG RV RM RO RD].
  assert (Hmade : forall k s, made (k_pools w) k s -> made ps k s).
  { intros k s H. unfold made in *. destruct (Hgr k) as (evs & ->). apply in_or_app. now left. }
  split; cbn; auto. intros n a o g Ha Ho Hg. destruct (RO n a o g Ha Ho Hg) as (H1 & H2 & H3). split; [exact H1|]. split; [exact H2|]. cbn.
  destruct (so_content o); [exact H3|]. destruct H3 as (ik & last & A1 & A2 & A3 & A4 & A5 & A6). exists ik, last. repeat split; auto.
Qed.

Definition sstep (w : client) (st : sstate) (t : N) (op : ccall) (x : trouble) : Prop :=
  ores (fun p q => snd p = Some (snd q) /\ weq (fst p) (fst q)) (cl_step_mem w op x) (cl_step w op) \/
  exists w' y owns' G', cl_step_mem w op x = Ok (w', None) /\ spec_step st op = Ok y /\ may_throw op x /\
    rel w' st owns' G' (t + 1) /\ k_vars w' = k_vars w.

Lemma ores_refl (o : outcome (client * canswer)) : match o with Ok _ | UB | Fuel => True | _ => False end ->
  ores (fun p q => snd p = Some (snd q) /\ weq (fst p) (fst q)) ('(w', a) <- o ;; Ok (w', Some a)) o.
Proof. destruct o as [[w a]| | | |]; cbn [obind]; try contradiction; intros _; constructor. cbn. split; [reflexivity|apply weq_refl]. Qed.

Lemma exists_alive st i : nth_error (st_alive st) i = Some true -> exists_pool st i = true.
Proof. apply exists_pool_spec. Qed.

Lemma create_mem_case w st owns G t i k c m th sc : rel w st owns G t -> null_buffer m = false ->
  ores (fun p q => snd p = Some (snd q) /\ weq (fst p) (fst q)) (create_mem w i k c m th) (create w i k c) \/
  exists w' y owns' G', create_mem w i k c m th = Ok (w', None) /\ (st' <- make st i k sc ;; Ok (st', SaNone)) = Ok y /\
    (th = true \/ growths m <> None) /\ rel w' st owns' G' (t + 1) /\ k_vars w' = k_vars w.
Proof.
  intros R HN. pose proof (r_pools _ _ _ _ _ R) as P. unfold create_mem, create.
  destruct (alloc_mem_case w _ owns i k c m th P HN) as [H|(ps & E & Hi & Hth & P' & Hgr)].
  - left. destruct H as [[w1 r] [w1' s] (E & H)| |]; cbn [obind]; try constructor. cbn [fst snd] in *. subst r. constructor. cbn.
    split; [reflexivity|]. destruct H as (H1 & H2 & H3). repeat split; cbn; [exact H1|exact H2|now rewrite H3].
  - right. rewrite E. cbn [obind]. eexists _, _, owns, G. split; [reflexivity|]. split.
    { unfold make, only. rewrite (exists_alive st i Hi). reflexivity. }
    split; [exact Hth|]. split; [|reflexivity]. now apply rel_grown.
Qed.

Lemma step_mem_case w st owns G t op x : rel w st owns G t -> t + 1 < W64 -> null_buffer (lack x) = false -> sstep w st t op x.
Proof.
  intros R Ht HN. pose proof (r_pools _ _ _ _ _ R) as P.
  assert (Hdef : match cl_step w op with Ok _ | UB | Fuel => True | _ => False end).
  { destruct (step_ok_client w st owns G t op R Ht); exact I. }
  unfold sstep. destruct op as [op|i v d|i k|i k|c key v|j c key v|c|um c key|c|c n|um c key|c|d|d y|depth c];
    try (left; cbn [cl_step_mem]; apply ores_refl; exact Hdef).
  - (* data *)
    cbn [cl_step_mem cl_step spec_step may_throw]. apply create_mem_case with owns G; [exact R|exact HN].
  - (* container *)
    cbn [cl_step_mem cl_step spec_step may_throw]. destruct (item_cls k) as [ik|] eqn:Eik; [|left; constructor].
    destruct (create_mem_case w st owns G t i k (CellCont i None 0) (lack x) false (SCont []) R HN) as [H|(w' & y & o' & G' & H1 & H2 & [H3|H3] & H4)]; [now left|discriminate|].
    right. exists w', y, o', G'. split; [exact H1|]. split; [destruct k; try discriminate Eik; exact H2|]. auto.
  - (* scratch *)
    cbn [cl_step_mem cl_step spec_step may_throw].
    destruct (alloc_mem_case w _ owns i k (CellItem (OwnKey []) None None) (lack x) false P HN) as [H|(ps & E & Hi & [Hth|Hth] & P' & Hgr)]; [|discriminate|].
    + left. destruct H as [[w1 r] [w1' s] (E & H)| |]; cbn [obind]; try constructor. cbn [fst snd] in *. subst r. split; [reflexivity|exact H].
    + right. rewrite E. cbn [obind option_map]. eexists _, _, owns, G. split; [reflexivity|]. split.
      { unfold only. rewrite (exists_alive st i Hi). reflexivity. }
      split; [exact Hth|]. split; [now apply rel_grown|reflexivity].
  - (* insert *)
    cbn [cl_step_mem may_throw]. destruct (var w c) as [a| | | |] eqn:Ev; cbn [obind] in Hdef |- *.
    2,3,4,5: unfold var in Ev; destruct (nth_error (k_vars w) c) eqn:Ec; try discriminate.
    2: left; cbn [cl_step]; unfold var; rewrite Ec; constructor.
    destruct (var_opt w v) as [v'| | | |] eqn:Ev'; cbn [obind].
    2,3,4,5: destruct v as [n|]; cbn in Ev'; try discriminate; unfold var in Ev'; destruct (nth_error (k_vars w) n) eqn:En; try discriminate.
    2: left; cbn [cl_step]; rewrite Ev; cbn [obind var_opt]; unfold var; rewrite En; constructor.
    assert (Estep : cl_step w (CInsert c key v) = (w' <- cl_Insert w a key v' ;; Ok (w', AnNone))) by (cbn [cl_step]; rewrite Ev, Ev'; reflexivity).
    rewrite Estep in Hdef |- *. unfold cl_Insert_mem. destruct (get_cont w a) as [[[[ik p] last] size]| | | |] eqn:Eg; cbn [obind].
    2,3,4,5: left; unfold cl_Insert in *; rewrite Eg in *; cbn [obind] in *; try contradiction; constructor.
    destruct (key_fits ik key) eqn:Ekf; cbn [negb].
    2: left; unfold cl_Insert; rewrite Eg; cbn [obind]; rewrite Ekf; constructor.
    (* when the pool is there, the specification is defined *)
    assert (Hspec : nth_error (st_alive st) p = Some true -> exists y, spec_step st (CInsert c key v) = Ok y).
    { intros Hp. assert (Hg : touchable w a = true /\ k_mem w (fst a) (snd a) = Some (CellCont p last size) /\ item_cls (fst a) = Some ik).
      { unfold get_cont, fetch in Eg. destruct (touchable w a); [|discriminate]. destruct (k_mem w (fst a) (snd a)) as [[| |]|]; try discriminate. cbn [obind] in Eg.
        destruct (item_cls (fst a)); try discriminate. split; [reflexivity|]. split; congruence. }
      destruct Hg as (Ht1 & Hm & Hik). apply (PI_live w _ owns a P) in Ht1.
      assert (Hma : made (k_pools w) (fst a) (snd a)).
      { apply R. unfold var in Ev. destruct (nth_error (k_vars w) c) as [b|] eqn:Eb; [|discriminate]. assert (b = a) by congruence. subst. eapply nth_error_In; exact Eb. }
      destruct (insert_eval w _ owns a key v' ik p last size P Hp Ht1 Hma Hik Ekf Hm) as (ps & s & mem' & Hins & _).
      pose proof (step_ok_client w st owns G t (CInsert c key v) R Ht) as HS. rewrite Estep, Hins in HS. cbn [obind] in HS. inversion HS; eauto. }
    destruct (alloc_mem_case w _ owns p ik (CellItem (OwnKey []) None None) (lack x) false P HN) as [H|(ps & E & Hi & [Hth|Hth] & P' & Hgr)]; [|discriminate|].
    + (* the item is made *)
      destruct (alloc w p ik (CellItem (OwnKey []) None None)) as [[w1' s]| | | |] eqn:Eal.
      2,3,4,5: left; unfold cl_Insert; rewrite Eg; cbn [obind]; rewrite Ekf; cbn [negb]; rewrite Eal; inversion H; cbn [obind]; constructor.
      inversion H as [[w1 r] q (E & Hw) Eq1 Eq2| |]; subst q. cbn [fst snd] in *. subst r. cbn [obind].
      destruct (key_throws x && cls_eqb ik KMapItem) eqn:Ekt.
      * right. assert (Hp : nth_error (st_alive st) p = Some true).
        { destruct (nth_error (st_alive st) p) as [[]|] eqn:En; [reflexivity| |]; rewrite (alloc_UB w _ owns p ik _ P ltac:(congruence)) in Eal; discriminate. }
        destruct (Hspec Hp) as (y & Hy). apply andb_true_iff in Ekt as [Ekt Eik].
        pose proof (step_scratch w st owns G t p ik R) as HS. cbn [cl_step spec_step] in HS. rewrite Eal in HS. cbn [obind] in HS.
        unfold only in HS. rewrite (exists_alive st p Hp) in HS. cbn [obind] in HS. inversion HS as [? ? (o' & G' & R' & _ & _)| |]; subst. cbn [fst snd] in R'.
        exists w1, y, o', G'. split; [reflexivity|]. split; [exact Hy|].
        split; [right; split; [exact Ekt|]; destruct ik; try discriminate Eik; destruct key as [l|r]; [eauto|discriminate Ekf]|]. split; [exact (rel_weq _ _ _ _ _ _ Hw R')|].
        destruct Hw as (_ & _ & ->). destruct (alloc_ok w _ owns p ik (CellItem (OwnKey []) None None) P Hp) as (ps & s' & Hal & _). rewrite Hal in Eal. inversion Eal; subst. reflexivity.
      * left. unfold cl_Insert. rewrite Eg. cbn [obind]. rewrite Ekf. cbn [negb]. rewrite Eal. cbn [obind]. now apply insert_tail_weq.
    + right. rewrite E. cbn [obind]. destruct (Hspec Hi) as (y & Hy). eexists _, y, owns, G. split; [reflexivity|]. split; [exact Hy|]. split; [now left|].
      split; [now apply rel_grown|reflexivity].
Qed.

(** ** Programs *)
Lemma spec_run_app ops : forall ops2 st, spec_run st (ops ++ ops2) =
  ('(st1, r1) <- spec_run st ops ;; '(st2, r2) <- spec_run st1 ops2 ;; Ok (st2, r1 ++ r2)).
Proof.
  induction ops as [|op ops IH]; intros ops2 st; cbn [app spec_run obind].
  - destruct (spec_run st ops2) as [[st2 r2]| | | |]; reflexivity.
  - destruct (spec_step st op) as [[st1 a]| | | |]; cbn [obind]; try reflexivity. rewrite IH.
    destruct (spec_run st1 ops) as [[st2 r1]| | | |]; cbn [obind]; try reflexivity. destruct (spec_run st2 ops2) as [[st3 r2]| | | |]; reflexivity.
Qed.

Definition enough_buffers (ops : list (ccall * trouble)) : Prop := forall op x, In (op, x) ops -> null_buffer (lack x) = false.

Lemma answers_more vars e l sl : Forall2 (same_answer vars) l sl -> Forall2 (same_answer (vars ++ e)) l sl.
Proof. induction 1; constructor; auto using same_answer_more. Qed.

Lemma run_mem_ok ops : forall w st owns G t, rel w st owns G t -> t + len ops < W64 -> enough_buffers ops ->
  match cl_run_mem w ops with
  | Ok (w', rs) => length rs = length ops /\ Forall2 (fun o r => r = None -> may_throw (fst o) (snd o)) ops rs /\
      exists st' srs owns' G' t', spec_run st (calls_done ops rs) = Ok (st', srs) /\ Forall2 (same_answer (k_vars w')) (answers rs) srs /\
        rel w' st' owns' G' t' /\ t' <= t + len ops /\ exists e, k_vars w' = k_vars w ++ e
  | UB => exists before op x rest w' rs st' srs, ops = before ++ (op, x) :: rest /\ cl_run_mem w before = Ok (w', rs) /\
      spec_run st (calls_done before rs) = Ok (st', srs) /\ spec_step st' op = UB
  | Fuel => exists before op x rest w' rs st' srs, ops = before ++ (op, x) :: rest /\ cl_run_mem w before = Ok (w', rs) /\
      spec_run st (calls_done before rs) = Ok (st', srs) /\ spec_step st' op = Fuel
  | _ => False
  end.
Proof.
  induction ops as [|[op x] ops IH]; intros w st owns G t R Ht HB; cbn [cl_run_mem fst snd].
  { split; [reflexivity|]. split; [constructor|]. exists st, [], owns, G, t. cbn [calls_done spec_run answers]. split; [reflexivity|]. split; [constructor|]. split; [exact R|]. split; [unfold len; cbn [length]; lia|]. exists []. now rewrite app_nil_r. }
  assert (Hlen : len ((op, x) :: ops) = len ops + 1) by (unfold len; cbn [length]; lia).
  assert (HB' : enough_buffers ops) by (intros o y Hi; apply (HB o y); now right).
  assert (Step : forall w1 r1 st1 owns1 G1 cs sa, cl_step_mem w op x = Ok (w1, r1) -> rel w1 st1 owns1 G1 (t + 1) ->
     cs = match r1 with Some _ => [op] | None => [] end -> spec_run st cs = Ok (st1, sa) -> Forall2 (same_answer (k_vars w1)) (answers [r1]) sa ->
     (exists e, k_vars w1 = k_vars w ++ e) -> (r1 = None -> may_throw op x) ->
     match ('(w1, a) <- cl_step_mem w op x ;; '(w2, r) <- cl_run_mem w1 ops ;; Ok (w2, a :: r)) with
  | Ok (w', rs) => length rs = length ((op, x) :: ops) /\ Forall2 (fun o r => r = None -> may_throw (fst o) (snd o)) ((op, x) :: ops) rs /\
      exists st' srs owns' G' t', spec_run st (calls_done ((op, x) :: ops) rs) = Ok (st', srs) /\ Forall2 (same_answer (k_vars w')) (answers rs) srs /\
        rel w' st' owns' G' t' /\ t' <= t + len ((op, x) :: ops) /\ exists e, k_vars w' = k_vars w ++ e
  | UB => exists before op0 x0 rest w' rs st' srs, (op, x) :: ops = before ++ (op0, x0) :: rest /\ cl_run_mem w before = Ok (w', rs) /\
      spec_run st (calls_done before rs) = Ok (st', srs) /\ spec_step st' op0 = UB
  | Fuel => exists before op0 x0 rest w' rs st' srs, (op, x) :: ops = before ++ (op0, x0) :: rest /\ cl_run_mem w before = Ok (w', rs) /\
      spec_run st (calls_done before rs) = Ok (st', srs) /\ spec_step st' op0 = Fuel
  | _ => False
  end).
  { intros w1 r1 st1 owns1 G1 cs sa E R1 Hcs Hsp Hans (e & He) Hth. rewrite E. cbn [obind].
    specialize (IH w1 st1 owns1 G1 (t + 1) R1 ltac:(lia) HB').
    assert (Hdone : forall before rs st' srs, spec_run st1 (calls_done before rs) = Ok (st', srs) ->
       spec_run st (calls_done ((op, x) :: before) (r1 :: rs)) = Ok (st', sa ++ srs)).
    { intros before rs st' srs Hs. cbn [calls_done fst]. rewrite <- Hcs, spec_run_app, Hsp. cbn [obind]. now rewrite Hs. }
    destruct (cl_run_mem w1 ops) as [[w2 rs]| | | |] eqn:Er; cbn [obind]; try contradiction.
    - destruct IH as (I1 & I2 & st' & srs & owns' & G' & t' & I3 & I4 & I5 & I6 & e2 & He2). split; [cbn; now f_equal|].
      split; [constructor; [exact Hth|exact I2]|]. exists st', (sa ++ srs), owns', G', t'. split; [now apply Hdone|]. split.
      + replace (answers (r1 :: rs)) with (answers [r1] ++ answers rs) by (cbn [answers]; now rewrite app_nil_r).
        apply Forall2_app; [|exact I4]. rewrite He2. now apply answers_more.
      + split; [exact I5|]. split; [lia|]. exists (e ++ e2). now rewrite He2, He, app_assoc.
    - destruct IH as (before & op0 & x0 & rest & w' & rs & st' & srs & -> & Eb & Hs & Hu).
      exists ((op, x) :: before), op0, x0, rest, w', (r1 :: rs), st', (sa ++ srs). split; [reflexivity|]. split; [|split; [now apply Hdone|exact Hu]].
      cbn [cl_run_mem fst snd]. rewrite E. cbn [obind]. now rewrite Eb.
    - destruct IH as (before & op0 & x0 & rest & w' & rs & st' & srs & -> & Eb & Hs & Hu).
      exists ((op, x) :: before), op0, x0, rest, w', (r1 :: rs), st', (sa ++ srs). split; [reflexivity|]. split; [|split; [now apply Hdone|exact Hu]].
      cbn [cl_run_mem fst snd]. rewrite E. cbn [obind]. now rewrite Eb. }
  destruct (step_mem_case w st owns G t op x R ltac:(lia) (HB op x (or_introl eq_refl))) as [H|(w1 & y & owns' & G' & E & Hsp & Hm & R1 & Hv)].
  - pose proof (step_ok_client w st owns G t op R ltac:(lia)) as HS. inversion H as [[w1 r1] [w1' a] (Hr & Hw) Eq1 Eq2|Eq1 Eq2|Eq1 Eq2].
    + rewrite <- Eq2 in HS. inversion HS as [? [st1 sa] (owns1 & G1 & R1 & Ha & e & He) Eq3 Eq4| |]; subst. cbn [fst snd] in *. subst r1.
      destruct Hw as (Hw1 & Hw2 & Hw3).
      rewrite Eq1. apply (Step w1 (Some a) st1 owns1 G1 [op] [sa]); auto.
      * apply (rel_weq _ w1'); [|exact R1]. repeat split; auto.
      * cbn [spec_run]. rewrite <- Eq4. reflexivity.
      * cbn. rewrite Hw3. repeat constructor. exact Ha.
      * exists e. now rewrite Hw3.
      * discriminate.
    + cbn [obind]. rewrite <- Eq2 in HS. inversion HS. exists [], op, x, ops, w, [], st, []. repeat split; auto.
    + cbn [obind]. rewrite <- Eq2 in HS. inversion HS. exists [], op, x, ops, w, [], st, []. repeat split; auto.
  - apply (Step w1 None st owns' G' [] []); auto.
    + cbn. constructor.
    + exists []. now rewrite app_nil_r.
Qed.

(** C111.  A program that catches what its calls throw when memory runs out - a pool that
    cannot grow, a value whose constructor throws, a key that cannot be copied - and goes
    on, behaves as the specification of C101 says the calls that did not throw behave:
    those that threw have had no effect.  It is undefined only where the specification is.
    ([null_buffer]: that case is C109's.) *)
Theorem C111_programs : forall ops, len ops < W64 -> enough_buffers ops ->
  match cl_run_mem client0 ops with
  | Ok (w, rs) => length rs = length ops /\ NoDup (k_vars w) /\ Forall2 (fun o r => r = None -> may_throw (fst o) (snd o)) ops rs /\
      exists st srs, spec_run sstate0 (calls_done ops rs) = Ok (st, srs) /\ Forall2 (same_answer (k_vars w)) (answers rs) srs
  | UB => exists before op x rest w rs st srs, ops = before ++ (op, x) :: rest /\ cl_run_mem client0 before = Ok (w, rs) /\
      spec_run sstate0 (calls_done before rs) = Ok (st, srs) /\ spec_step st op = UB
  | Fuel => exists before op x rest w rs st srs, ops = before ++ (op, x) :: rest /\ cl_run_mem client0 before = Ok (w, rs) /\
      spec_run sstate0 (calls_done before rs) = Ok (st, srs) /\ spec_step st op = Fuel
  | _ => False
  end.
Proof.
  intros ops H HB. pose proof (run_mem_ok ops client0 sstate0 _ _ 0 rel0 ltac:(lia) HB) as HR.
  destruct (cl_run_mem client0 ops) as [[w rs]| | | |]; auto. destruct HR as (H1 & H2 & st & srs & owns & G & t & H3 & H4 & R & _).
  split; [exact H1|]. split; [apply R|]. split; [exact H2|]. eauto.
Qed.

(** C111, call by call: after a call that threw everything looks as before, and the same
    call with enough memory succeeds. *)
Theorem C111_no_effect : forall ops w rs op x w1, len ops + 2 < W64 -> enough_buffers (ops ++ [(op, x)]) ->
  cl_run_mem client0 ops = Ok (w, rs) -> cl_step_mem w op x = Ok (w1, None) ->
  may_throw op x /\ k_vars w1 = k_vars w /\
  (forall look w' a, looks look -> cl_step w look = Ok (w', a) -> cl_step w1 look = Ok (w1, a)) /\
  exists w2 a, cl_step_mem w1 op no_trouble = Ok (w2, Some a).
Proof.
  intros ops w rs op x w1 H HB E E1.
  assert (HB0 : enough_buffers ops) by (intros o y Hi; apply (HB o y), in_or_app; now left).
  pose proof (run_mem_ok ops client0 sstate0 _ _ 0 rel0 ltac:(lia) HB0) as HR. rewrite E in HR.
  destruct HR as (_ & _ & st & srs & owns & G & t & _ & _ & R & Ht & _).
  destruct (step_mem_case w st owns G t op x R ltac:(lia) (HB op x ltac:(apply in_or_app; right; now left))) as [H1|(w1' & y & owns' & G' & E1' & Hsp & Hm & R1 & Hv)].
  { rewrite E1 in H1. inversion H1 as [? ? (Hx & _)| |]; subst. discriminate Hx. }
  assert (w1' = w1) by congruence. subst w1'. split; [exact Hm|]. split; [exact Hv|]. split.
  - intros look w' a Hl El.
    pose proof (step_ok_client w st owns G t look R ltac:(lia)) as S1. rewrite El in S1.
    inversion S1 as [? [st2 sa2] (o2 & G2 & R2 & Ha2 & _) Eq1 Eq2| |]; subst. cbn [fst snd] in *.
    assert (w' = w) by (eapply looks_same; eauto). subst w'.
    pose proof (step_ok_client w1 st owns' G' (t + 1) look R1 ltac:(lia)) as S2. rewrite <- Eq2 in S2.
    inversion S2 as [[w3 a3] ? (o3 & G3 & R3 & Ha3 & _) Eq3 Eq4| |]; subst. cbn [fst snd] in *.
    assert (w3 = w1) by (eapply looks_same; eauto). subst w3. rewrite Hv in Ha3. now rewrite (answer_fun _ _ _ _ Ha3 Ha2).
  - destruct (step_mem_case w1 st owns' G' (t + 1) op no_trouble R1 ltac:(lia) eq_refl) as [H1|(w2 & y2 & o2 & G2 & _ & _ & Hm2 & _)].
    + pose proof (step_ok_client w1 st owns' G' (t + 1) op R1 ltac:(lia)) as S2. rewrite Hsp in S2. inversion S2 as [[w3 a3] ? _ Eq3 Eq4| |]; subst.
      rewrite <- Eq3 in H1. inversion H1 as [[w4 r4] ? (Hr & _) Eq5 Eq6| |]; subst. cbn [fst snd] in Hr. subst r4. eauto.
    + exfalso. destruct op; cbn in Hm2; try contradiction; try congruence; solve [destruct Hm2; congruence|destruct Hm2 as [Hm2|[Hm2 _]]; congruence].
Qed.

(** C111: exceptions are not swallowed.  A value whose constructor throws is reported, and so
    is a key a [Map] cannot copy. *)
Theorem C111_reported : forall ops w rs op x w1 r, len ops + 1 < W64 -> enough_buffers (ops ++ [(op, x)]) ->
  cl_run_mem client0 ops = Ok (w, rs) -> cl_step_mem w op x = Ok (w1, r) ->
  match op with
  | CData _ _ _ => ctor_throws x = true
  | CInsert c _ _ => key_throws x = true /\ exists s, nth_error (k_vars w) c = Some (KMap, s)
  | _ => False
  end -> r = None.
Proof.
  intros ops w rs op x w1 r H HB E E1 Hop.
  assert (HB0 : enough_buffers ops) by (intros o y Hi; apply (HB o y), in_or_app; now left).
  pose proof (run_mem_ok ops client0 sstate0 _ _ 0 rel0 ltac:(lia) HB0) as HR. rewrite E in HR.
  destruct HR as (_ & _ & st & srs & owns & G & t & _ & _ & R & Ht & _). pose proof (r_pools _ _ _ _ _ R) as P.
  assert (HN : null_buffer (lack x) = false) by (apply (HB op x), in_or_app; right; now left).
  destruct op as [op|i v d|i k|i k|c key v|j c key v|c|um c key|c|c n|um c key|c|d|d y|depth c]; try contradiction.
  - cbn [cl_step_mem] in E1. rewrite Hop in E1. unfold create_mem, alloc_mem in E1. cbn [bp_step_mem reached bp_each call_of] in E1.
    destruct (members_alloc_throw w _ owns i (if v then KDataView else KData) (lack x) true P HN (or_introl eq_refl)) as [(_ & Ea)|(p & _ & Ea & _)];
      rewrite Ea in E1; cbn [obind] in E1; [discriminate|]. congruence.
  - destruct Hop as (Hk & s & Hv). cbn [cl_step_mem] in E1. unfold var in E1 at 1. rewrite Hv in E1. cbn [obind] in E1.
    destruct (var_opt w v) as [v'| | | |]; try discriminate. cbn [obind] in E1. unfold cl_Insert_mem in E1.
    destruct (get_cont w (KMap, s)) as [[[[ik p] last] size]| | | |] eqn:Eg; try discriminate. cbn [obind] in E1.
    assert (ik = KMapItem).
    { unfold get_cont, fetch in Eg. cbn [fst snd item_cls] in Eg. destruct (touchable w (KMap, s)); [|discriminate].
      destruct (k_mem w KMap s) as [[| |]|]; try discriminate. cbn [obind] in Eg. congruence. }
    subst ik. destruct (negb _); [discriminate|]. destruct (alloc_mem w p KMapItem _ _ _) as [[w2 [s2|]]| | | |]; try discriminate; cbn [obind] in E1; [|congruence].
    rewrite Hk in E1. cbn [cls_eqb andb] in E1. congruence.
Qed.

(** C111 with enough memory: what C101 says. *)
Theorem C111_enough_memory : forall ops, len ops < W64 ->
  match cl_run_mem client0 (map (fun op => (op, no_trouble)) ops), spec_run sstate0 ops with
  | Ok (w, rs), Ok (_, srs) => exists as_, rs = map Some as_ /\ Forall2 (same_answer (k_vars w)) as_ srs
  | UB, UB | Fuel, Fuel => True
  | _, _ => False
  end.
Proof.
  assert (Hno : forall op, ~ may_throw op no_trouble).
  { intros op Hm. destruct op; cbn in Hm; try contradiction; try congruence; solve [destruct Hm; congruence|destruct Hm as [Hm|[Hm _]]; congruence]. }
  assert (Hall : forall ops rs, Forall2 (fun o r => r = None -> may_throw (fst o) (snd o)) (map (fun op => (op, no_trouble)) ops) rs ->
    exists as_, rs = map Some as_ /\ calls_done (map (fun op => (op, no_trouble)) ops) rs = ops /\ answers rs = as_).
  { induction ops as [|op ops IH]; intros rs HF; inversion HF as [|? r ? rs' Hr HF']; subst.
    - exists []. auto.
    - destruct (IH rs' HF') as (as_ & -> & Hd & Ha). cbn [fst snd] in Hr. destruct r as [a|]; [|exfalso; exact (Hno op (Hr eq_refl))].
      exists (a :: as_). split; [reflexivity|]. cbn [map calls_done answers fst app]. split; [now rewrite Hd|now rewrite Ha]. }
  intros ops H. set (tops := map (fun op => (op, no_trouble)) ops).
  assert (HB : enough_buffers tops) by (intros op x Hi; apply in_map_iff in Hi as (o & Eo & _); inversion Eo; reflexivity).
  assert (Hl : len tops < W64) by (unfold tops, len in *; now rewrite map_length).
  pose proof (run_mem_ok tops client0 sstate0 _ _ 0 rel0 ltac:(lia) HB) as HR. destruct (cl_run_mem client0 tops) as [[w rs]| | | |]; try contradiction.
  - destruct HR as (_ & HF & st & srs & owns & G & t & Hs & Hans & _). destruct (Hall ops rs HF) as (as_ & Hr & Hd & Ha). unfold tops in Hs. rewrite Hd in Hs. rewrite Hs.
    exists as_. split; [exact Hr|]. now rewrite <- Ha.
  - destruct HR as (before & op & x & rest & w & rs & st & srs & Eops & Eb & Hs & Hu).
    assert (Eb2 : exists b2 r2, ops = b2 ++ op :: r2 /\ before = map (fun op => (op, no_trouble)) b2).
    { unfold tops in Eops. apply map_eq_app in Eops as (b2 & r2 & -> & <- & Er). destruct r2 as [|o r2]; [discriminate|]. cbn in Er. exists b2, r2. split; [congruence|reflexivity]. }
    destruct Eb2 as (b2 & r2 & -> & ->). pose proof (run_mem_ok (map (fun op => (op, no_trouble)) b2) client0 sstate0 _ _ 0 rel0) as HR2.
    rewrite Eb in HR2. destruct HR2 as (_ & HF & _).
    { unfold len in *. rewrite map_length. rewrite app_length in H. lia. } { intros o y Hi. apply in_map_iff in Hi as (o' & Eo & _). inversion Eo. reflexivity. }
    destruct (Hall b2 rs HF) as (as_ & _ & Hd & _). rewrite Hd in Hs. rewrite spec_run_app, Hs. cbn [obind spec_run]. now rewrite Hu.
  - destruct HR as (before & op & x & rest & w & rs & st & srs & Eops & Eb & Hs & Hu).
    assert (Eb2 : exists b2 r2, ops = b2 ++ op :: r2 /\ before = map (fun op => (op, no_trouble)) b2).
    { unfold tops in Eops. apply map_eq_app in Eops as (b2 & r2 & -> & <- & Er). destruct r2 as [|o r2]; [discriminate|]. cbn in Er. exists b2, r2. split; [congruence|reflexivity]. }
    destruct Eb2 as (b2 & r2 & -> & ->). pose proof (run_mem_ok (map (fun op => (op, no_trouble)) b2) client0 sstate0 _ _ 0 rel0) as HR2.
    rewrite Eb in HR2. destruct HR2 as (_ & HF & _).
    { unfold len in *. rewrite map_length. rewrite app_length in H. lia. } { intros o y Hi. apply in_map_iff in Hi as (o' & Eo & _). inversion Eo. reflexivity. }
    destruct (Hall b2 rs HF) as (as_ & _ & Hd & _). rewrite Hd in Hs. rewrite spec_run_app, Hs. cbn [obind spec_run]. now rewrite Hu.
Qed.

(** A case: pool 0 was moved from, so its vectors must grow for the first block, and there
    is no memory; a constructor throws; a key is not copied; every call is then made again. *)
Definition short : trouble := {| lack := {| null_buffer := false; growths := Some O |}; ctor_throws := false; key_throws := false |}.
Definition bad_ctor : trouble := {| lack := plenty; ctor_throws := true; key_throws := false |}.
Definition bad_key : trouble := {| lack := plenty; ctor_throws := false; key_throws := true |}.
Definition sample_trouble : list (ccall * trouble) :=
  let k b := OwnKey [n2b b] in
  [(CPool BpNew, short); (CPool (BpMove 0), short);
   (CCont 0 KMap, short); (CCont 0 KMap, no_trouble);
   (CData 1 false (u32 7), bad_ctor); (CData 1 false (u32 7), no_trouble);
   (CInsert 0 (k 97) (Some 1%nat), short); (CInsert 0 (k 97) (Some 1%nat), bad_key); (CSize 0, bad_key);
   (CInsert 0 (k 97) (Some 1%nat), no_trouble);
   (CInsert 0 (k 98) None, bad_key); (CPool (BpMerge 0 1), short); (CView 4 0, short);
   (CLookup (fun _ => None) 0 [n2b 97], short); (CIterate 0, no_trouble)].
Example C111_met : len sample_trouble < W64 /\ enough_buffers sample_trouble /\
  (exists w, cl_run_mem client0 sample_trouble = Ok (w,
    [Some AnNone; Some AnNone; None; Some AnNone; None; Some AnNone; None; None; Some (AnNum 0); Some AnNone; None; Some AnNone;
     Some (AnView (OMap (PoolId 0) 1 [([n2b 97], data_of_num U32 7)])); Some (AnPtr (Some (KData, (0%nat, 0)))); Some (AnList [(OwnKey [n2b 97], Some (KData, (0%nat, 0)))])]) /\
    k_vars w = [(KMap, (1%nat, 0)); (KData, (0%nat, 0))]) /\
  (exists w w1 rs, cl_run_mem client0 (firstn 6 sample_trouble) = Ok (w, rs) /\ cl_step_mem w (CInsert 0 (OwnKey [n2b 97]) (Some 1%nat)) bad_key = Ok (w1, None)) /\
  cl_run_mem client0 (sample_trouble ++ [(CPool (BpDestroy 0), short); (CSize 0, short)]) = UB.
Proof.
  split; [vm_compute; reflexivity|]. split; [intros op x H; repeat (destruct H as [H|H]; [inversion H; subst; reflexivity|]); contradiction|].
  split; [eexists; split; vm_compute; reflexivity|]. split; [eexists _, _, _; split; vm_compute; reflexivity|]. vm_compute. reflexivity.
Qed.
