(** * Properties C101, C102, C103: programs using pools and containers together. *)
From Verif Require Import Base BaseLemmas ModelData ModelObject ModelPool ModelStorage ModelFrames ModelClient SpecClient PropPool PropFrames ClientProofs.
From Coq Require Import ZifyBool ZifyNat ZifyN.
Local Open Scope out_scope.

(** C101.  Every program over any number of pools, values, arrays, maps and map views -
    creating, inserting, clearing, taking out, overwriting, merging, moving, clearing and
    destroying pools in any order - behaves as the specification (SpecClient.v) says: it
    is undefined exactly where it looks at something whose home is gone (or breaks one of
    the plain rules there), and every answer before that is the specification's.  Pointers
    identify objects: those of different objects are different for ever. *)
Theorem C101_programs : forall ops, len ops < W64 ->
  match cl_run client0 ops, spec_run sstate0 ops with
  | Ok (w, rs), Ok (_, srs) => NoDup (k_vars w) /\ Forall2 (same_answer (k_vars w)) rs srs
  | UB, UB | Fuel, Fuel => True
  | _, _ => False
  end.
Proof.
  intros ops H. destruct (run_ok_client ops client0 sstate0 _ _ 0 rel0 ltac:(lia)) as [[w r] [st sr] ((owns & G & t & R & _) & Hr & _)| |]; auto.
  split; [apply R|exact Hr].
Qed.

(** ** What users conclude from it *)

(** After a defined program. *)
Lemma after ops w rs : len ops < W64 -> cl_run client0 ops = Ok (w, rs) ->
  exists st srs owns G t, spec_run sstate0 ops = Ok (st, srs) /\ rel w st owns G t /\ t <= len ops.
Proof.
  intros H E. destruct (run_ok_client ops client0 sstate0 _ _ 0 rel0 ltac:(lia)) as [[w' r] [st sr] ((owns & G & t & R & Ht) & Hr & _)| |]; try discriminate E.
  inversion E; subst. cbn [fst snd] in *. exists st, sr, owns, G, t. split; [reflexivity|]. split; [exact R|lia].
Qed.

Lemma cl_run_snoc ops op : forall w, cl_run w (ops ++ [op]) =
  ('(w1, rs) <- cl_run w ops ;; '(w2, a) <- cl_step w1 op ;; Ok (w2, rs ++ [a])).
Proof.
  induction ops as [|o ops IH]; intros w; cbn [app cl_run].
  - cbn [obind]. destruct (cl_step w op) as [[w2 a]| | | |]; reflexivity.
  - destruct (cl_step w o) as [[w1 a]| | | |]; cbn [obind]; try reflexivity. rewrite IH.
    destruct (cl_run w1 ops) as [[w2 rs]| | | |]; cbn [obind]; try reflexivity. destruct (cl_step w2 op) as [[w3 b]| | | |]; reflexivity.
Qed.

(** The calls that only look. *)
Definition looks (op : ccall) : Prop :=
  match op with CSize _ | CAt _ _ | CLookup _ _ _ | CIterate _ | CRead _ | CView _ _ => True | _ => False end.

Section Rehome.
  Variable f : nat -> option nat.
  Hypothesis Hf : forall h, f h <> None.
  Definition fe (e : entry) := {| en_key := en_key e; en_val := en_val e; en_home := ohome f (en_home e) |}.

  Lemma present_f h : present (ohome f h) = present h.
  Proof using Hf. destruct h as [h|]; cbn; [|reflexivity]. destruct (f h) eqn:E; [reflexivity|]. now apply Hf in E. Qed.

  Lemma goto_f l : forall k, goto k (map fe l) = goto k l.
  Proof using Hf. induction l as [|e l IH]; intros k; [reflexivity|]. change (goto k (map fe (e :: l))) with (if present (ohome f (en_home e)) then match k with O => Ok (en_val e) | S k' => goto k' (map fe l) end else UB). rewrite present_f. cbn [goto]. destruct (present (en_home e)), k; auto. Qed.
  Lemma seek_f um key l : seek um key (map fe l) = seek um key l.
  Proof using Hf. induction l as [|e l IH]; [reflexivity|]. change (seek um key (map fe (e :: l))) with (if present (ohome f (en_home e)) then kc <- key_content um (en_key e) ;; if bytes_eqb kc key then Ok (en_val e) else seek um key (map fe l) else UB). rewrite present_f, IH. reflexivity. Qed.
  Lemma see_all_f l : see_all (map fe l) = see_all l.
  Proof using Hf. induction l as [|e l IH]; [reflexivity|]. change (see_all (map fe (e :: l))) with (if present (ohome f (en_home e)) then r <- see_all (map fe l) ;; Ok ((en_key e, en_val e) :: r) else UB). rewrite present_f, IH. reflexivity. Qed.

  Variable st : sstate.
  Variable alive' : list bool.
  Let st' := {| st_alive := alive'; st_objs := rehome_all f (st_objs st) |}.

  Definition fo (o : sobj) : sobj :=
    {| so_cls := so_cls o; so_made := so_made o; so_home := ohome f (so_home o);
       so_content := match so_content o with SData x => SData x | SCont es => SCont (map fe es) end |}.
  Lemma the_obj_f n : the_obj st' n = (o <- the_obj st n ;; Ok (fo o)).
  Proof using Hf.
    unfold the_obj. subst st'. cbn [st_objs]. unfold rehome_all. rewrite nth_error_map. destruct (nth_error (st_objs st) n) as [o|]; cbn; [|reflexivity].
    fold (ohome f (so_home o)). rewrite present_f. destruct (present (so_home o)); reflexivity.
  Qed.

  Lemma see_tree_f d : forall n, see_tree d st' n = see_tree d st n.
  Proof using Hf.
    induction d as [|d IH]; intros n; cbn [see_tree]; [reflexivity|]. rewrite the_obj_f. destruct (the_obj st n) as [o| | | |]; cbn [obind]; try reflexivity.
    cbn [fo so_content so_cls so_made]. destruct (so_content o) as [x|l]; [reflexivity|]. rewrite see_all_f. unfold len. rewrite map_length. destruct (see_all l) as [ys| | | |]; cbn [obind]; try reflexivity.
    assert (E : see_children (see_tree d st') ys = see_children (see_tree d st) ys).
    { induction ys as [|[k [m|]] ys IHy]; cbn [see_children]; [reflexivity| |]; rewrite ?IH, IHy; reflexivity. }
    now rewrite E.
  Qed.

  (** Looking sees the same after everything has found a new home. *)
  Lemma looks_f op : looks op -> (forall a, spec_step st op = Ok (st, a) -> spec_step st' op = Ok (st', a)).
  Proof using Hf.
    destruct op; cbn [looks]; try contradiction; intros _ sa; cbn [spec_step]; rewrite ?the_obj_f.
    - destruct (the_obj st c) as [o| | | |]; try discriminate. cbn [obind]. unfold entries. cbn [fo so_content]. destruct (so_content o) as [x|l]; [discriminate|]. cbn [obind].
      intros E. inversion E. unfold len. now rewrite map_length.
    - destruct (the_obj st c) as [o| | | |]; try discriminate. cbn [obind]. unfold entries. cbn [fo so_content]. destruct (so_content o) as [x|l]; [discriminate|]. cbn [obind].
      change (is_array (fo o)) with (is_array o). destruct (is_array o); [|discriminate]. unfold len. rewrite map_length. destruct (_ <=? _).
      + intros E. now inversion E.
      + rewrite goto_f. destruct (goto _ l); try discriminate. cbn [obind]. intros E. now inversion E.
    - destruct (the_obj st c) as [o| | | |]; try discriminate. cbn [obind]. unfold entries. cbn [fo so_content]. destruct (so_content o) as [x|l]; [discriminate|]. cbn [obind].
      change (is_map (fo o)) with (is_map o). destruct (is_map o); [|discriminate]. rewrite seek_f. destruct (seek um key l); try discriminate. cbn [obind]. intros E. now inversion E.
    - destruct (the_obj st c) as [o| | | |]; try discriminate. cbn [obind]. unfold entries. cbn [fo so_content]. destruct (so_content o) as [x|l]; [discriminate|]. cbn [obind].
      rewrite see_all_f. destruct (see_all l); try discriminate. cbn [obind]. intros E. now inversion E.
    - destruct (the_obj st d) as [o| | | |]; try discriminate. cbn [obind]. unfold value. cbn [fo so_content]. destruct (so_content o) as [x|l]; [|discriminate]. cbn [obind].
      intros E. now inversion E.
    - unfold known. replace (length (st_objs st')) with (length (st_objs st)) by (unfold st', rehome_all; cbn [st_objs]; now rewrite map_length). destruct (_ <? _)%nat; [|discriminate].
      rewrite (see_tree_f depth c). destruct (see_tree depth st c); try discriminate. cbn [obind]. intros E. now inversion E.
  Qed.
End Rehome.

Lemma looks_same w op w' a : looks op -> cl_step w op = Ok (w', a) -> w' = w.
Proof.
  destruct op; cbn [looks]; try contradiction; intros _; cbn [cl_step]; unfold var; destruct (nth_error _ _) as [p|]; try discriminate; cbn [obind]; intros H;
  repeat match type of H with
  | obind ?x _ = _ => destruct x eqn:?; try discriminate H; cbn [obind] in H
  end; now inversion H.
Qed.
Lemma spec_looks_same st op st' a : looks op -> spec_step st op = Ok (st', a) -> st' = st.
Proof.
  destruct op; cbn [looks]; try contradiction; intros _; cbn [spec_step]; intros H;
  repeat match type of H with
  | obind ?x _ = _ => destruct x eqn:?; try discriminate H; cbn [obind] in H
  | (if ?x then _ else _) = _ => destruct x eqn:?; try discriminate H
  end; now inversion H.
Qed.

Lemma ptr_fun vars v a b : same_ptr vars a v -> same_ptr vars b v -> a = b.
Proof. destruct v; cbn; [intros [_ ->] [_ ->]; reflexivity|intros -> ->; reflexivity]. Qed.
Lemma answer_fun vars sa a b : same_answer vars a sa -> same_answer vars b sa -> a = b.
Proof.
  destruct sa, a, b; cbn; try contradiction; try congruence.
  - intros H1 H2. f_equal. eapply ptr_fun; eauto.
  - intros H1 H2. f_equal. revert l1 H2. induction H1 as [|[k1 v1] y l0 l' [Hk Hv] _ IH]; intros l1 H2; inversion H2 as [|[k2 v2] ? ? ? [Hk' Hv'] H2']; subst; [reflexivity|].
    cbn in *. subst. f_equal; [f_equal; eapply ptr_fun; eauto|]. auto.
Qed.

(** C101.  Merging a pool into another one, moving it, and making new pools change nothing
    anybody can see: whatever a call showed before, it shows afterwards. *)
Theorem C101_merge_invisible : forall ops w rs op w1 x look w' a,
  len ops + 2 < W64 -> cl_run client0 ops = Ok (w, rs) ->
  match op with BpMerge _ _ | BpMove _ | BpNew => True | _ => False end ->
  cl_step w (CPool op) = Ok (w1, x) -> looks look ->
  cl_step w look = Ok (w', a) -> cl_step w1 look = Ok (w1, a).
Proof.
  intros ops w rs op w1 x look w' a Hlen E Hop E1 Hl E2.
  destruct (after ops w rs ltac:(lia) E) as (st & srs & owns & G & t & _ & R & Ht).
  assert (S1 := step_ok_client w st owns G t (CPool op) R ltac:(lia)). rewrite E1 in S1.
  inversion S1 as [x1 y1 (owns1 & G1 & R1 & Ha1 & e1 & He1) Eq1 Eq2| |]. subst x1. destruct y1 as [st1 sa1]. cbn [fst snd] in *.
  assert (S2 := step_ok_client w st owns G t look R ltac:(lia)). rewrite E2 in S2.
  inversion S2 as [x2 y2 (owns2 & G2 & R2 & Ha2 & e2 & He2) Eq3 Eq4| |]. subst x2. destruct y2 as [st2 sa2]. cbn [fst snd] in *.
  assert (st2 = st) by (eapply spec_looks_same; [exact Hl|symmetry; exact Eq4]). subst st2.
  assert (w' = w) by (eapply looks_same; [exact Hl|exact E2]). subst w'.
  assert (Hst1 : exists f alive', (forall h, f h <> None) /\ st1 = {| st_alive := alive'; st_objs := rehome_all f (st_objs st) |}).
  { symmetry in Eq2. cbn [spec_step] in Eq2. destruct op as [| |i j| |j| |]; try contradiction; cbn [pool_call] in Eq2; unfold only in Eq2.
    - exists Some, (st_alive st ++ [true]). split; [discriminate|]. rewrite (rehome_same Some) by reflexivity. inversion Eq2. reflexivity.
    - destruct (_ && _); inversion Eq2. eexists _, _. split; [|reflexivity]. discriminate.
    - destruct (exists_pool st j); inversion Eq2. eexists _, _. split; [|reflexivity]. discriminate. }
  destruct Hst1 as (f & alive' & Hf & ->).
  pose proof (looks_f f Hf st alive' look Hl sa2 (eq_sym Eq4)) as Hs.
  assert (S3 := step_ok_client w1 _ owns1 G1 (t + 1) look R1 ltac:(lia)). rewrite Hs in S3.
  inversion S3 as [x3 y3 (owns3 & G3 & R3 & Ha3 & e3 & He3) Eq5 Eq6| |]. subst y3. destruct x3 as [w3 a3]. cbn [fst snd] in *. symmetry in Eq5.
  assert (w3 = w1) by (eapply looks_same; [exact Hl|exact Eq5]).
  subst w3. f_equal. f_equal.
  eapply answer_fun; [exact Ha3|]. rewrite He1. now apply same_answer_more.
Qed.

(** The pool and the class of every object a program made, in order. *)
Definition creations (ops : list ccall) : list (nat * cls) :=
  flat_map (fun op => match op with
    | CData i v _ => [(i, if v then KDataView else KData)]
    | CCont i k => [(i, k)]
    | _ => [] end) ops.
Definition container (k : cls) : bool := match k with KArray | KMap | KMapView => true | _ => false end.

(** What the specification's state says about them. *)
Definition made_ok (st : sstate) (cr : list (nat * cls)) : Prop :=
  map (fun o => (so_made o, so_cls o)) (st_objs st) = cr /\
  Forall (fun o => match so_content o with SData _ => container (so_cls o) = false | SCont _ => container (so_cls o) = true end) (st_objs st).

Lemma map_put {A B} (f : A -> B) n x l : map f (put n x l) = put n (f x) (map f l).
Proof. revert n. induction l as [|y l IH]; intros [|n]; cbn; [reflexivity|reflexivity|reflexivity|]. now rewrite IH. Qed.
Lemma Forall_put {A} (Q : A -> Prop) n x l : Forall Q l -> Q x -> Forall Q (put n x l).
Proof. intros H Hx. revert n. induction H as [|y l Hy Hl IH]; intros [|n]; cbn; constructor; auto. Qed.

Lemma the_obj_some st n o : the_obj st n = Ok o -> nth_error (st_objs st) n = Some o /\ so_home o <> None.
Proof.
  unfold the_obj. destruct (nth_error (st_objs st) n) as [o'|]; [|discriminate]. destruct (so_home o') eqn:E; [|discriminate]. cbn. intros H. inversion H; subst. split; [reflexivity|congruence].
Qed.

Lemma made_set st n o c cr : nth_error (st_objs st) n = Some o -> made_ok st cr ->
  match so_content o, c with SData _, SData _ | SCont _, SCont _ => True | _, _ => False end ->
  made_ok (set_obj n (with_content c o) st) cr.
Proof.
  intros Ho [H1 H2] Hc. unfold made_ok, set_obj. cbn [st_objs]. rewrite put_spec by (apply nth_error_Some; congruence). split.
  - rewrite map_put. cbn. rewrite put_same; [exact H1|]. rewrite nth_error_map, Ho. reflexivity.
  - apply Forall_put; [exact H2|]. pose proof (proj1 (Forall_forall _ _) H2 o (nth_error_In _ _ Ho)) as H. cbn in H |- *. destruct (so_content o), c; try contradiction; exact H.
Qed.

Lemma made_rehome f st cr alive' : made_ok st cr -> made_ok {| st_alive := alive'; st_objs := rehome_all f (st_objs st) |} cr.
Proof.
  intros [H1 H2]. split; cbn; unfold rehome_all.
  - rewrite map_map. cbn. exact H1.
  - apply Forall_map. eapply Forall_impl; [|exact H2]. intros o H. cbn in H |- *. destruct (so_content o); exact H.
Qed.

Lemma made_step st op st' a cr : made_ok st cr -> spec_step st op = Ok (st', a) -> made_ok st' (cr ++ creations [op]).
Proof.
  intros H E. destruct op; cbn [spec_step creations flat_map app] in E |- *; rewrite ?app_nil_r.
  - destruct (pool_call st op) as [st1| | | |] eqn:Ep; try discriminate E. cbn in E. inversion E; subst. clear E.
    destruct op; cbn [pool_call] in Ep; unfold only in Ep; try discriminate Ep;
      try (destruct (_ && _) in Ep; [|discriminate Ep]); try (destruct (exists_pool _ _) in Ep; [|discriminate Ep]); inversion Ep; subst; try (now apply made_rehome). exact H.
  - unfold make, only in E. destruct (exists_pool st i); [|discriminate E]. cbn in E. inversion E; subst. destruct H as [H1 H2]. split; cbn.
    + rewrite map_app, H1. reflexivity.
    + apply Forall_app. split; [exact H2|]. constructor; [|constructor]. cbn. now destruct v.
  - assert (E' : st'' <- make st i k (SCont []) ;; Ok (st'', SaNone) = Ok (st', a) /\ container k = true) by (destruct k; try discriminate E; auto).
    clear E. destruct E' as [E Ek]. unfold make, only in E. destruct (exists_pool st i); [|discriminate E]. cbn in E. inversion E; subst. destruct H as [H1 H2]. split; cbn.
    + rewrite map_app, H1. reflexivity.
    + apply Forall_app. split; [exact H2|]. constructor; [|constructor]. exact Ek.
  - unfold only in E. destruct (exists_pool st i); [|discriminate E]. cbn in E. inversion E; subst. exact H.
  - destruct (the_obj st c) as [o| | | |] eqn:Eo; try discriminate E. cbn in E. unfold entries in E. destruct (so_content o) eqn:Ec; [discriminate E|]. cbn in E.
    destruct (_ && _); [|discriminate E]. inversion E; subst. apply the_obj_some in Eo as [Eo _]. eapply made_set; eauto. now rewrite Ec.
  - destruct (the_obj st c) as [o| | | |] eqn:Eo; try discriminate E. cbn in E. unfold entries in E. destruct (so_content o) eqn:Ec; [discriminate E|]. cbn in E.
    destruct (_ && _); [|discriminate E]. destruct (see_all l); try discriminate E. cbn in E. destruct (exists_pool _ _); [|discriminate E].
    inversion E; subst. apply the_obj_some in Eo as [Eo _]. eapply made_set; eauto. now rewrite Ec.
  - destruct (the_obj st c) as [o| | | |] eqn:Eo; try discriminate E. cbn in E. unfold entries in E. destruct (so_content o) eqn:Ec; [discriminate E|]. cbn in E.
    inversion E; subst. apply the_obj_some in Eo as [Eo _]. eapply made_set; eauto. now rewrite Ec.
  - destruct (the_obj st c) as [o| | | |] eqn:Eo; try discriminate E. cbn in E. unfold entries in E. destruct (so_content o) eqn:Ec; [discriminate E|]. cbn in E.
    destruct (is_map o); [|discriminate E]. destruct (seek_take um key l) as [[v l']| | | |]; try discriminate E. cbn in E. inversion E; subst. apply the_obj_some in Eo as [Eo _]. eapply made_set; eauto. now rewrite Ec.
  - apply (spec_looks_same st (CSize c)) in E; [now subst|exact I].
  - apply (spec_looks_same st (CAt c n)) in E; [now subst|exact I].
  - apply (spec_looks_same st (CLookup um c key)) in E; [now subst|exact I].
  - apply (spec_looks_same st (CIterate c)) in E; [now subst|exact I].
  - apply (spec_looks_same st (CRead d)) in E; [now subst|exact I].
  - destruct (the_obj st d) as [o| | | |] eqn:Eo; try discriminate E. cbn in E. unfold value in E. destruct (so_content o) eqn:Ec; [|discriminate E]. cbn in E.
    inversion E; subst. apply the_obj_some in Eo as [Eo _]. eapply made_set; eauto. now rewrite Ec.
  - apply (spec_looks_same st (CView depth c)) in E; [now subst|exact I].
Qed.

Lemma made_run ops : forall st st' rs cr, made_ok st cr -> spec_run st ops = Ok (st', rs) -> made_ok st' (cr ++ creations ops).
Proof.
  induction ops as [|op ops IH]; intros st st' rs cr H E; cbn [spec_run] in E.
  - inversion E; subst. cbn. now rewrite app_nil_r.
  - destruct (spec_step st op) as [[st1 a]| | | |] eqn:Es; try discriminate E. cbn [obind] in E. destruct (spec_run st1 ops) as [[st2 r]| | | |] eqn:Er; try discriminate E.
    cbn [obind] in E. inversion E; subst. change (op :: ops) with ([op] ++ ops). unfold creations. rewrite flat_map_app, app_assoc. fold (creations [op]) (creations ops).
    eapply IH; [|exact Er]. eapply made_step; eauto.
Qed.

Definition defined {A} (x : outcome A) : Prop := exists a, x = Ok a.

Lemma defined_iff w st owns G t op : rel w st owns G t -> t + 1 < W64 -> (defined (cl_step w op) <-> defined (spec_step st op)).
Proof.
  intros R Ht. destruct (step_ok_client w st owns G t op R Ht) as [x y _| |]; split; intros [z Hz]; try discriminate Hz; eexists; reflexivity.
Qed.

(** The value of [bp.data(uint32_t(n))]. *)
Definition u32 (n : N) : datum := (dt_of_num U32, SNum U32 n).

(** C102.  A container can be inserted into as long as it exists.  Refuted: the container
    keeps a reference to the BridgePool object it was made from.  Here that pool is moved
    (returned by value, put into a struct) and its old self goes out of scope: the
    container lives on in the new pool, but Insert uses the dead one. *)
Theorem C102_insert_refuted : exists ops w rs,
  cl_run client0 ops = Ok (w, rs) /\ cl_step w (CSize 0) = Ok (w, AnNum 1) /\
  cl_step w (CView 5 0) = Ok (w, AnView (OMap (PoolId 0) 1 [([n2b 97], data_of_num U32 1)])) /\
  cl_step w (CInsert 0 (OwnKey [n2b 98]) (Some 1%nat)) = UB.
Proof.
  exists [CPool BpNew; CCont 0 KMap; CData 0 false (u32 1); CInsert 0 (OwnKey [n2b 97]) (Some 1%nat); CPool (BpMove 0); CPool (BpDestroy 0)].
  eexists _, _. split; [vm_compute; reflexivity|]. repeat split; vm_compute; reflexivity.
Qed.

(** C102, exactly when it works: the container exists (one can ask its size), and so does
    the pool it was made from (one can clear it), whoever owns the container now.  ([key_for]:
    the key is a string for maps, a string view for map views.) *)
Theorem C102_insert_partial : forall ops w rs n i k key v, len ops + 1 < W64 ->
  cl_run client0 ops = Ok (w, rs) -> nth_error (creations ops) n = Some (i, k) ->
  match v with Some m => (m < length (creations ops))%nat | None => True end -> key_for k key = true ->
  (defined (cl_step w (CInsert n key v)) <-> defined (cl_step w (CSize n)) /\ defined (cl_step w (CPool (BpClear i)))).
Proof.
  intros ops w rs n i k key v Hlen E Hn Hv Hkey. destruct (after ops w rs ltac:(lia) E) as (st & srs & owns & G & t & Es & R & Ht).
  rewrite !(defined_iff w st owns G t _ R ltac:(lia)).
  destruct (made_run ops sstate0 st srs [] (conj eq_refl (Forall_nil _)) Es) as [Hm _]. cbn [app] in Hm.
  assert (Hlen' : length (creations ops) = length (st_objs st)) by (rewrite <- Hm; apply map_length).
  rewrite <- Hm, nth_error_map in Hn. destruct (nth_error (st_objs st) n) as [o|] eqn:Eo; [|discriminate]. cbn in Hn. inversion Hn; subst i k. clear Hn.
  cbn [spec_step pool_call]. unfold the_obj. rewrite Eo. destruct (present (so_home o)); cbn [obind]; [|split; [intros [? H]; discriminate H|intros [[? H] _]; discriminate H]].
  destruct (entries o) as [l| | | |]; cbn [obind]; try (split; [intros [? H]; discriminate H|intros [[? H] _]; discriminate H]).
  unfold only. assert (Hk : known st v = true) by (destruct v as [m|]; cbn; [apply Nat.ltb_lt; lia|reflexivity]). rewrite Hk, Hkey, !andb_true_r.
  destruct (exists_pool st (so_made o)); cbn [obind]; split.
  - intros _. split; eexists; reflexivity.
  - intros _. eexists; reflexivity.
  - intros [? H]; discriminate H.
  - intros [_ [? H]]; discriminate H.
Qed.

(** C103.  The entries of a container live as long as the container.  Refuted: after a
    Merge the container belongs to the other pool, but new entries still come from the
    pool it was made from; clearing that one takes them away, and the container, whose
    size still counts them, points into freed memory. *)
Theorem C103_entries_refuted : exists ops w rs,
  cl_run client0 ops = Ok (w, rs) /\ cl_step w (CSize 0) = Ok (w, AnNum 1) /\ cl_step w (CRead 1) = Ok (w, AnData (u32 1)) /\
  cl_step w (CIterate 0) = UB.
Proof.
  exists [CPool BpNew; CPool BpNew; CCont 1 KArray; CData 0 false (u32 1); CPool (BpMerge 0 1); CInsert 0 (OwnKey []) (Some 1%nat); CPool (BpClear 1)].
  eexists _, _. split; [vm_compute; reflexivity|]. repeat split; vm_compute; reflexivity.
Qed.

(** Programs that insert into a container only until the pool it was made from is given
    away (merged into another pool, or moved).  [pools]: the pool every object was made
    from; [given]: the objects whose pool has been given away since. *)
Fixpoint no_late_insert (pools given : list nat) (ops : list ccall) : Prop :=
  match ops with
  | [] => True
  | op :: ops' =>
      match op with
      | CInsert n _ _ => ~ In n given
      | CAppend j n _ _ => ~ In n given /\ nth_error pools n = Some j    (* the parser's own: an item from the container's pool *)
      | _ => True
      end /\
      no_late_insert
        (pools ++ map fst (creations [op]))
        (given ++ match op with
                  | CPool (BpMerge _ j) | CPool (BpMove j) | CPool (BpAssign _ j) =>
                      filter (fun n => match nth_error pools n with Some p => Nat.eqb p j | None => false end) (seq 0 (length pools))
                  | _ => []
                  end)
        ops'
  end.

Definition together (st : sstate) (pools given : list nat) : Prop :=
  map so_made (st_objs st) = pools /\
  forall n o, nth_error (st_objs st) n = Some o ->
    (~ In n given -> so_home o = Some (so_made o) \/ so_home o = None) /\
    match so_content o with SCont l => Forall (fun e => en_home e = so_home o) l | SData _ => True end.

Lemma together_rehome f st pools given given' alive' : together st pools given ->
  (forall n o, nth_error (st_objs st) n = Some o -> ~ In n given' -> ~ In n given /\ (f (so_made o) = Some (so_made o) \/ f (so_made o) = None)) ->
  together {| st_alive := alive'; st_objs := rehome_all f (st_objs st) |} pools given'.
Proof.
  intros [H1 H2] Hf. split; cbn; unfold rehome_all.
  - rewrite map_map. exact H1.
  - intros n o' Ho'. rewrite nth_error_map in Ho'. destruct (nth_error (st_objs st) n) as [o|] eqn:Eo; [|discriminate]. cbn in Ho'. inversion Ho'; subst o'. cbn.
    destruct (H2 n o Eo) as [Ha Hb]. split.
    + intros Hn. destruct (Hf n o Eo Hn) as [Hg Hm]. destruct (Ha Hg) as [-> | ->]; auto.
    + destruct (so_content o) as [x|l]; [exact I|]. apply Forall_map. eapply Forall_impl; [|exact Hb]. cbn. intros e ->. reflexivity.
Qed.

Lemma together_set st n o c pools given : nth_error (st_objs st) n = Some o -> together st pools given ->
  match c with SCont l => Forall (fun e => en_home e = so_home o) l | SData _ => True end ->
  together (set_obj n (with_content c o) st) pools given.
Proof.
  intros Ho [H1 H2] Hc. unfold together, set_obj. cbn [st_objs]. assert (Hlt : (n < length (st_objs st))%nat) by (apply nth_error_Some; congruence).
  rewrite put_spec by exact Hlt. split.
  - rewrite map_put. cbn. rewrite put_same; [exact H1|]. rewrite nth_error_map, Ho. reflexivity.
  - intros m o'. rewrite nth_error_put by exact Hlt. destruct (Nat.eqb_spec m n) as [->|]; [|apply H2]. intros E. inversion E; subst o'. cbn. split; [apply (H2 n o Ho)|exact Hc].
Qed.

Lemma together_make st i k c pools given st' : together st pools given -> make st i k c = Ok st' ->
  match c with SCont l => l = [] | SData _ => True end -> together st' (pools ++ [i]) given.
Proof.
  intros [H1 H2] E Hc. unfold make, only in E. destruct (exists_pool st i); [|discriminate]. inversion E; subst. split; cbn.
  - rewrite map_app. reflexivity.
  - intros n o Ho. destruct (Nat.lt_ge_cases n (length (st_objs st))) as [Hlt|Hge]; [rewrite nth_error_app1 in Ho by lia; auto|].
    rewrite nth_error_app2 in Ho by lia. destruct (n - length (st_objs st))%nat as [|q]; cbn in Ho; [|destruct q; discriminate]. inversion Ho; subst. cbn.
    split; [auto|]. destruct c; [exact I|]. subst. constructor.
Qed.

Lemma given_pool st pools given n o j : together st pools given -> nth_error (st_objs st) n = Some o ->
  ~ In n (given ++ filter (fun n => match nth_error pools n with Some p => Nat.eqb p j | None => false end) (seq 0 (length pools))) ->
  ~ In n given /\ so_made o <> j.
Proof.
  intros [H1 _] Ho Hn. split; [intros H; apply Hn, in_or_app; now left|]. intros E. apply Hn, in_or_app. right. apply filter_In.
  assert (Hp : nth_error pools n = Some j) by (rewrite <- H1, nth_error_map, Ho; cbn; congruence). split.
  - apply in_seq. split; [lia|]. cbn. apply nth_error_Some. congruence.
  - rewrite Hp. apply Nat.eqb_refl.
Qed.

Lemma seek_take_homes h um key l : forall v l', seek_take um key l = Ok (v, l') -> Forall (fun e => en_home e = h) l -> Forall (fun e => en_home e = h) l'.
Proof.
  induction l as [|e l IH]; intros v l' E H; cbn in E; [inversion E; constructor|]. inversion H as [|? ? He Hl]; subst. destruct (present (en_home e)); [|discriminate].
  destruct (key_content um (en_key e)) as [kc| | | |]; try discriminate. cbn [obind] in E. destruct (bytes_eqb kc key).
  - inversion E; subst. constructor; auto.
  - destruct (seek_take um key l) as [[v1 r]| | | |]; try discriminate. cbn in E. inversion E; subst. constructor; eauto.
Qed.

Lemma together_step st op st' a pools given : together st pools given -> spec_step st op = Ok (st', a) ->
  match op with CInsert n _ _ => ~ In n given | CAppend j n _ _ => ~ In n given /\ nth_error pools n = Some j | _ => True end ->
  together st' (pools ++ map fst (creations [op]))
    (given ++ match op with
              | CPool (BpMerge _ j) | CPool (BpMove j) | CPool (BpAssign _ j) =>
                  filter (fun n => match nth_error pools n with Some p => Nat.eqb p j | None => false end) (seq 0 (length pools))
              | _ => []
              end).
Proof.
  intros T E Hop.
  assert (Hlook : looks op -> st' = st) by (intros Hl; eapply spec_looks_same; eauto).
  destruct op; cbn [spec_step creations flat_map app map] in E |- *; rewrite ?app_nil_r; try (rewrite (Hlook I); exact T).
  - destruct (pool_call st op) as [st1| | | |] eqn:Ep; try discriminate E. cbn in E. inversion E; subst. clear E.
    destruct op as [|i k th|i j|i|j|i j|i]; cbn [pool_call] in Ep; unfold only in Ep; try discriminate Ep.
    + inversion Ep; subst. rewrite app_nil_r. destruct T as [T1 T2]. split; [exact T1|exact T2].
    + destruct (_ && _); [|discriminate Ep]. inversion Ep; subst. eapply together_rehome; [exact T|]. intros n o Ho Hn.
      destruct (given_pool _ _ _ _ _ _ T Ho Hn) as [Hg Hj]. split; [exact Hg|]. left. destruct (Nat.eqb_spec (so_made o) j); [contradiction|reflexivity].
    + destruct (exists_pool st i); [|discriminate Ep]. inversion Ep; subst. eapply together_rehome; [exact T|]. intros n o Ho Hn. rewrite app_nil_r in Hn. split; [exact Hn|].
      destruct (Nat.eqb_spec (so_made o) i); auto.
    + destruct (exists_pool st j); [|discriminate Ep]. inversion Ep; subst. eapply together_rehome; [exact T|]. intros n o Ho Hn.
      destruct (given_pool _ _ _ _ _ _ T Ho Hn) as [Hg Hj]. split; [exact Hg|]. left. destruct (Nat.eqb_spec (so_made o) j); [contradiction|reflexivity].
    + destruct (_ && _); [|discriminate Ep]. inversion Ep; subst. eapply together_rehome; [exact T|]. intros n o Ho Hn.
      destruct (given_pool _ _ _ _ _ _ T Ho Hn) as [Hg Hj]. split; [exact Hg|]. destruct (Nat.eqb_spec (so_made o) i); [auto|]. left. destruct (Nat.eqb_spec (so_made o) j); [contradiction|reflexivity].
    + destruct (exists_pool st i); [|discriminate Ep]. inversion Ep; subst. eapply together_rehome; [exact T|]. intros n o Ho Hn. rewrite app_nil_r in Hn. split; [exact Hn|].
      destruct (Nat.eqb_spec (so_made o) i); auto.
  - destruct (make st i _ _) as [st1| | | |] eqn:Em; try discriminate E. cbn in E. inversion E; subst. eapply together_make; [exact T|exact Em|exact I].
  - assert (E' : st'' <- make st i k (SCont []) ;; Ok (st'', SaNone) = Ok (st', a)) by (destruct k; try discriminate E; exact E).
    destruct (make st i _ _) as [st1| | | |] eqn:Em; try discriminate E'. cbn in E'. inversion E'; subst. eapply together_make; [exact T|exact Em|reflexivity].
  - unfold only in E. destruct (exists_pool st i); [|discriminate E]. cbn in E. inversion E; subst. exact T.
  - destruct (the_obj st c) as [o| | | |] eqn:Eo; try discriminate E. cbn in E. unfold entries in E. destruct (so_content o) as [|l] eqn:Ec; [discriminate E|]. cbn in E.
    destruct (_ && _); [|discriminate E]. inversion E; subst. apply the_obj_some in Eo as [Eo Hh]. eapply together_set; eauto.
    destruct T as [_ T]. destruct (T c o Eo) as [Ha Hb]. rewrite Ec in Hb. constructor; [|exact Hb]. cbn. destruct (Ha Hop); congruence.
  - destruct (the_obj st c) as [o| | | |] eqn:Eo; try discriminate E. cbn in E. unfold entries in E. destruct (so_content o) as [|l] eqn:Ec; [discriminate E|]. cbn in E.
    destruct (_ && _); [|discriminate E]. destruct (see_all l); try discriminate E. cbn in E. destruct (exists_pool _ _); [|discriminate E].
    inversion E; subst. apply the_obj_some in Eo as [Eo Hh]. eapply together_set; eauto.
    destruct T as [T1 T]. destruct (T c o Eo) as [Ha Hb]. rewrite Ec in Hb. apply Forall_app. split; [exact Hb|]. constructor; [|constructor]. cbn. destruct Hop as [Hg Hj].
    assert (Hmade : so_made o = j) by (rewrite <- T1, nth_error_map, Eo in Hj; cbn in Hj; congruence). destruct (Ha Hg); congruence.
  - destruct (the_obj st c) as [o| | | |] eqn:Eo; try discriminate E. cbn in E. unfold entries in E. destruct (so_content o) as [|l] eqn:Ec; [discriminate E|]. cbn in E.
    inversion E; subst. apply the_obj_some in Eo as [Eo _]. eapply together_set; eauto.
  - destruct (the_obj st c) as [o| | | |] eqn:Eo; try discriminate E. cbn in E. unfold entries in E. destruct (so_content o) as [|l] eqn:Ec; [discriminate E|]. cbn in E.
    destruct (is_map o); [|discriminate E]. destruct (seek_take um key l) as [[v l']| | | |] eqn:Et; try discriminate E. cbn in E. inversion E; subst. apply the_obj_some in Eo as [Eo _]. eapply together_set; eauto.
    destruct T as [_ T]. destruct (T c o Eo) as [_ Hb]. rewrite Ec in Hb. eapply seek_take_homes; eauto.
  - destruct (the_obj st d) as [o| | | |] eqn:Eo; try discriminate E. cbn in E. unfold value in E. destruct (so_content o) eqn:Ec; [|discriminate E]. cbn in E.
    inversion E; subst. apply the_obj_some in Eo as [Eo _]. eapply together_set; eauto.
Qed.

Lemma together_run ops : forall st st' rs pools given, together st pools given -> no_late_insert pools given ops ->
  spec_run st ops = Ok (st', rs) -> exists pools' given', together st' pools' given'.
Proof.
  induction ops as [|op ops IH]; intros st st' rs pools given T H E; cbn [spec_run] in E.
  - inversion E; subst. eauto.
  - destruct (spec_step st op) as [[st1 a]| | | |] eqn:Es; try discriminate E. cbn [obind] in E. destruct (spec_run st1 ops) as [[st2 r]| | | |] eqn:Er; try discriminate E.
    cbn [obind] in E. inversion E; subst. cbn [no_late_insert] in H. destruct H as [H1 H2]. eapply IH; [|exact H2|exact Er]. eapply together_step; eauto.
Qed.

(** C103, for all programs that do not do that: as long as the container exists, all its
    entries do. *)
Theorem C103_entries_partial : forall ops w rs n, len ops + 1 < W64 ->
  cl_run client0 ops = Ok (w, rs) -> no_late_insert [] [] ops ->
  defined (cl_step w (CSize n)) -> defined (cl_step w (CIterate n)).
Proof.
  intros ops w rs n Hlen E Hops. destruct (after ops w rs ltac:(lia) E) as (st & srs & owns & G & t & Es & R & Ht).
  rewrite !(defined_iff w st owns G t _ R ltac:(lia)).
  destruct (together_run ops sstate0 st srs [] []) as (pools & given & T); [|exact Hops|exact Es|].
  { split; [reflexivity|]. intros [|m] o H; discriminate H. }
  cbn [spec_step]. destruct (the_obj st n) as [o| | | |] eqn:Eo; cbn [obind]; try (intros [? H]; discriminate H).
  unfold entries. destruct (so_content o) as [x|l] eqn:Ec; cbn [obind]; [intros [? H]; discriminate H|]. intros _.
  apply the_obj_some in Eo as [Eo Hh]. destruct T as [_ T]. destruct (T n o Eo) as [_ Hb]. rewrite Ec in Hb.
  assert (Hs : exists r, see_all l = Ok r).
  { clear -Hb Hh. induction Hb as [|e l He _ IH]; cbn; [eauto|]. rewrite He. destruct (so_home o); [|congruence]. cbn. destruct IH as (r & ->). cbn. eauto. }
  destruct Hs as (r & ->). cbn. eexists; reflexivity.
Qed.

(** C101.  In particular, as long as no pool is cleared, overwritten or destroyed, nothing
    a program made is ever lost, whatever else it does - merges and moves of pools
    included: every object and all its entries can be looked at, and every container can
    be inserted into. *)
Definition ends_nothing (op : ccall) : Prop :=
  match op with CPool (BpClear _) | CPool (BpAssign _ _) | CPool (BpDestroy _) => False | _ => True end.

Definition all_here (st : sstate) : Prop :=
  Forall (fun b => b = true) (st_alive st) /\
  Forall (fun o => (so_made o < length (st_alive st))%nat /\ so_home o <> None /\
    match so_content o with SCont l => Forall (fun e => en_home e <> None) l | SData _ => True end) (st_objs st).

Lemma here_set st n o c : nth_error (st_objs st) n = Some o -> all_here st ->
  match c with SCont l => Forall (fun e => en_home e <> None) l | SData _ => True end -> all_here (set_obj n (with_content c o) st).
Proof.
  intros Ho [H1 H2] Hc. split; [exact H1|]. unfold set_obj. cbn [st_objs st_alive]. rewrite put_spec by (apply nth_error_Some; congruence).
  apply Forall_put; [exact H2|]. cbn. pose proof (proj1 (Forall_forall _ _) H2 o (nth_error_In _ _ Ho)) as (Ha & Hb & _). auto.
Qed.

Lemma here_rehome f st alive' : all_here st -> (forall h, f h <> None) -> Forall (fun b => b = true) alive' -> (length (st_alive st) <= length alive')%nat ->
  all_here {| st_alive := alive'; st_objs := rehome_all f (st_objs st) |}.
Proof.
  intros [H1 H2] Hf Ha Hl. split; [exact Ha|]. cbn. unfold rehome_all. apply Forall_map. eapply Forall_impl; [|exact H2]. cbn. intros o (Hm & Hh & Hc).
  assert (Hx : forall h, h <> None -> ohome f h <> None) by (intros [h|] H; cbn; auto).
  split; [lia|]. split; [exact (Hx _ Hh)|]. destruct (so_content o) as [x|l]; [exact I|]. apply Forall_map. eapply Forall_impl; [|exact Hc]. cbn. intros e He. exact (Hx _ He).
Qed.

Lemma seek_take_here um key l : forall v l', seek_take um key l = Ok (v, l') -> Forall (fun e => en_home e <> None) l -> Forall (fun e => en_home e <> None) l'.
Proof.
  induction l as [|e l IH]; intros v l' E H; cbn in E; [inversion E; constructor|]. inversion H as [|? ? He Hl]; subst. destruct (present (en_home e)); [|discriminate].
  destruct (key_content um (en_key e)) as [kc| | | |]; try discriminate. cbn [obind] in E. destruct (bytes_eqb kc key).
  - inversion E; subst. constructor; auto.
  - destruct (seek_take um key l) as [[v1 r]| | | |]; try discriminate. cbn in E. inversion E; subst. constructor; eauto.
Qed.

Lemma here_step st op st' a : all_here st -> ends_nothing op -> spec_step st op = Ok (st', a) -> all_here st'.
Proof.
  intros T Hop E.
  assert (Hlook : looks op -> st' = st) by (intros Hl; eapply spec_looks_same; eauto).
  assert (Hmake : forall i k c st1, make st i k c = Ok st1 -> match c with SCont l => l = [] | SData _ => True end -> all_here st1).
  { intros i k c st1 Em Hc. unfold make, only in Em. destruct (exists_pool st i) eqn:Ei; [|discriminate]. inversion Em; subst. destruct T as [T1 T2]. split; [exact T1|]. cbn.
    apply Forall_app. split; [exact T2|]. constructor; [|constructor]. cbn. split; [apply exists_pool_spec in Ei; apply nth_error_Some; congruence|]. split; [discriminate|]. destruct c; [exact I|]. subst; constructor. }
  destruct op; cbn [spec_step] in E; try (rewrite (Hlook I); exact T).
  - destruct (pool_call st op) as [st1| | | |] eqn:Ep; try discriminate E. cbn in E. inversion E; subst. clear E. pose proof T as [T1 T2].
    destruct op as [|i k th|i j|i|j|i j|i]; cbn [pool_call] in Ep; unfold only in Ep; try discriminate Ep; try contradiction.
    + inversion Ep; subst. rewrite <- (rehome_same Some (st_objs st)) by reflexivity. apply here_rehome; auto; [discriminate|apply Forall_app; split; auto|rewrite app_length; lia].
    + destruct (_ && _); [|discriminate Ep]. inversion Ep; subst. apply here_rehome; auto. discriminate.
    + destruct (exists_pool st j); [|discriminate Ep]. inversion Ep; subst. apply here_rehome; auto; [discriminate|apply Forall_app; split; auto|rewrite app_length; lia].
  - destruct (make st i _ _) as [st1| | | |] eqn:Em; try discriminate E. cbn in E. inversion E; subst. eapply Hmake; [exact Em|exact I].
  - assert (E' : st'' <- make st i k (SCont []) ;; Ok (st'', SaNone) = Ok (st', a)) by (destruct k; try discriminate E; exact E).
    destruct (make st i _ _) as [st1| | | |] eqn:Em; try discriminate E'. cbn in E'. inversion E'; subst. eapply Hmake; [exact Em|reflexivity].
  - unfold only in E. destruct (exists_pool st i); [|discriminate E]. cbn in E. inversion E; subst. exact T.
  - destruct (the_obj st c) as [o| | | |] eqn:Eo; try discriminate E. cbn in E. unfold entries in E. destruct (so_content o) as [|l] eqn:Ec; [discriminate E|]. cbn in E.
    destruct (_ && _); [|discriminate E]. inversion E; subst. apply the_obj_some in Eo as [Eo Hh]. eapply here_set; eauto.
    pose proof (proj1 (Forall_forall _ _) (proj2 T) o (nth_error_In _ _ Eo)) as (_ & _ & Hb). rewrite Ec in Hb. constructor; [discriminate|exact Hb].
  - destruct (the_obj st c) as [o| | | |] eqn:Eo; try discriminate E. cbn in E. unfold entries in E. destruct (so_content o) as [|l] eqn:Ec; [discriminate E|]. cbn in E.
    destruct (_ && _); [|discriminate E]. destruct (see_all l); try discriminate E. cbn in E. destruct (exists_pool _ _); [|discriminate E].
    inversion E; subst. apply the_obj_some in Eo as [Eo Hh]. eapply here_set; eauto.
    pose proof (proj1 (Forall_forall _ _) (proj2 T) o (nth_error_In _ _ Eo)) as (_ & _ & Hb). rewrite Ec in Hb. apply Forall_app. split; [exact Hb|]. repeat constructor. discriminate.
  - destruct (the_obj st c) as [o| | | |] eqn:Eo; try discriminate E. cbn in E. unfold entries in E. destruct (so_content o) as [|l] eqn:Ec; [discriminate E|]. cbn in E.
    inversion E; subst. apply the_obj_some in Eo as [Eo _]. eapply here_set; eauto.
  - destruct (the_obj st c) as [o| | | |] eqn:Eo; try discriminate E. cbn in E. unfold entries in E. destruct (so_content o) as [|l] eqn:Ec; [discriminate E|]. cbn in E.
    destruct (is_map o); [|discriminate E]. destruct (seek_take um key l) as [[v l']| | | |] eqn:Et; try discriminate E. cbn in E. inversion E; subst. apply the_obj_some in Eo as [Eo _]. eapply here_set; eauto.
    pose proof (proj1 (Forall_forall _ _) (proj2 T) o (nth_error_In _ _ Eo)) as (_ & _ & Hb). rewrite Ec in Hb. eapply seek_take_here; eauto.
  - destruct (the_obj st d) as [o| | | |] eqn:Eo; try discriminate E. cbn in E. unfold value in E. destruct (so_content o) eqn:Ec; [|discriminate E]. cbn in E.
    inversion E; subst. apply the_obj_some in Eo as [Eo _]. eapply here_set; eauto.
Qed.

Lemma here_run ops : forall st st' rs, all_here st -> Forall ends_nothing ops -> spec_run st ops = Ok (st', rs) -> all_here st'.
Proof.
  induction ops as [|op ops IH]; intros st st' rs T H E; cbn [spec_run] in E; [inversion E; now subst|].
  destruct (spec_step st op) as [[st1 a]| | | |] eqn:Es; try discriminate E. cbn [obind] in E. destruct (spec_run st1 ops) as [[st2 r]| | | |] eqn:Er; try discriminate E.
  cbn [obind] in E. inversion E; subst. inversion H as [|? ? H1 H2]; subst. eapply IH; [|exact H2|exact Er]. eapply here_step; eauto.
Qed.

Theorem C101_nothing_lost : forall ops w rs n i k key x, len ops + 1 < W64 ->
  cl_run client0 ops = Ok (w, rs) -> Forall ends_nothing ops -> nth_error (creations ops) n = Some (i, k) -> key_for k key = true ->
  if container k
  then defined (cl_step w (CSize n)) /\ defined (cl_step w (CIterate n)) /\ defined (cl_step w (CInsert n key None)) /\ defined (cl_step w (CClear n))
  else defined (cl_step w (CRead n)) /\ defined (cl_step w (CAssign n x)).
Proof.
  intros ops w rs n i k key x Hlen E Hops Hn Hkey. destruct (after ops w rs ltac:(lia) E) as (st & srs & owns & G & t & Es & R & Ht).
  assert (D : forall op, defined (spec_step st op) -> defined (cl_step w op)) by (intros op; apply (defined_iff w st owns G t op R); lia).
  enough (if container k
    then defined (spec_step st (CSize n)) /\ defined (spec_step st (CIterate n)) /\ defined (spec_step st (CInsert n key None)) /\ defined (spec_step st (CClear n))
    else defined (spec_step st (CRead n)) /\ defined (spec_step st (CAssign n x))) as X
    by (destruct (container k); intuition).
  destruct (made_run ops sstate0 st srs [] (conj eq_refl (Forall_nil _)) Es) as [Hm Hk]. cbn [app] in Hm.
  rewrite <- Hm, nth_error_map in Hn. destruct (nth_error (st_objs st) n) as [o|] eqn:Eo; [|discriminate]. cbn in Hn. inversion Hn; subst i k. clear Hn.
  assert (T : all_here st) by (eapply here_run; [|exact Hops|exact Es]; split; constructor). destruct T as [T1 T2].
  pose proof (proj1 (Forall_forall _ _) T2 o (nth_error_In _ _ Eo)) as (Ha & Hb & Hc).
  pose proof (proj1 (Forall_forall _ _) Hk o (nth_error_In _ _ Eo)) as Hkk. cbn in Hkk.
  assert (Hthe : the_obj st n = Ok o) by (unfold the_obj; rewrite Eo; destruct (so_home o); [reflexivity|congruence]).
  assert (Hp : exists_pool st (so_made o) = true).
  { apply exists_pool_spec. destruct (nth_error (st_alive st) (so_made o)) as [b|] eqn:Eb; [|apply nth_error_None in Eb; lia].
    f_equal. exact (proj1 (Forall_forall _ _) T1 b (nth_error_In _ _ Eb)). }
  cbn [spec_step]. rewrite Hthe. cbn [obind]. unfold entries, value. destruct (so_content o) as [x0|l]; rewrite Hkk; cbn [obind].
  - split; eexists; reflexivity.
  - rewrite Hp, Hkey. cbn [andb known].
    assert (Hs : exists r, see_all l = Ok r).
    { clear -Hc. induction Hc as [|e l He _ IH]; cbn; [eauto|]. destruct (en_home e); [|congruence]. cbn. destruct IH as (r & ->). cbn. eauto. }
    destruct Hs as (r & ->). repeat split; eexists; reflexivity.
Qed.

(** ** Met *)

(** Two pools; a document built across both, merged, moved, grown again, one entry taken
    out, the emptied pool destroyed at the end. *)
Definition sample_program : list ccall :=
  let k c := OwnKey [n2b c] in let um := fun _ : nat => @None bytes in
  [CPool BpNew; CPool BpNew; CCont 0 KMap; CCont 1 KArray; CData 1 false (u32 7); CData 0 true (u32 8);
   CInsert 1 (k 0) (Some 2%nat); CInsert 1 (k 0) (Some 3%nat); CInsert 0 (k 97) (Some 1%nat);
   CPool (BpMerge 0 1); CScratch 1 KMapItem; CInsert 0 (k 98) (Some 3%nat); CPool (BpMove 0);
   CView 5 0; CAt 1 0; CLookup um 0 [n2b 97]; CTake um 0 [n2b 98]; CIterate 0; CAssign 2 (u32 9); CRead 2; CSize 1].

Example C101_met : len sample_program < W64 /\
  (let tree := OMap (PoolId 0) 2 [([n2b 98], data_view_of_num U32 8); ([n2b 97], OArray (PoolId 1) 2 [data_view_of_num U32 8; data_of_num U32 7])] in
   exists w st, cl_run client0 sample_program = Ok (w, [AnNone; AnNone; AnNone; AnNone; AnNone; AnNone; AnNone; AnNone; AnNone; AnNone; AnNone; AnNone; AnNone;
    AnView tree;
    AnPtr (Some (KData, (0%nat, 0))); AnPtr (Some (KArray, (0%nat, 0))); AnPtr (Some (KDataView, (0%nat, 0)));
    AnList [(OwnKey [n2b 98], None); (OwnKey [n2b 97], Some (KArray, (0%nat, 0)))]; AnNone; AnData (u32 9); AnNum 2]) /\
    k_vars w = [(KMap, (0%nat, 0)); (KArray, (0%nat, 0)); (KData, (0%nat, 0)); (KDataView, (0%nat, 0))] /\
    spec_run sstate0 sample_program = Ok (st, [SaNone; SaNone; SaNone; SaNone; SaNone; SaNone; SaNone; SaNone; SaNone; SaNone; SaNone; SaNone; SaNone;
    SaView tree;
    SaPtr (Some 2%nat); SaPtr (Some 1%nat); SaPtr (Some 3%nat); SaList [(OwnKey [n2b 98], None); (OwnKey [n2b 97], Some 1%nat)]; SaNone; SaData (u32 9); SaNum 2])) /\
  Forall ends_nothing sample_program /\
  (* a use after the end of a pool is undefined in both *)
  cl_run client0 (sample_program ++ [CPool (BpDestroy 2); CSize 0]) = UB /\
  spec_run sstate0 (sample_program ++ [CPool (BpDestroy 2); CSize 0]) = UB.
Proof.
  split; [vm_compute; reflexivity|]. split; [eexists _, _; split; [vm_compute; reflexivity|split; vm_compute; reflexivity]|].
  split; [repeat constructor|]. split; vm_compute; reflexivity.
Qed.

(** A program in which everything is inserted before the pools are merged.  The key of
    the map view is the text "ab" in buffer 5 of the program. *)
Definition sample_ref : ckey := RefKey {| v_buf := 5; v_off := 0; v_len := 2 |}.
Definition sample_build : list ccall :=
  [CPool BpNew; CPool BpNew; CCont 1 KMapView; CData 1 false (u32 7); CInsert 0 sample_ref (Some 1%nat); CPool (BpMerge 0 1); CPool (BpDestroy 1)].
Example C102_met : exists w rs, cl_run client0 sample_build = Ok (w, rs) /\
  nth_error (creations sample_build) 0 = Some (1%nat, KMapView) /\ key_for KMapView sample_ref = true /\
  defined (cl_step w (CSize 0)) /\ cl_step w (CPool (BpClear 1)) = UB /\ cl_step w (CInsert 0 sample_ref None) = UB /\
  (* its key is looked up in the program's memory *)
  cl_step w (CLookup (fun b => if Nat.eqb b 5 then Some [n2b 97; n2b 98] else None) 0 [n2b 97; n2b 98]) = Ok (w, AnPtr (nth_error (k_vars w) 1)) /\
  cl_step w (CLookup (fun _ => None) 0 [n2b 97; n2b 98]) = UB.
Proof.
  eexists _, _. split; [vm_compute; reflexivity|]. split; [reflexivity|]. split; [reflexivity|]. split; [eexists; vm_compute; reflexivity|].
  split; [vm_compute; reflexivity|]. split; [vm_compute; reflexivity|]. split; vm_compute; reflexivity.
Qed.
Example C103_met : exists w rs, cl_run client0 sample_build = Ok (w, rs) /\ no_late_insert [] [] sample_build /\
  cl_step w (CSize 0) = Ok (w, AnNum 1) /\ cl_step w (CIterate 0) = Ok (w, AnList [(sample_ref, nth_error (k_vars w) 1)]).
Proof.
  eexists _, _. split; [vm_compute; reflexivity|]. split; [cbn; intuition|]. split; vm_compute; reflexivity.
Qed.
