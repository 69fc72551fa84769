(** * Proofs about sessions: the parallel parser's steps in memory. *)
From Verif Require Import Base BaseLemmas ModelVarint ModelData ModelSecondary ModelObject ModelParse ModelWrapper ModelPool ModelStorage ModelFrames
  ModelAlloc ModelParaAlloc ModelClient ModelSession Spec SpecClient ParseLemmas PropPool PropFrames ParaProofs ClientProofs PropClient GeneralProofs PropAlloc PropInsitu PropInsituAny SessionProofs.
From Coq Require Import ZifyBool ZifyNat ZifyN.
Local Open Scope out_scope.

(** ** The parser does not look at the pool *)
Section Pools.
  Variable E : penv.
  Variable get : N -> outcome view.
  Variable p p' : pool.
  Variable pr : bool.
  Notation R := (b_env E).
  Notation bare1 := (omap (fun x : obj * rstate => (no_pools (fst x), snd x))).
  Notation barel := (omap (fun x : list obj * rstate => (map no_pools (fst x), snd x))).
  Notation baree := (omap (fun x : list (_ * obj) * rstate => (map (fun e => (fst e, no_pools (snd e))) (fst x), snd x))).

  Lemma data_bare s : forall o s', run get (Data_valueParse E pr s) = Ok (o, s') -> no_pools o = o.
  Proof. intros o s' H. destruct (pr_cases _ _ _ _ _ _ H) as (dt & x & [[-> _]|[-> _]]); reflexivity. Qed.

  Lemma value_pools : forall f,
    (forall t s, bare1 (run get (valueParse E p pr f t s)) = bare1 (run get (valueParse E p' pr f t s))) /\
    (forall n s acc acc', map no_pools acc = map no_pools acc' -> barel (run get (array_loop E p pr f n s acc)) = barel (run get (array_loop E p' pr f n s acc'))) /\
    (forall n s acc acc', map (fun e => (fst e, no_pools (snd e))) acc = map (fun e => (fst e, no_pools (snd e))) acc' -> baree (run get (map_loop E p pr f n s acc)) = baree (run get (map_loop E p' pr f n s acc'))) /\
    (forall n s acc acc', map (fun e => (fst e, no_pools (snd e))) acc = map (fun e => (fst e, no_pools (snd e))) acc' -> baree (run get (mapview_loop E p pr f n s acc)) = baree (run get (mapview_loop E p' pr f n s acc'))).
  Proof.
    induction f as [|f (IV & IA & IM & IW)]; [repeat split; reflexivity|]. split; [|split; [|split]].
    - intros t s. cbn [valueParse]. destruct t; [reflexivity| |]; rewrite !run_bind, !run_lift; destruct (parseLength R s) as [[n s1]| | | |]; cbn [obind]; try reflexivity;
        rewrite !run_bind, !run_lift; destruct (parseLength R s1) as [[id s2]| | | |]; cbn [obind]; try reflexivity.
      + destruct pr.
        * rewrite !run_bind. specialize (IW n s2 [] [] eq_refl).
          destruct (run get (mapview_loop E p true f n s2 [])) as [[l1 s3]| | | |], (run get (mapview_loop E p' true f n s2 [])) as [[l2 s3']| | | |]; cbn in IW |- *; try discriminate IW; try reflexivity; inversion IW; subst; try reflexivity; try congruence.
        * rewrite !run_bind, !run_lift. destruct (check_oor R s2) as [[]| | | |]; cbn [obind]; try reflexivity. rewrite ?run_bind. specialize (IM n s2 [] [] eq_refl).
          destruct (run get (map_loop E p false f n s2 [])) as [[l1 s3]| | | |], (run get (map_loop E p' false f n s2 [])) as [[l2 s3']| | | |]; cbn in IM |- *; try discriminate IM; try reflexivity; inversion IM; subst; try reflexivity; try congruence.
      + rewrite !run_bind. specialize (IA n s2 [] [] eq_refl).
        destruct (run get (array_loop E p pr f n s2 [])) as [[l1 s3]| | | |], (run get (array_loop E p' pr f n s2 [])) as [[l2 s3']| | | |]; cbn in IA |- *; try discriminate IA; try reflexivity; inversion IA; subst; try reflexivity; rewrite !map_rev; try congruence.
    - intros n s acc acc' Ha. cbn [array_loop]. destruct (n =? 0); [cbn; now rewrite Ha|]. rewrite !run_bind, !run_lift. destruct (parseObjectType R s) as [[t s1]| | | |]; cbn [obind]; try reflexivity.
      rewrite !run_bind. specialize (IV t s1).
      destruct (run get (valueParse E p pr f t s1)) as [[o s2]| | | |], (run get (valueParse E p' pr f t s1)) as [[o' s2']| | | |]; cbn in IV |- *; try discriminate IV; try reflexivity; inversion IV; subst; try reflexivity.
      apply IA. cbn. congruence.
    - intros n s acc acc' Ha. cbn [map_loop]. destruct (n =? 0); [cbn; now rewrite Ha|]. rewrite !run_bind. destruct (run get (parse_key E s)) as [[kv s1]| | | |]; cbn [obind]; try reflexivity.
      rewrite !run_bind, !run_lift. destruct (parseObjectType R s1) as [[t s2]| | | |]; cbn [obind]; try reflexivity. rewrite !run_bind. specialize (IV t s2).
      destruct (run get (valueParse E p pr f t s2)) as [[o s3]| | | |], (run get (valueParse E p' pr f t s2)) as [[o' s3']| | | |]; cbn in IV |- *; try discriminate IV; try reflexivity; inversion IV; subst; try reflexivity.
      rewrite !run_bind, !run_lift. destruct (read_local R kv); cbn [obind]; try reflexivity. apply IM. cbn. congruence.
    - intros n s acc acc' Ha. cbn [mapview_loop]. destruct (n =? 0); [cbn; now rewrite Ha|]. rewrite !run_bind. destruct (run get (parse_key E s)) as [[kv s1]| | | |]; cbn [obind]; try reflexivity.
      rewrite !run_bind, !run_lift. destruct (parseObjectType R s1) as [[t s2]| | | |]; cbn [obind]; try reflexivity. rewrite !run_bind. specialize (IV t s2).
      destruct (run get (valueParse E p pr f t s2)) as [[o s3]| | | |], (run get (valueParse E p' pr f t s2)) as [[o' s3']| | | |]; cbn in IV |- *; try discriminate IV; try reflexivity; inversion IV; subst; try reflexivity.
      apply IW. cbn. congruence.
  Qed.

  Lemma value_other_pool f t s o s1 : run get (valueParse E p pr f t s) = Ok (o, s1) ->
    exists o', run get (valueParse E p' pr f t s) = Ok (o', s1) /\ no_pools o' = no_pools o.
  Proof.
    intros H. pose proof (proj1 (value_pools f) t s) as HE. rewrite H in HE.
    destruct (run get (valueParse E p' pr f t s)) as [[o' s']| | | |]; cbn in HE; try discriminate HE. inversion HE; subst. eauto.
  Qed.
End Pools.

(** ** Runs of the specification *)
Definition runs (st : sstate) (c : list ccall) (st' : sstate) : Prop := exists r, spec_run st c = Ok (st', r).
Lemma runs_nil st : runs st [] st.
Proof. exists []. reflexivity. Qed.
Lemma runs_app st a st1 b st2 : runs st a st1 -> runs st1 b st2 -> runs st (a ++ b) st2.
Proof. intros (r1 & H1) (r2 & H2). eexists. rewrite (spec_run_app _ _ _ _ _ H1), H2. reflexivity. Qed.
Lemma runs_cons st op st1 a b st2 : spec_step st op = Ok (st1, a) -> runs st1 b st2 -> runs st (op :: b) st2.
Proof. intros H1 (r2 & H2). eexists. cbn [spec_run]. rewrite H1. cbn [obind]. rewrite H2. reflexivity. Qed.
Lemma runs_one st op st1 a : spec_step st op = Ok (st1, a) -> runs st [op] st1.
Proof. intros H. eapply runs_cons; [exact H|apply runs_nil]. Qed.

Lemma ex_new st k o : exists_pool {| st_alive := st_alive st ++ [true]; st_objs := o |} k = exists_pool st k || Nat.eqb k (length (st_alive st)).
Proof.
  unfold exists_pool. cbn [st_alive]. destruct (Nat.lt_trichotomy k (length (st_alive st))) as [H|[->|H]].
  - rewrite nth_error_app1 by exact H. destruct (Nat.eqb_spec k (length (st_alive st))); [lia|]. now rewrite orb_false_r.
  - rewrite nth_error_app2 by lia. rewrite Nat.sub_diag, Nat.eqb_refl. cbn. now rewrite orb_true_r.
  - rewrite nth_error_app2 by lia. destruct (Nat.eqb_spec k (length (st_alive st))); [lia|]. destruct (k - length (st_alive st))%nat as [|x] eqn:Ex; [lia|]. cbn. destruct x; cbn;
    (replace (nth_error (st_alive st) k) with (@None bool) by (symmetry; apply nth_error_None; lia)); reflexivity.
Qed.
Lemma exists_lt st k : exists_pool st k = true -> (k < length (st_alive st))%nat.
Proof. unfold exists_pool. intros H. apply nth_error_Some. destruct (nth_error _ _); congruence. Qed.
Lemma ex_destroy st k i o : (i < length (st_alive st))%nat -> exists_pool {| st_alive := firstn i (st_alive st) ++ false :: skipn (S i) (st_alive st); st_objs := o |} k = exists_pool st k && negb (Nat.eqb k i).
Proof.
  intros Hi. unfold exists_pool. cbn [st_alive]. rewrite put_spec by exact Hi. rewrite nth_error_put by exact Hi. destruct (Nat.eqb_spec k i) as [->|]; cbn; [now rewrite andb_false_r|now rewrite andb_true_r].
Qed.

(** ** Homes *)
Definition below_obj (q : nat) (o : sobj) : Prop :=
  (forall h, so_home o = Some h -> (h < q)%nat) /\
  match so_content o with SCont es => Forall (fun e => forall h, en_home e = Some h -> (h < q)%nat) es | SData _ => True end.
Definition below (st : sstate) : Prop := Forall (below_obj (length (st_alive st))) (st_objs st).
Definition keeps (q : nat) (st st' : sstate) : Prop := forall j o, nth_error (st_objs st) j = Some o -> below_obj q o -> nth_error (st_objs st') j = Some o.
(** [st'] is [st] with everything rehomed. *)
Definition moved (f : nat -> option nat) (st st' : sstate) : Prop := st_objs st' = rehome_all f (st_objs st).
Definition then_ (f g : nat -> option nat) (h : nat) : option nat := match f h with Some x => g x | None => None end.

Lemma below_le q q' o : (q <= q')%nat -> below_obj q o -> below_obj q' o.
Proof.
  intros Hq [H1 H2]. split; [intros h Hh; apply H1 in Hh; lia|]. destruct (so_content o); [exact I|]. eapply Forall_impl; [|exact H2]. cbn. intros e He h Hh. apply He in Hh. lia.
Qed.
Lemma keeps_refl q st : keeps q st st.
Proof. intros j o H _. exact H. Qed.
Lemma keeps_trans q a b c : keeps q a b -> keeps q b c -> keeps q a c.
Proof. intros H1 H2 j o Hj Hb. apply H2; [|exact Hb]. now apply H1. Qed.
Lemma keeps_le q q' st st' : (q <= q')%nat -> keeps q' st st' -> keeps q st st'.
Proof. intros Hq H j o Hj Hb. apply H; [exact Hj|]. eapply below_le; eauto. Qed.
Lemma keeps_all st st' : below st -> keeps (length (st_alive st)) st st' -> forall j o, nth_error (st_objs st) j = Some o -> nth_error (st_objs st') j = Some o.
Proof. intros Hb H j o Hj. apply H; [exact Hj|]. apply (proj1 (Forall_forall _ _) Hb). eapply nth_error_In. exact Hj. Qed.

Lemma fo_ext f g o : (forall h, f h = g h) -> fo f o = fo g o.
Proof.
  intros H. unfold fo. assert (Ho : forall x, ohome f x = ohome g x) by (intros [x|]; cbn; auto). rewrite Ho. f_equal. destruct (so_content o) as [|es]; [reflexivity|]. f_equal.
  apply map_ext. intros e. unfold fe. now rewrite Ho.
Qed.
Lemma moved_ext f g st st' : (forall h, f h = g h) -> moved f st st' -> moved g st st'.
Proof. intros H Hm. unfold moved in *. rewrite Hm, !rehome_fo. apply map_ext. intros o. now apply fo_ext. Qed.
Lemma moved_trans f g a b c : moved f a b -> moved g b c -> moved (then_ f g) a c.
Proof.
  unfold moved. intros H1 H2. rewrite H2, H1, !rehome_fo, map_map. apply map_ext. intros o. unfold fo. cbn [so_cls so_made so_home so_content].
  assert (Ho : forall x, ohome g (ohome f x) = ohome (then_ f g) x) by (intros [x|]; reflexivity). rewrite Ho. f_equal. destruct (so_content o) as [|es]; [reflexivity|]. f_equal. rewrite map_map.
  apply map_ext. intros e. unfold fe. cbn [en_key en_val en_home]. now rewrite Ho.
Qed.
Lemma fo_keep f q o : below_obj q o -> (forall h, (h < q)%nat -> f h = Some h) -> fo f o = o.
Proof.
  intros [H1 H2] Hf. destruct o as [c md h ct]. unfold fo. cbn [so_cls so_made so_home so_content] in *.
  assert (Ho : forall x, (forall h, x = Some h -> (h < q)%nat) -> ohome f x = x) by (intros [x|] Hx; cbn; [apply Hf, Hx; reflexivity|reflexivity]).
  rewrite (Ho h H1). f_equal. destruct ct as [|es]; [reflexivity|]. f_equal. induction H2 as [|e es He _ IH]; [reflexivity|]. cbn [map]. rewrite IH. f_equal. destruct e as [k v eh]. unfold fe. cbn in *. now rewrite (Ho eh He).
Qed.
Lemma moved_keeps f q st st' : moved f st st' -> (forall h, (h < q)%nat -> f h = Some h) -> keeps q st st'.
Proof. intros Hm Hf j o Hj Hb. rewrite Hm, rehome_fo, nth_error_map, Hj. cbn. now rewrite (fo_keep f q o Hb Hf). Qed.
Lemma moved_len f st st' : moved f st st' -> length (st_objs st') = length (st_objs st).
Proof. intros ->. rewrite rehome_fo. apply map_length. Qed.
Lemma moved_below f st st' : moved f st st' -> below st -> (forall h h', (h < length (st_alive st))%nat -> f h = Some h' -> (h' < length (st_alive st'))%nat) -> below st'.
Proof.
  intros Hm Hb Hf. unfold below. rewrite Hm, rehome_fo. apply Forall_map. eapply Forall_impl; [|exact Hb]. intros o [H1 H2]. split; cbn [fo so_home so_content].
  - intros h Hh. destruct (so_home o) as [x|]; [|discriminate Hh]. cbn in Hh. eapply Hf; [|exact Hh]. now apply H1.
  - destruct (so_content o) as [|es]; [exact I|]. apply Forall_map. eapply Forall_impl; [|exact H2]. cbn. intros e He h Hh. destruct (en_home e) as [x|]; [|discriminate Hh]. cbn in Hh. eapply Hf; [|exact Hh]. now apply He.
Qed.

(** ** Sequences of pool calls *)
Definition onto (j q : nat) (h : nat) : option nat := Some (if Nat.eqb h j then q else h).
Definition drop (j : nat) (h : nat) : option nat := if Nat.eqb h j then None else Some h.
Definition among (l : list nat) (h : nat) : bool := existsb (Nat.eqb h) l.
Lemma among_In l h : among l h = true <-> In h l.
Proof. unfold among. rewrite existsb_exists. split; [intros (x & Hx & E); apply Nat.eqb_eq in E; now subst|intros H; exists h; split; [exact H|apply Nat.eqb_refl]]. Qed.
Lemma among_app a b h : among (a ++ b) h = among a h || among b h.
Proof. unfold among. apply existsb_app. Qed.

Lemma step_new st : exists st', spec_step st (CPool BpNew) = Ok (st', SaNone) /\ st_objs st' = st_objs st /\ length (st_alive st') = S (length (st_alive st)) /\
  forall k, exists_pool st' k = exists_pool st k || Nat.eqb k (length (st_alive st)).
Proof. eexists. cbn [spec_step pool_call obind]. split; [reflexivity|]. split; [reflexivity|]. split; [cbn; rewrite app_length; cbn; lia|]. intros k. apply ex_new. Qed.
Lemma step_merge st i j : exists_pool st i = true -> exists_pool st j = true -> i <> j -> exists st', spec_step st (CPool (BpMerge i j)) = Ok (st', SaNone) /\ moved (onto j i) st st' /\ st_alive st' = st_alive st.
Proof.
  intros Hi Hj Hn. cbn [spec_step pool_call]. unfold only. rewrite Hi, Hj. destruct (Nat.eqb_spec i j); [contradiction|]. cbn [andb negb obind]. eexists. split; [reflexivity|]. split; reflexivity.
Qed.
Lemma step_move st j : exists_pool st j = true -> exists st', spec_step st (CPool (BpMove j)) = Ok (st', SaNone) /\ moved (onto j (length (st_alive st))) st st' /\
  length (st_alive st') = S (length (st_alive st)) /\ forall k, exists_pool st' k = exists_pool st k || Nat.eqb k (length (st_alive st)).
Proof.
  intros Hj. cbn [spec_step pool_call]. unfold only. rewrite Hj. cbn [obind]. eexists. split; [reflexivity|]. split; [reflexivity|]. split; [cbn; rewrite app_length; cbn; lia|]. intros k. apply ex_new.
Qed.
Lemma step_destroy st j : exists_pool st j = true -> exists st', spec_step st (CPool (BpDestroy j)) = Ok (st', SaNone) /\ moved (drop j) st st' /\
  length (st_alive st') = length (st_alive st) /\ forall k, exists_pool st' k = exists_pool st k && negb (Nat.eqb k j).
Proof.
  intros Hj. pose proof (exists_lt _ _ Hj) as Hl. cbn [spec_step pool_call]. unfold only. rewrite Hj. cbn [obind]. eexists. split; [reflexivity|]. split; [reflexivity|].
  split; [cbn [st_alive]; rewrite put_spec by exact Hl; apply put_length|]. intros k. now apply ex_destroy.
Qed.

(** The end of a coroutine. *)
Lemma leave_done st j : exists_pool st j = true -> let q := length (st_alive st) in
  exists st', runs st [CPool (BpMove j); CPool (BpDestroy j)] st' /\ moved (onto j q) st st' /\ length (st_alive st') = S q /\
    forall k, exists_pool st' k = exists_pool st k && negb (Nat.eqb k j) || Nat.eqb k q.
Proof.
  intros Hj q. pose proof (exists_lt _ _ Hj) as Hl. destruct (step_move st j Hj) as (st1 & H1 & M1 & L1 & X1).
  destruct (step_destroy st1 j) as (st2 & H2 & M2 & L2 & X2); [rewrite X1, Hj; reflexivity|].
  exists st2. split; [eapply runs_cons; [exact H1|eapply runs_one; exact H2]|]. split; [|split; [lia|]].
  - eapply moved_ext; [|eapply moved_trans; eauto]. intros h. unfold then_, onto, drop. fold q. destruct (Nat.eqb_spec h j); cbn; [destruct (Nat.eqb_spec q j); [unfold q in *; lia|reflexivity]|].
    destruct (Nat.eqb_spec h j); [contradiction|reflexivity].
  - intros k. rewrite X2, X1. fold q. destruct (Nat.eqb_spec k j), (Nat.eqb_spec k q); subst; try (unfold q in *; lia); cbn; rewrite ?andb_true_r, ?andb_false_r, ?orb_false_r, ?orb_true_r; reflexivity.
Qed.

(** Merging and destroying the pools of the blocks. *)
Lemma merge_list j : forall rs st, exists_pool st j = true -> Forall (fun r => exists_pool st r = true /\ r <> j) rs ->
  exists st', runs st (map CPool (map (BpMerge j) rs)) st' /\ moved (fun h => Some (if among rs h then j else h)) st st' /\ st_alive st' = st_alive st.
Proof.
  induction rs as [|r rs IH]; intros st Hj HF; cbn [map].
  - exists st. split; [apply runs_nil|]. split; [|reflexivity]. unfold moved. rewrite rehome_fo. rewrite (map_ext _ (fun o => o)); [now rewrite map_id|].
    intros [c md h ct]. unfold fo. cbn. destruct h; cbn; f_equal; destruct ct as [|es]; try reflexivity; f_equal; rewrite (map_ext _ (fun e => e)); try apply map_id; intros [? ? []]; reflexivity.
  - inversion HF as [|? ? [Hr Hn] HF']; subst. destruct (step_merge st j r Hj Hr ltac:(congruence)) as (st1 & H1 & M1 & A1).
    destruct (IH st1) as (st2 & H2 & M2 & A2).
    { unfold exists_pool in *. now rewrite A1. }
    { eapply Forall_impl; [|exact HF']. cbn. intros x Hx. unfold exists_pool in *. now rewrite A1. }
    exists st2. split; [eapply runs_cons; eauto|]. split; [|congruence]. eapply moved_ext; [|eapply moved_trans; eauto]. intros h. unfold then_, onto. cbn [among existsb].
    destruct (Nat.eqb_spec h r) as [->|Hne]; cbn [orb]; [|reflexivity]. destruct (among rs j); reflexivity.
Qed.
Lemma destroy_list : forall rs st, NoDup rs -> Forall (fun r => exists_pool st r = true) rs ->
  exists st', runs st (map CPool (map BpDestroy rs)) st' /\ moved (fun h => if among rs h then None else Some h) st st' /\ length (st_alive st') = length (st_alive st) /\
    forall k, exists_pool st' k = exists_pool st k && negb (among rs k).
Proof.
  induction rs as [|r rs IH]; intros st HN HF; cbn [map].
  - exists st. split; [apply runs_nil|]. split; [|split; [reflexivity|intros k; cbn; now rewrite andb_true_r]]. unfold moved. rewrite rehome_fo. rewrite (map_ext _ (fun o => o)); [now rewrite map_id|].
    intros [c md h ct]. unfold fo. cbn. destruct h; cbn; f_equal; destruct ct as [|es]; try reflexivity; f_equal; rewrite (map_ext _ (fun e => e)); try apply map_id; intros [? ? []]; reflexivity.
  - inversion HF as [|? ? Hr HF']; inversion HN as [|? ? Hni HN']; subst. destruct (step_destroy st r Hr) as (st1 & H1 & M1 & L1 & X1).
    destruct (IH st1 HN') as (st2 & H2 & M2 & L2 & X2).
    { apply Forall_forall. intros x Hx. rewrite X1, (proj1 (Forall_forall _ _) HF' x Hx). destruct (Nat.eqb_spec x r); [subst; contradiction|reflexivity]. }
    exists st2. split; [eapply runs_cons; eauto|]. split; [|split; [congruence|]].
    + eapply moved_ext; [|eapply moved_trans; eauto]. intros h. unfold then_, drop. cbn [among existsb]. destruct (Nat.eqb_spec h r) as [->|Hne]; cbn [orb]; reflexivity.
    + intros k. rewrite X2, X1. cbn [among existsb]. destruct (Nat.eqb k r), (among rs k) eqn:Ei; cbn; unfold among in Ei; rewrite ?Ei; cbn; rewrite ?andb_true_r, ?andb_false_r; reflexivity.
Qed.
(** A finished coroutine delivers. *)
Lemma deliver_ok st i r : exists_pool st i = true -> exists_pool st r = true -> i <> r ->
  exists st', runs st (map CPool (deliver i r)) st' /\ moved (onto r i) st st' /\ length (st_alive st') = length (st_alive st) /\
    forall k, exists_pool st' k = exists_pool st k && negb (Nat.eqb k r).
Proof.
  intros Hi Hr Hn. destruct (step_merge st i r Hi Hr Hn) as (st1 & H1 & M1 & A1).
  destruct (step_destroy st1 r) as (st2 & H2 & M2 & L2 & X2); [unfold exists_pool in *; now rewrite A1|].
  exists st2. split; [eapply runs_cons; [exact H1|eapply runs_one; exact H2]|]. split; [|split; [congruence|]].
  - eapply moved_ext; [|eapply moved_trans; eauto]. intros h. unfold then_, onto, drop. destruct (Nat.eqb_spec h r); cbn; [destruct (Nat.eqb_spec i r); [contradiction|reflexivity]|].
    destruct (Nat.eqb_spec h r); [contradiction|reflexivity].
  - intros k. rewrite X2. unfold exists_pool. now rewrite A1.
Qed.

(** ** A container being filled by coroutines *)
Definition hasp (h : nat) (st : sstate) (n : nat) (k : cls) (es : list entry) : Prop :=
  exists o, nth_error (st_objs st) n = Some o /\ so_cls o = k /\ so_home o = Some h /\ so_content o = SCont es /\
    Forall (fun e => key_for k (en_key e) = true) es.
Definition bag (P : nat -> bool) (st : sstate) (n d : nat) (es : list entry) (L : list (ckey * obj)) : Prop :=
  kids P (see_from P (S n) d st) es = Ok L.
Notation bare := (map (fun e => (fst e, no_pools (snd e)))).

Lemma hasp_keep h st st' n k es : hasp h st n k es -> (forall j o, nth_error (st_objs st) j = Some o -> nth_error (st_objs st') j = Some o) -> hasp h st' n k es.
Proof. intros (o & H1 & H2) H. exists o. split; [now apply H|exact H2]. Qed.
Lemma bag_keep (P P' : nat -> bool) st st' n d d' es L : bag P st n d es L -> (forall h, P h = true -> P' h = true) -> (d <= d')%nat ->
  (forall j o, j <> n -> nth_error (st_objs st) j = Some o -> nth_error (st_objs st') j = Some o) -> bag P' st' n d' es L.
Proof.
  intros H HP Hd Hk. unfold bag in *. eapply (kids_impl P P'); [exact HP| |exact H]. intros j o Ho. apply (see_from_ext P P' (S n) (S n) st st' HP (Nat.le_refl _)) with (d := d); [|exact Hd|exact Ho].
  intros x y Hx. apply Hk. lia.
Qed.
Lemma hasp_moved f h h' st st' n k es : moved f st st' -> f h = Some h' -> hasp h st n k es -> hasp h' st' n k (map (fe f) es).
Proof.
  intros Hm Hf (o & H1 & H2 & H3 & H4 & H5). exists (fo f o). rewrite Hm, rehome_fo, nth_error_map, H1. split; [reflexivity|]. cbn [fo so_cls so_home so_content]. rewrite H3, H4.
  split; [exact H2|]. split; [exact Hf|]. split; [reflexivity|]. apply Forall_map. exact H5.
Qed.
Lemma bag_moved f (P P' : nat -> bool) st st' n d es L : moved f st st' -> (forall h, P h = true -> exists h', f h = Some h' /\ P' h' = true) -> bag P st n d es L -> bag P' st' n d (map (fe f) es) L.
Proof.
  intros Hm HP H. unfold bag in *. eapply (kids_rehome f P P'); [exact HP| |exact H]. intros k o Ho.
  pose proof (see_from_rehome f P P' (S n) st (st_alive st') HP d k o Ho) as H'. rewrite <- Hm in H'. destruct st'; exact H'.
Qed.
Lemma tree_moved f (P P' : nat -> bool) st st' lo d n o : moved f st st' -> (forall h, P h = true -> exists h', f h = Some h' /\ P' h' = true) -> see_from P lo d st n = Ok o -> see_from P' lo d st' n = Ok o.
Proof. intros Hm HP H. pose proof (see_from_rehome f P P' lo st (st_alive st') HP d n o H) as H'. rewrite <- Hm in H'. destruct st'; exact H'. Qed.
Lemma hasp_see h st n k es P d L : hasp h st n k es -> P h = true -> bag P st n d es L -> exists md, see_from P n (S d) st n = Ok (cont_obj k md (len es) L).
Proof.
  intros (o & H1 & H2 & H3 & H4 & _) HP HL. exists (so_made o). cbn [see_from]. rewrite Nat.ltb_irrefl. unfold the_obj. rewrite H1, H3. cbn [present obind]. rewrite H3. cbn [home_in]. rewrite HP. cbn [negb]. rewrite H4.
  erewrite (kids_impl P P); [|auto|intros j y Hy; apply (see_from_ext P P (S n) n st st ltac:(auto) ltac:(lia) ltac:(auto) d d j y ltac:(lia) Hy)|exact HL]. cbn [obind]. now rewrite H2.
Qed.

(** One more entry. *)
Lemma append_ok j n key st h k es P d L m dm o : exists_pool st j = true -> hasp h st n k es -> key_for k key = true -> (k = KArray -> key = OwnKey []) ->
  bag P st n d es L -> P j = true -> (n < m)%nat -> see_from (Nat.eqb j) m dm st m = Ok o -> below st ->
  exists st', spec_step st (CAppend j n key (Some m)) = Ok (st', SaNone) /\ st_alive st' = st_alive st /\ length (st_objs st') = length (st_objs st) /\ below st' /\
    (forall i x, i <> n -> nth_error (st_objs st) i = Some x -> nth_error (st_objs st') i = Some x) /\
    exists es', hasp h st' n k es' /\ len es' = len es + 1 /\ bag P st' n (Nat.max d dm) es' (L ++ [(key, o)]).
Proof.
  intros Hj (ob & Hob & Hc & Hh & Hes & Hkf) Hkey Harr HL HP Hnm Ho Hb.
  assert (Hm : (m < length (st_objs st))%nat).
  { destruct dm; [discriminate Ho|]. cbn [see_from] in Ho. destruct (m <? m)%nat; [discriminate Ho|]. apply obind_ok in Ho as (x & Hx & _). apply the_obj_some in Hx as [Hx _]. apply nth_error_Some. congruence. }
  assert (Hn : (n < length (st_objs st))%nat) by lia.
  destruct (kids_seen _ _ _ _ HL) as (ys & Hys).
  set (e := {| en_key := key; en_val := Some m; en_home := Some j |}).
  assert (Hstep : spec_step st (CAppend j n key (Some m)) = Ok (set_obj n (with_content (SCont (es ++ [e])) ob) st, SaNone)).
  { cbn [spec_step]. unfold the_obj. rewrite Hob, Hh. cbn [present obind]. unfold entries. rewrite Hes. cbn [obind known]. rewrite Hc, Hkey. destruct (Nat.ltb_spec m (length (st_objs st))); [|lia]. cbn [andb].
    rewrite Hys. cbn [obind]. rewrite Hj. unfold is_array. rewrite Hc. unfold e. destruct k; try reflexivity. cbn [cls_eqb]. now rewrite (Harr eq_refl). }
  rewrite Hstep. eexists. split; [reflexivity|]. pose proof (filled_set 0%nat n st ob (SCont (es ++ [e])) Hob) as (F1 & F2 & F3 & F4). set (st' := set_obj n _ st) in *.
  assert (Hput : st_objs st' = put n (with_content (SCont (es ++ [e])) ob) (st_objs st)) by (unfold st', set_obj; cbn [st_objs]; now apply put_spec).
  split; [exact F1|]. split; [rewrite Hput; apply put_length|]. split.
  { unfold below. rewrite F1, Hput. apply Forall_put; [exact Hb|]. pose proof (proj1 (Forall_forall _ _) Hb ob (nth_error_In _ _ Hob)) as [B1 B2]. split; [exact B1|]. cbn [with_content so_content]. rewrite Hes in B2.
    apply Forall_app. split; [exact B2|]. constructor; [|constructor]. intros h0 [= <-]. now apply exists_lt. }
  split; [exact F3|]. exists (es ++ [e]). split; [|split].
  - exists (with_content (SCont (es ++ [e])) ob). rewrite Hput, nth_error_put by exact Hn. rewrite Nat.eqb_refl. cbn [with_content so_cls so_home so_content]. repeat split; auto. apply Forall_app. split; [exact Hkf|]. constructor; [exact Hkey|constructor].
  - unfold len. rewrite app_length. cbn. lia.
  - apply (kids_app P _ es [e]).
    + apply (bag_keep P P st st' n d _ es L HL ltac:(auto) (Nat.le_max_l _ _) F3).
    + cbn [kids e en_home home_in en_val en_key]. rewrite HP. cbn [obind].
      erewrite (see_from_ext (Nat.eqb j) P m (S n) st st'); [reflexivity| |lia| |apply Nat.le_max_r|exact Ho].
      * intros x Hx. apply Nat.eqb_eq in Hx. now subst.
      * intros x y Hx Hy. apply F3; [lia|exact Hy].
Qed.

(** ** Blocks, all kinds alike *)
Section Blocks.
  Variable E : penv.
  Variable si : split_info.
  Variable get : N -> outcome view.
  Variable pr : bool.
  Notation R := (b_env E).
  Notation owns_of := (map (fun e : ckey * obj => (own_of (fst e), snd e))).
  Notation refs_of := (map (fun e : ckey * obj => (ref_of (fst e), snd e))).
  Notation at_ b := {| idx := b; off := b |}.

  Fixpoint gblock (t : objtype) (fuel : nat) (e : N) (s : rstate) (acc : list (ckey * obj)) (count : N) : outcome (list (ckey * obj) * N) :=
    match fuel with
    | O => Fuel
    | S f =>
        if off s <? e then
          '(key, s1) <- item_key E get pr t s ;;
          '(o, s2) <- run get (block_value E si f pr s1) ;;
          gblock t f e s2 ((key, o) :: acc) (u64 (count + 1))
        else Ok (rev acc, count)
    end.
  Definition to_block (t : objtype) (x : list (ckey * obj) * N) : ModelParse.block :=
    match t with
    | TArray => BArr (map snd (fst x)) (snd x)
    | _ => if pr then BMapView (refs_of (fst x)) (snd x) else BMap (owns_of (fst x)) (snd x)
    end.
  Definition block_prog (t : objtype) (f : nat) (be : N * N) : prog ModelParse.block :=
    match t with
    | TArray => ParseArrayBlock E si f pr (snd be) (at_ (fst be)) [] 0
    | _ => if pr then ParseMapViewBlock E si f (snd be) (at_ (fst be)) [] 0 else ParseMapBlock E si f (snd be) (at_ (fst be)) [] 0
    end.

  Lemma gblock_arr : forall f e s acc n, run get (ParseArrayBlock E si f pr e s (map snd acc) n) = omap (to_block TArray) (gblock TArray f e s acc n).
  Proof.
    induction f as [|f IH]; intros e s acc n; [reflexivity|]. rewrite ParseArrayBlock_S. cbn [gblock]. destruct (off s <? e); [|cbn; now rewrite map_rev].
    cbn [item_key obind]. rewrite run_bind. destruct (run get (block_value E si f pr s)) as [[o s1]| | | |]; cbn [obind omap]; try reflexivity. rewrite <- (IH e s1 ((OwnKey [], o) :: acc)). reflexivity.
  Qed.
  Lemma gblock_map : pr = false -> forall f e s acc n, run get (ParseMapBlock E si f e s (owns_of acc) n) = omap (to_block TMap) (gblock TMap f e s acc n).
  Proof.
    intros Hpr. induction f as [|f IH]; intros e s acc n; [reflexivity|]. rewrite ParseMapBlock_S. cbn [gblock]. destruct (off s <? e); [|unfold to_block; cbn; now rewrite Hpr, map_rev].
    cbn [item_key]. rewrite run_bind. destruct (run get (block_key E s)) as [[kv s1]| | | |]; cbn [obind omap]; try reflexivity. rewrite Hpr at 1. rewrite run_bind, run_lift.
    destruct (read_local R kv) as [b| | | |]; cbn [obind omap]; try reflexivity.
    rewrite run_bind, Hpr. destruct (run get (block_value E si f false s1)) as [[o s2]| | | |]; cbn [obind omap]; try reflexivity. rewrite <- (IH e s2 ((OwnKey b, o) :: acc)). reflexivity.
  Qed.
  Lemma gblock_mapview : pr = true -> forall f e s acc n, run get (ParseMapViewBlock E si f e s (refs_of acc) n) = omap (to_block TMap) (gblock TMap f e s acc n).
  Proof.
    intros Hpr. induction f as [|f IH]; intros e s acc n; [reflexivity|]. rewrite ParseMapViewBlock_S. cbn [gblock]. destruct (off s <? e); [|unfold to_block; cbn; now rewrite Hpr, map_rev].
    cbn [item_key]. rewrite run_bind. destruct (run get (block_key E s)) as [[kv s1]| | | |]; cbn [obind omap]; try reflexivity. rewrite Hpr at 1. cbn [obind].
    rewrite run_bind, Hpr. destruct (run get (block_value E si f true s1)) as [[o s2]| | | |]; cbn [obind omap]; try reflexivity. rewrite <- (IH e s2 ((RefKey kv, o) :: acc)). reflexivity.
  Qed.
  Lemma gblock_ok t f be : t <> TData -> run get (block_prog t f be) = omap (to_block t) (gblock t f (snd be) (at_ (fst be)) [] 0).
  Proof.
    intros Ht. unfold block_prog. destruct t; [contradiction| |apply (gblock_arr f (snd be) _ [] 0)].
    assert (H : pr = true \/ pr = false) by (destruct pr; auto). destruct H as [H|H].
    - rewrite H at 1. exact (gblock_mapview H f (snd be) (at_ (fst be)) [] 0).
    - rewrite H at 1. exact (gblock_map H f (snd be) (at_ (fst be)) [] 0).
  Qed.
  Lemma block_ok_g t f be : t <> TData -> block_ok E si get pr f t be = match gblock t f (snd be) (at_ (fst be)) [] 0 with Ok _ => true | _ => false end.
  Proof.
    intros Ht. unfold block_ok. fold (block_prog t f be). rewrite (gblock_ok t f be Ht). now destruct (gblock t f (snd be) _ [] 0).
  Qed.
End Blocks.

(** ** Merging *)
Section Merging.
  Variable E : penv.
  Variable si : split_info.
  Variable get : N -> outcome view.
  Variable pr : bool.
  Notation R := (b_env E).
  Notation owns_of := (map (fun e : ckey * obj => (own_of (fst e), snd e))).
  Notation refs_of := (map (fun e : ckey * obj => (ref_of (fst e), snd e))).
  Notation at_ b := {| idx := b; off := b |}.
  Notation gblock := (gblock E si get pr).
  Notation to_block := (to_block pr).
  Notation block_prog := (block_prog E si pr).

  Definition good_count (b : list (ckey * obj) * N) : Prop := snd b = u64 (len (fst b)).
  Lemma gblock_count t : forall f e s acc n b, gblock t f e s acc n = Ok b -> n = u64 (len acc) -> good_count b.
  Proof.
    induction f as [|f IH]; intros e s acc n b H Hn; [discriminate H|]. cbn [ParaSessionProofs.gblock] in H. destruct (off s <? e).
    - apply obind_ok in H as ([key s1] & _ & H). apply obind_ok in H as ([o s2] & _ & H). eapply IH; [exact H|]. subst n. unfold u64, len. cbn [length]. rewrite N.add_mod_idemp_l by discriminate. f_equal. lia.
    - inversion H; subst. unfold good_count, len. cbn [fst snd]. now rewrite rev_length.
  Qed.

  Lemma merge_gen {A} (M : list A * N -> outcome ModelParse.block -> outcome (list A * N)) (g : ckey * obj -> A) t :
    (forall acc b, M acc (Ok (to_block t b)) = Ok (match map g (fst b) with [] => acc | _ => (map g (fst b) ++ fst acc, u64 (snd acc + snd b)) end)) ->
    forall bl items n, Forall good_count bl -> n = u64 (len items) ->
    merge_all M (items, n) (map (fun b => Ok (to_block t b)) bl) = Ok (map g (concat (rev (map fst bl))) ++ items, u64 (len (concat (rev (map fst bl))) + len items)).
  Proof.
    intros HM. induction bl as [|b bl IH]; intros items n HF Hn; cbn [map merge_all rev concat app].
    - cbn. now subst n.
    - inversion HF as [|? ? Hb HF']; subst. rewrite HM. cbn [obind]. cbn [fst snd]. rewrite concat_app. cbn [concat]. rewrite app_nil_r, map_app.
      assert (E1 : match map g (fst b) with [] => (items, u64 (len items)) | _ :: _ => (map g (fst b) ++ items, u64 (u64 (len items) + snd b)) end = (map g (fst b) ++ items, u64 (len (map g (fst b) ++ items)))).
      { rewrite Hb. destruct (fst b) as [|x l]; [reflexivity|]. cbn [map app]. f_equal. unfold u64, len. cbn [length]. rewrite app_length, map_length. rewrite <- N.add_mod by discriminate. f_equal. lia. }
      rewrite E1. rewrite (IH _ _ HF' eq_refl). rewrite <- app_assoc. f_equal. f_equal. f_equal. unfold len. rewrite !app_length, map_length. lia.
  Qed.
  Lemma merge_arr_g acc b : merge_arr acc (Ok (to_block TArray b)) = Ok (match map snd (fst b) with [] => acc | _ => (map snd (fst b) ++ fst acc, u64 (snd acc + snd b)) end).
  Proof. reflexivity. Qed.
  Lemma merge_map_g acc b : pr = false -> merge_map acc (Ok (to_block TMap b)) = Ok (match owns_of (fst b) with [] => acc | _ => (owns_of (fst b) ++ fst acc, u64 (snd acc + snd b)) end).
  Proof. intros H. unfold ParaSessionProofs.to_block. rewrite H. reflexivity. Qed.
  Lemma merge_mapview_g acc b : pr = true -> merge_mapview acc (Ok (to_block TMap b)) = Ok (match refs_of (fst b) with [] => acc | _ => (refs_of (fst b) ++ fst acc, u64 (snd acc + snd b)) end).
  Proof. intros H. unfold ParaSessionProofs.to_block. rewrite H. reflexivity. Qed.

  Lemma merge_fail {A} (M : A -> outcome ModelParse.block -> outcome A) : (forall acc r x, M acc r = Ok x -> exists b, r = Ok b) ->
    forall l acc x, merge_all M acc l = Ok x -> Forall (fun r => exists b, r = Ok b) l.
  Proof.
    intros HM. induction l as [|r l IH]; intros acc x H; cbn [merge_all] in H; [constructor|]. apply obind_ok in H as (acc' & H1 & H). constructor; [eauto|eauto].
  Qed.
  Lemma hard_none l : Forall (fun r : outcome ModelParse.block => exists b, r = Ok b) l -> hard_failure l = None.
  Proof. induction 1 as [|r l (b & ->) _ IH]; [reflexivity|exact IH]. Qed.

  Definition coro_prog (t : objtype) (f : nat) (os : N) : prog (obj * N) :=
    match t with TArray => ParseArray E si f pr os | _ => ParseMap E si f pr os end.
  Definition order {A} (t : objtype) (rs : list A) : list A := match t with TArray => rs | _ => rev rs end.
  Definition coro_obj (t : objtype) (l : list (ckey * obj)) : obj :=
    match t with
    | TArray => OArray CoroFrame (u64 (len l)) (map snd l)
    | _ => if pr then OMapView CoroFrame (u64 (len l)) (refs_of l) else OMap CoroFrame (u64 (len l)) (owns_of l)
    end.

  (* the results of the tasks *)
  Lemma tasks_ok t f rs : t <> TData -> Forall (fun r : outcome ModelParse.block => exists b, r = Ok b) (map (fun be => run get (block_prog t f be)) rs) ->
    exists bl, Forall2 (fun be b => gblock t f (snd be) (at_ (fst be)) [] 0 = Ok b) rs bl /\ map (fun be => run get (block_prog t f be)) rs = map (fun b => Ok (to_block t b)) bl /\ Forall good_count bl.
  Proof.
    intros Ht. induction rs as [|be rs IH]; intros H; [exists []; repeat split; constructor|]. cbn [map] in H. inversion H as [|? ? Hb HF]; subst. destruct (IH HF) as (bl & H1 & H2 & H3).
    rewrite (gblock_ok _ _ _ _ t f be Ht) in Hb. destruct Hb as (x & Hb). destruct (gblock t f (snd be) (at_ (fst be)) [] 0) as [b| | | |] eqn:Eg; try discriminate Hb.
    exists (b :: bl). split; [constructor; assumption|]. split; [cbn [map]; rewrite H2; f_equal; rewrite (gblock_ok _ _ _ _ t f be Ht), Eg; reflexivity|]. constructor; [|exact H3]. eapply gblock_count; [exact Eg|reflexivity].
  Qed.
  Lemma tasks_back t f rs bl : t <> TData -> Forall2 (fun be b => gblock t f (snd be) (at_ (fst be)) [] 0 = Ok b) rs bl -> Forall (fun r : outcome ModelParse.block => exists b, r = Ok b) (map (fun be => run get (block_prog t f be)) rs).
  Proof.
    intros Ht. induction 1 as [|be b rs bl H _ IH]; [constructor|]. cbn [map]. constructor; [|exact IH]. rewrite (gblock_ok _ _ _ _ t f be Ht), H. cbn. eauto.
  Qed.

  Lemma coro_run t f os : t <> TData -> (exists rs, split_ranges E si os = Ok rs) ->
    match run get (coro_prog t (S f) os) with
    | Ok (o, _) => exists rs bl, split_ranges E si os = Ok rs /\ Forall2 (fun be b => gblock t f (snd be) (at_ (fst be)) [] 0 = Ok b) (order t rs) bl /\ o = coro_obj t (concat (map fst bl))
    | _ => forall rs bl, split_ranges E si os = Ok rs -> ~ Forall2 (fun be b => gblock t f (snd be) (at_ (fst be)) [] 0 = Ok b) (order t rs) bl
    end.
  Proof.
    intros Ht (rs0 & Hrs0). rewrite Hrs0. unfold split_ranges in Hrs0. apply obind_ok in Hrs0 as ([cnt s1] & P1 & Hrs0). apply obind_ok in Hrs0 as ([id s2] & P2 & Hrs0). cbn [fst snd] in *.
    destruct (GetBlockInfoFromId si (Base.u32 id)) as [sizes| | | |] eqn:Eb; try discriminate Hrs0. cbn [omap] in Hrs0. destruct (ranges (idx s2) sizes) as [rs last] eqn:Er. cbn [fst] in Hrs0. inversion Hrs0; subst rs0. clear Hrs0.
    assert (Hno : forall bl, Forall2 (fun be b => gblock t f (snd be) (at_ (fst be)) [] 0 = Ok b) (order t rs) bl ->
              exists bl', Forall2 (fun be b => gblock t f (snd be) (at_ (fst be)) [] 0 = Ok b) rs bl').
    { intros bl H. destruct t; [contradiction| |eauto]. cbn [order] in H. exists (rev bl). rewrite <- (rev_involutive rs). now apply Forall2_rev. }
    destruct t; [contradiction| |]; unfold coro_prog.
    - rewrite ParseMap_S. cbv zeta. rewrite run_bind, run_lift, P1. cbn [obind]. rewrite run_bind, run_lift, P2. cbn [obind]. rewrite run_bind, run_lift, Eb. cbn [obind]. rewrite Er.
      assert (Hpr : pr = true \/ pr = false) by (destruct pr; auto). destruct Hpr as [Hpr|Hpr];
        (match goal with |- context [run get (if pr then ?A else ?B)] => replace (run get (if pr then A else B)) with (run get (if negb pr then B else A)) by (destruct pr; reflexivity) end);
        (match goal with |- context [if negb pr then ?B else ?A] => let H := fresh in assert (H : (if negb pr then B else A) = ltac:(match type of Hpr with _ = true => exact A | _ => exact B end)) by (rewrite Hpr; reflexivity); rewrite H; clear H end); cbn [run]; rewrite map_map.
      + replace (map (fun x => run get (ParseMapViewBlock E si f (snd x) {| idx := fst x; off := fst x |} [] 0)) rs) with (map (fun be => run get (block_prog TMap f be)) rs) by (apply map_ext; intros be; unfold ParaSessionProofs.block_prog; now rewrite Hpr).
        set (res := map (fun be => run get (block_prog TMap f be)) rs) in *.
        destruct (hard_failure res) as [fl|] eqn:Eh.
        { assert (Hx : forall o e, fail_out fl <> Ok (o, e) :> outcome (obj * N)) by (destruct fl; discriminate). destruct (fail_out fl) as [[o e]| | | |] eqn:Ef; try (now exfalso; eapply Hx);
          intros rs' bl [= <-] HF; destruct (Hno bl HF) as (bl' & HF'); apply (tasks_back TMap f rs bl' Ht) in HF'; fold res in HF'; rewrite (hard_none res HF') in Eh; discriminate. }
        rewrite run_bind, run_lift. destruct (merge_all merge_mapview ([], 0) res) as [[items size]| | | |] eqn:Em; cbn [obind run];
          try (intros rs' bl [= <-] HF; destruct (Hno bl HF) as (bl' & HF'); pose proof (tasks_back TMap f rs bl' Ht HF') as HA; fold res in HA; destruct (tasks_ok TMap f rs Ht HA) as (bl2 & _ & T2 & T3);
               fold res in T2; rewrite T2, (merge_gen merge_mapview _ TMap (fun acc b => merge_mapview_g acc b Hpr) bl2 [] 0 T3 eq_refl) in Em; discriminate Em).
        assert (HA : Forall (fun r => exists b, r = Ok b) res) by (eapply (merge_fail merge_mapview); [|exact Em]; intros acc r x Hx; unfold merge_mapview in Hx; apply obind_ok in Hx as (b & -> & _); eauto).
        destruct (tasks_ok TMap f rs Ht HA) as (bl & T1 & T2 & T3). fold res in T2. rewrite T2, (merge_gen merge_mapview _ TMap (fun acc b => merge_mapview_g acc b Hpr) bl [] 0 T3 eq_refl) in Em. inversion Em; subst items size.
        exists rs, (rev bl). split; [reflexivity|]. split; [cbn [order]; now apply Forall2_rev|]. unfold coro_obj. rewrite Hpr, app_nil_r, map_rev. f_equal. f_equal. unfold len. cbn [length]. lia.
      + replace (map (fun x => run get (ParseMapBlock E si f (snd x) {| idx := fst x; off := fst x |} [] 0)) rs) with (map (fun be => run get (block_prog TMap f be)) rs) by (apply map_ext; intros be; unfold ParaSessionProofs.block_prog; now rewrite Hpr).
        set (res := map (fun be => run get (block_prog TMap f be)) rs) in *.
        destruct (hard_failure res) as [fl|] eqn:Eh.
        { assert (Hx : forall o e, fail_out fl <> Ok (o, e) :> outcome (obj * N)) by (destruct fl; discriminate). destruct (fail_out fl) as [[o e]| | | |] eqn:Ef; try (now exfalso; eapply Hx);
          intros rs' bl [= <-] HF; destruct (Hno bl HF) as (bl' & HF'); apply (tasks_back TMap f rs bl' Ht) in HF'; fold res in HF'; rewrite (hard_none res HF') in Eh; discriminate. }
        rewrite run_bind, run_lift. destruct (merge_all merge_map ([], 0) res) as [[items size]| | | |] eqn:Em; cbn [obind run];
          try (intros rs' bl [= <-] HF; destruct (Hno bl HF) as (bl' & HF'); pose proof (tasks_back TMap f rs bl' Ht HF') as HA; fold res in HA; destruct (tasks_ok TMap f rs Ht HA) as (bl2 & _ & T2 & T3);
               fold res in T2; rewrite T2, (merge_gen merge_map _ TMap (fun acc b => merge_map_g acc b Hpr) bl2 [] 0 T3 eq_refl) in Em; discriminate Em).
        assert (HA : Forall (fun r => exists b, r = Ok b) res) by (eapply (merge_fail merge_map); [|exact Em]; intros acc r x Hx; unfold merge_map in Hx; apply obind_ok in Hx as (b & -> & _); eauto).
        destruct (tasks_ok TMap f rs Ht HA) as (bl & T1 & T2 & T3). fold res in T2. rewrite T2, (merge_gen merge_map _ TMap (fun acc b => merge_map_g acc b Hpr) bl [] 0 T3 eq_refl) in Em. inversion Em; subst items size.
        exists rs, (rev bl). split; [reflexivity|]. split; [cbn [order]; now apply Forall2_rev|]. unfold coro_obj. rewrite Hpr, app_nil_r, map_rev. f_equal. f_equal. unfold len. cbn [length]. lia.
    - rewrite ParseArray_S. cbv zeta. rewrite run_bind, run_lift, P1. cbn [obind]. rewrite run_bind, run_lift, P2. cbn [obind]. rewrite run_bind, run_lift, Eb. cbn [obind]. rewrite Er. cbn [run]. rewrite map_map.
      change (map (fun x => run get (ParseArrayBlock E si f pr (snd x) {| idx := fst x; off := fst x |} [] 0)) rs) with (map (fun be => run get (block_prog TArray f be)) rs).
      set (res := map (fun be => run get (block_prog TArray f be)) rs) in *.
      destruct (hard_failure res) as [fl|] eqn:Eh.
      { assert (Hx : forall o e, fail_out fl <> Ok (o, e) :> outcome (obj * N)) by (destruct fl; discriminate). destruct (fail_out fl) as [[o e]| | | |] eqn:Ef; try (now exfalso; eapply Hx);
        intros rs' bl [= <-] HF; destruct (Hno bl HF) as (bl' & HF'); apply (tasks_back TArray f rs bl' Ht) in HF'; fold res in HF'; rewrite (hard_none res HF') in Eh; discriminate. }
      assert (Hrev : forall bl, map (fun be => run get (block_prog TArray f be)) rs = map (fun b => Ok (to_block TArray b)) bl -> rev res = map (fun b => Ok (to_block TArray b)) (rev bl)) by (intros bl Hbl; unfold res; rewrite Hbl; now rewrite map_rev).
      rewrite run_bind, run_lift. destruct (merge_all merge_arr ([], 0) (rev res)) as [[items size]| | | |] eqn:Em; cbn [obind run];
        try (intros rs' bl [= <-] HF; destruct (Hno bl HF) as (bl' & HF'); pose proof (tasks_back TArray f rs bl' Ht HF') as HA; fold res in HA; destruct (tasks_ok TArray f rs Ht HA) as (bl2 & _ & T2 & T3);
             apply Hrev in T2; rewrite T2, (merge_gen merge_arr _ TArray merge_arr_g (rev bl2) [] 0 (Forall_rev T3) eq_refl) in Em; discriminate Em).
      assert (HA : Forall (fun r => exists b, r = Ok b) res).
      { rewrite <- (rev_involutive res). apply Forall_rev. eapply (merge_fail merge_arr); [|exact Em]. intros acc r x Hx. unfold merge_arr in Hx. apply obind_ok in Hx as (b & -> & _). eauto. }
      destruct (tasks_ok TArray f rs Ht HA) as (bl & T1 & T2 & T3). apply Hrev in T2. rewrite T2, (merge_gen merge_arr _ TArray merge_arr_g (rev bl) [] 0 (Forall_rev T3) eq_refl) in Em. inversion Em; subst items size.
      exists rs, bl. split; [reflexivity|]. split; [exact T1|]. unfold coro_obj. rewrite app_nil_r, map_rev, rev_involutive. f_equal. f_equal. unfold len. cbn [length]. lia.
  Qed.

  Lemma coro_run_none t f os : t <> TData -> (forall rs, split_ranges E si os <> Ok rs) -> forall x, run get (coro_prog t f os) <> Ok x.
  Proof.
    intros Ht H x Hx. destruct f as [|f]; [destruct t; discriminate Hx|].
    assert (Hs : exists y s1 z s2 w, parseLength R (at_ os) = Ok (y, s1) /\ parseLength R s1 = Ok (z, s2) /\ GetBlockInfoFromId si (Base.u32 z) = Ok w).
    { destruct t; [contradiction| |]; unfold coro_prog in Hx; [rewrite ParseMap_S in Hx|rewrite ParseArray_S in Hx]; cbv zeta in Hx; rewrite run_bind, run_lift in Hx; apply obind_ok in Hx as ([y s1] & P1 & Hx);
      rewrite run_bind, run_lift in Hx; apply obind_ok in Hx as ([z s2] & P2 & Hx); rewrite run_bind, run_lift in Hx; apply obind_ok in Hx as (w & P3 & Hx); exists y, s1, z, s2, w; auto. }
    destruct Hs as (y & s1 & z & s2 & w & P1 & P2 & P3). eapply H. unfold split_ranges. rewrite P1. cbn [obind snd]. rewrite P2. cbn [obind fst snd]. rewrite P3. reflexivity.
  Qed.
End Merging.
