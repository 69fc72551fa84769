(** * The calls of the parallel parser are an execution of its coroutines (for C107). *)
From Verif Require Import Base BaseLemmas ModelVarint ModelData ModelSecondary ModelObject ModelPool ModelParse ModelWrapper ModelStorage ModelFrames
  ModelAlloc ModelParaAlloc ModelClient ModelSession Spec SpecApi SpecClient ParseLemmas PropPool PropFrames PropAlloc ParaAllocProofs SessionProofs ParaSessionProofs ParaSessionProofs2 PropSession.
From Coq Require Import ZifyBool ZifyNat ZifyN.

(** ** Calls and pools *)

(** For every variable, the pool its object was made from, and its class. *)
Definition var_of (op : ccall) : list (nat * cls) :=
  match op with CData i v _ => [(i, if v then KDataView else KData)] | CCont i k => [(i, k)] | _ => [] end.
Definition item_of (i : nat) (k : cls) : list bp_op := match item_cls k with Some ik => [BpAlloc i ik false] | None => [] end.
Definition ops_of (vs : list (nat * cls)) (op : ccall) : list bp_op :=
  match op with
  | CPool o => [o]
  | CData i v _ => [BpAlloc i (if v then KDataView else KData) false]
  | CCont i k | CScratch i k => [BpAlloc i k false]
  | CInsert n _ _ => match nth_error vs n with Some (i, k) => item_of i k | None => [] end
  | CAppend j n _ _ => match nth_error vs n with Some (_, k) => item_of j k | None => [] end
  | _ => []
  end.
Fixpoint pool_ops (vs : list (nat * cls)) (l : list ccall) : list bp_op :=
  match l with [] => [] | op :: l' => ops_of vs op ++ pool_ops (vs ++ var_of op) l' end.
Definition vars_after (vs : list (nat * cls)) (l : list ccall) : list (nat * cls) := vs ++ flat_map var_of l.

Lemma vars_app vs a b : vars_after vs (a ++ b) = vars_after (vars_after vs a) b.
Proof. unfold vars_after. now rewrite flat_map_app, app_assoc. Qed.
Lemma vars_cons vs op l : vars_after vs (op :: l) = vars_after (vs ++ var_of op) l.
Proof. unfold vars_after. cbn [flat_map]. now rewrite app_assoc. Qed.
Lemma pool_ops_app a : forall vs b, pool_ops vs (a ++ b) = pool_ops vs a ++ pool_ops (vars_after vs a) b.
Proof.
  induction a as [|op a IH]; intros vs b; cbn [app pool_ops]; [unfold vars_after; cbn; now rewrite app_nil_r|].
  rewrite IH, vars_cons, app_assoc. reflexivity.
Qed.
Lemma vars_nth vs l n x : nth_error vs n = Some x -> nth_error (vars_after vs l) n = Some x.
Proof. intros H. unfold vars_after. rewrite nth_error_app1; [exact H|]. apply nth_error_Some. congruence. Qed.
Lemma pool_ops_pool vs l : pool_ops vs (map CPool l) = l.
Proof. revert vs. induction l as [|o l IH]; intros vs; [reflexivity|]. cbn [map pool_ops ops_of var_of app]. now rewrite IH. Qed.
Lemma vars_pool vs l : vars_after vs (map CPool l) = vs.
Proof. unfold vars_after. induction l as [|o l IH]; cbn; [apply app_nil_r|]. exact IH. Qed.

Section Values.
  Variable E : penv.
  Variable get : N -> outcome view.
  Variable j : nat.
  Variable pr : bool.
  Notation R := (b_env E).
  Notation p := (PoolId j).
  Notation allocs := (map (fun k => BpAlloc j k false)).

  Lemma make_ops vs t : ops_of vs (make_call j pr t) = [BpAlloc j (kind pr t) false].
  Proof. destruct t, pr; reflexivity. Qed.
  Lemma make_var t : var_of (make_call j pr t) = [(j, kind pr t)].
  Proof. destruct t, pr; reflexivity. Qed.
  Lemma make_len (vs : list (nat * cls)) t : length (vs ++ var_of (make_call j pr t)) = S (length vs).
  Proof. rewrite make_var, app_length. cbn. lia. Qed.
  Lemma make_nth (vs : list (nat * cls)) t : nth_error (vs ++ var_of (make_call j pr t)) (length vs) = Some (j, kind pr t).
  Proof. rewrite make_var, nth_error_app2, Nat.sub_diag by lia. reflexivity. Qed.

  Lemma value_ops : forall f,
    (forall t s n vs, nth_error vs n = Some (j, kind pr t) ->
        pool_ops vs (fst (value_calls E get p j pr f t s n (length vs))) = allocs (value_allocs E get p pr f t s) /\
        snd (value_calls E get p j pr f t s n (length vs)) = length (vars_after vs (fst (value_calls E get p j pr f t s n (length vs))))) /\
    (forall count s n vs, nth_error vs n = Some (j, KArray) ->
        pool_ops vs (fst (array_calls E get p j pr f count s n (length vs))) = allocs (array_allocs E get p pr f count s) /\
        snd (array_calls E get p j pr f count s n (length vs)) = length (vars_after vs (fst (array_calls E get p j pr f count s n (length vs))))) /\
    (forall count s n vs, nth_error vs n = Some (j, kind pr TMap) ->
        pool_ops vs (fst (entry_calls E get p j pr f count s n (length vs))) = allocs (entry_allocs E get p pr f count s) /\
        snd (entry_calls E get p j pr f count s n (length vs)) = length (vars_after vs (fst (entry_calls E get p j pr f count s n (length vs))))).
  Proof.
    assert (H0 : forall vs : list (nat * cls), pool_ops vs [] = allocs [] /\ length vs = length (vars_after vs [])) by (intros vs; split; [reflexivity|unfold vars_after; cbn; now rewrite app_nil_r]).
    induction f as [|f (IV & IA & IM)].
    { split; [|split]; intros; apply H0. }
    split; [|split].
    - intros t s n vs Hn. rewrite value_calls_S, value_allocs_S. destruct t.
      + cbn [fst snd]. assert (HA : forall x, pool_ops vs [CAssign n x] = allocs [] /\ length vs = length (vars_after vs [CAssign n x])) by (intros x; split; [reflexivity|unfold vars_after; cbn; now rewrite app_nil_r]).
        destruct (run get (Data_valueParse E pr s)) as [[[] ?]| | | |]; apply H0 || apply HA.
      + cbn zeta.
        assert (HC : forall (r : list ccall * nat) l, (pool_ops vs (fst r) = allocs l /\ snd r = length (vars_after vs (fst r))) ->
          pool_ops vs (fst (CClear n :: fst r, snd r)) = allocs l /\ snd (CClear n :: fst r, snd r) = length (vars_after vs (fst (CClear n :: fst r, snd r)))).
        { intros r l [Q1 Q2]. cbn [fst snd pool_ops ops_of var_of app]. rewrite app_nil_r. split; [exact Q1|]. rewrite vars_cons. cbn [var_of]. now rewrite app_nil_r. }
        apply HC. destruct (obind (parseLength R s) _) as [[count s2]| | | |]; try apply H0. destruct pr.
        * now apply IM.
        * destruct (check_oor R s2); try apply H0. now apply IM.
      + cbn zeta.
        assert (HC : forall (r : list ccall * nat) l, (pool_ops vs (fst r) = allocs l /\ snd r = length (vars_after vs (fst r))) ->
          pool_ops vs (fst (CClear n :: fst r, snd r)) = allocs l /\ snd (CClear n :: fst r, snd r) = length (vars_after vs (fst (CClear n :: fst r, snd r)))).
        { intros r l [Q1 Q2]. cbn [fst snd pool_ops ops_of var_of app]. rewrite app_nil_r. split; [exact Q1|]. rewrite vars_cons. cbn [var_of]. now rewrite app_nil_r. }
        apply HC. destruct (obind (parseLength R s) _) as [[count s2]| | | |]; try apply H0. now apply IA.
    - intros count s n vs Hn. rewrite array_calls_S, array_allocs_S. destruct (count =? 0); [apply H0|].
      destruct (parseObjectType R s) as [[t s1]| | | |]; try apply H0. cbn zeta.
      set (vs1 := vs ++ var_of (make_call j pr t)). pose proof (make_len vs t) as L1. pose proof (make_nth vs t) as N1. fold vs1 in L1, N1.
      destruct (IV t s1 (length vs) vs1 N1) as [Q1 Q2]. rewrite L1 in Q1, Q2.
      set (c1 := value_calls E get p j pr f t s1 (length vs) (S (length vs))) in *. destruct (run get (valueParse E p pr f t s1)) as [[o s2]| | | |]; cbn [fst snd].
      2-5: (cbn [pool_ops]; rewrite make_ops, vars_cons; fold vs1; rewrite Q1; split; [cbn [app map]; now rewrite app_nil_r|exact Q2]).
      set (vs2 := vars_after vs1 (fst c1)) in *.
      assert (N2 : nth_error vs2 n = Some (j, KArray)) by (unfold vs2; apply vars_nth; unfold vs1; rewrite nth_error_app1; [exact Hn|apply nth_error_Some; congruence]).
      destruct (IA (count - 1) s2 n vs2 N2) as [P1 P2]. rewrite <- Q2 in P1, P2. cbn [pool_ops]. rewrite make_ops, pool_ops_app. fold vs1. rewrite Q1. fold vs2. cbn [pool_ops ops_of var_of]. rewrite N2. cbn [item_of item_cls]. rewrite app_nil_r, P1.
      split; [cbn [app map]; rewrite map_app; reflexivity|]. rewrite P2, vars_cons, vars_app. fold vs1 vs2. rewrite vars_cons. cbn [var_of]. now rewrite app_nil_r.
    - intros count s n vs Hn. rewrite entry_calls_S, entry_allocs_S. destruct (count =? 0); [apply H0|].
      destruct (run get (parse_key E s)) as [[kv s0]| | | |]; try apply H0.
      destruct (parseObjectType R s0) as [[t s1]| | | |]; try apply H0. cbn zeta.
      set (vs1 := vs ++ var_of (make_call j pr t)). pose proof (make_len vs t) as L1. pose proof (make_nth vs t) as N1. fold vs1 in L1, N1.
      destruct (IV t s1 (length vs) vs1 N1) as [Q1 Q2]. rewrite L1 in Q1, Q2.
      set (c1 := value_calls E get p j pr f t s1 (length vs) (S (length vs))) in *. destruct (run get (valueParse E p pr f t s1)) as [[o s2]| | | |]; cbn [fst snd].
      2-5: (cbn [pool_ops]; rewrite make_ops, vars_cons; fold vs1; rewrite Q1; split; [cbn [app map]; now rewrite app_nil_r|exact Q2]).
      assert (Hk : match (if pr then Ok (RefKey kv) else omap OwnKey (read_local R kv)), (if pr then Ok [] else read_local R kv) with
                   | Ok _, Ok _ => True | Ok _, _ => False | _, Ok _ => False | _, _ => True end) by (destruct pr; [exact I|]; destruct (read_local R kv); exact I).
      destruct (if pr then Ok (RefKey kv) else omap OwnKey (read_local R kv)) as [key| | | |], (if pr then Ok [] else read_local R kv) as [?| | | |]; try contradiction; cbn [fst snd].
      2-17: (cbn [pool_ops]; rewrite make_ops, vars_cons; fold vs1; rewrite Q1; split; [cbn [app map]; now rewrite app_nil_r|exact Q2]).
      set (vs2 := vars_after vs1 (fst c1)) in *.
      assert (N2 : nth_error vs2 n = Some (j, kind pr TMap)) by (unfold vs2; apply vars_nth; unfold vs1; rewrite nth_error_app1; [exact Hn|apply nth_error_Some; congruence]).
      destruct (IM (count - 1) s2 n vs2 N2) as [P1 P2]. rewrite <- Q2 in P1, P2. cbn [pool_ops]. rewrite make_ops, pool_ops_app. fold vs1. rewrite Q1. fold vs2. cbn [pool_ops ops_of var_of]. rewrite N2.
      replace (item_of j (kind pr TMap)) with [BpAlloc j (entry_kind pr) false] by (destruct pr; reflexivity). rewrite app_nil_r, P1.
      split; [cbn [app map]; rewrite map_app; reflexivity|]. rewrite P2, vars_cons, vars_app. fold vs1 vs2. rewrite vars_cons. cbn [var_of]. now rewrite app_nil_r.
  Qed.
End Values.

(** The allocations are the same whatever the pool. *)
Lemma allocs_pool E get p p' pr : forall f,
  (forall t s, value_allocs E get p pr f t s = value_allocs E get p' pr f t s) /\
  (forall count s, array_allocs E get p pr f count s = array_allocs E get p' pr f count s) /\
  (forall count s, entry_allocs E get p pr f count s = entry_allocs E get p' pr f count s).
Proof.
  assert (HO : forall f t s, match run get (valueParse E p pr f t s), run get (valueParse E p' pr f t s) with
    | Ok (_, a), Ok (_, b) => a = b | Ok _, _ => False | _, Ok _ => False | _, _ => True end).
  { intros f t s. destruct (run get (valueParse E p pr f t s)) as [[o s1]| | | |] eqn:E1; [destruct (value_other_pool E get p p' pr f t s o s1 E1) as (o' & -> & _); reflexivity| | | |].
    all: destruct (run get (valueParse E p' pr f t s)) as [[o s1]| | | |] eqn:E2; try exact I; destruct (value_other_pool E get p' p pr f t s o s1 E2) as (o' & E3 & _); congruence. }
  induction f as [|f (IV & IA & IM)]; [repeat split; reflexivity|]. split; [|split].
  - intros t s. rewrite !value_allocs_S. destruct t; [reflexivity| |]; destruct (obind (parseLength (b_env E) s) _) as [[count s2]| | | |]; try reflexivity.
    + destruct pr; [apply IM|]. destruct (check_oor (b_env E) s2); try reflexivity. apply IM.
    + apply IA.
  - intros count s. rewrite !array_allocs_S. destruct (count =? 0); [reflexivity|]. destruct (parseObjectType (b_env E) s) as [[t s1]| | | |]; try reflexivity.
    rewrite IV. pose proof (HO f t s1) as H. destruct (run get (valueParse E p pr f t s1)) as [[o s2]| | | |], (run get (valueParse E p' pr f t s1)) as [[o' s2']| | | |]; try contradiction; try reflexivity. subst s2'. now rewrite IA.
  - intros count s. rewrite !entry_allocs_S. destruct (count =? 0); [reflexivity|]. destruct (run get (parse_key E s)) as [[kv s0]| | | |]; try reflexivity. destruct (parseObjectType (b_env E) s0) as [[t s1]| | | |]; try reflexivity.
    rewrite IV. pose proof (HO f t s1) as H. destruct (run get (valueParse E p pr f t s1)) as [[o s2]| | | |], (run get (valueParse E p' pr f t s1)) as [[o' s2']| | | |]; try contradiction; try reflexivity. subst s2'. now rewrite IM.
Qed.

(** ** Steps *)
Lemma fs_one n f ops n' f' : fstep n f ops n' f' -> fsteps n f ops n' f'.
Proof. intros H. change ops with ([] ++ ops). eapply fs_step; [apply fs_refl|exact H]. Qed.
Lemma fs_cons n f o1 n1 f1 o2 n2 f2 : fstep n f o1 n1 f1 -> fsteps n1 f1 o2 n2 f2 -> fsteps n f (o1 ++ o2) n2 f2.
Proof. intros H1 H2. eapply fsteps_trans; [apply fs_one; exact H1|exact H2]. Qed.
Lemma fs_allocs n i J l : fsteps n (FRun i (map (fun k => AAlloc k false) l ++ J)) (map (fun k => BpAlloc i k false) l) n (FRun i J).
Proof.
  induction l as [|k l IH]; [apply fs_refl|]. cbn [map app]. change (BpAlloc i k false :: map (fun k0 => BpAlloc i k0 false) l) with ([BpAlloc i k false] ++ map (fun k0 => BpAlloc i k0 false) l).
  eapply fs_cons; [apply f_alloc|exact IH].
Qed.
Lemma fs_child i b l1 l2 J n c ops n' c' : fsteps n c ops n' c' -> fsteps n (FAwait i b (l1 ++ c :: l2) J) ops n' (FAwait i b (l1 ++ c' :: l2) J).
Proof. induction 1 as [|n f o1 n1 f1 o2 n2 f2 _ IH Hs]; [apply fs_refl|]. eapply fs_step; [exact IH|]. now apply f_child. Qed.

Section Coros.
  Variable E : penv.
  Variable si : split_info.
  Variable get : N -> outcome view.
  Variable pr : bool.
  Notation R := (b_env E).
  Notation coro_calls := (coro_calls E si get pr).
  Notation item_calls := (item_calls E si get pr).
  Notation element_calls := (element_calls E si get pr).
  Notation block_calls := (block_calls E si get pr).

  Definition cjob (t : objtype) (f : nat) (os : N) : job := match t with TArray => array_job E si get f pr os | _ => map_job E si get f pr os end.
  Definition bjob (t : objtype) (f : nat) (be : N) (s : rstate) : job := match t with TArray => array_block_job E si get f pr be s | _ => map_block_job E si get f pr be s end.
  Definition bjob_at (t : objtype) (f : nat) (be : N * N) : job := bjob t f (snd be) {| idx := fst be; off := fst be |}.

  Definition F_el (f : nat) : Prop := forall j s vs q J c m' q', element_calls f j s (length vs) q = (c, (m', q')) ->
    m' = length (vars_after vs c) /\
    if cleanj (value_job E si get f pr s) then fsteps q (FRun j (value_job E si get f pr s ++ J)) (pool_ops vs c) q' (FRun j J)
    else fsteps q (FRun j (value_job E si get f pr s ++ J)) (pool_ops vs c ++ [BpDestroy j]) q' FFail.
  Definition F_it (f : nat) : Prop := forall t ok j n e s vs q i0 c m' q', t <> TData -> nth_error vs n = Some (i0, kind pr t) -> item_calls f t ok j n e s (length vs) q = (c, (m', q')) ->
    m' = length (vars_after vs c) /\
    if cleanj (bjob t f e s) then fsteps q (FRun j (bjob t f e s)) (pool_ops vs c) q' (FRun j [])
    else fsteps q (FRun j (bjob t f e s)) (pool_ops vs c ++ [BpDestroy j]) q' FFail.
  Definition F_co (f : nat) : Prop := forall t os vs q c m' q' fr, t <> TData -> coro_calls f t os (length vs) q = (c, (m', q'), fr) ->
    m' = length (vars_after vs c) /\ done fr = true /\ fsteps q (FNew (cjob t f os)) (pool_ops vs c) q' fr.

  Lemma len_nil_after (vs : list (nat * cls)) : length vs = length (vars_after vs []).
  Proof. unfold vars_after. cbn. now rewrite app_nil_r. Qed.

  Lemma fr_clean n j ops n' fr : fsteps n (FNew j) ops n' fr -> done fr = true -> cleanj j = match fr with FDone _ => true | _ => false end.
  Proof. intros H Hd. apply fsteps_clean in H. cbn [fclean] in H. rewrite <- H. destruct fr; try discriminate Hd; reflexivity. Qed.

  (* awaiting one coroutine *)
  Lemma await_one q j J jb ops q' fr : fsteps q (FNew jb) ops q' fr -> done fr = true ->
    if cleanj [ASpawn false [jb]] then fsteps q (FRun j ([ASpawn false [jb]] ++ J)) (ops ++ match fr with FDone r => deliver j r | _ => [] end) q' (FRun j J)
    else fsteps q (FRun j ([ASpawn false [jb]] ++ J)) ((ops ++ match fr with FDone r => deliver j r | _ => [] end) ++ [BpDestroy j]) q' FFail.
  Proof.
    intros H Hd. cbn [forallb clean]. rewrite !andb_true_r, (fr_clean _ _ _ _ _ H Hd).
    assert (H1 : fsteps q (FRun j ([ASpawn false [jb]] ++ J)) ops q' (FAwait j false [fr] J)).
    { refine (fs_cons _ _ [] _ _ ops _ _ (f_spawn _ _ _ _ _) _). exact (fs_child j false [] [] J _ _ _ _ _ H). }
    destruct fr; try discriminate Hd.
    - eapply fs_step; [exact H1|]. exact (f_join q' j false [FDone r] J [BpMerge j r] eq_refl eq_refl).
    - rewrite app_nil_r. eapply fs_step; [exact H1|]. exact (f_rethrow q' j false [FFail] J [] eq_refl eq_refl).
  Qed.

  Lemma el_frame f : F_co f -> F_el (S f).
  Proof.
    intros IC j s vs q J c m' q' Hc. rewrite element_calls_S in Hc. rewrite value_job_S.
    assert (HT : ([], (length vs, q)) = (c, (m', q')) -> m' = length (vars_after vs c) /\ fsteps q (FRun j (AThrow :: J)) (pool_ops vs c ++ [BpDestroy j]) q' FFail).
    { intros H. inversion H; subst. split; [apply len_nil_after|]. cbn. apply fs_one, f_throw. }
    destruct (parseObjectType_split R s) as [[[t sp] s1]| | | |]; try (cbn; exact (HT Hc)). destruct sp.
    - destruct t; [cbn; exact (HT Hc)| |].
      + destruct (coro_calls f TMap (idx s1) (length vs) q) as [[c1 mq] fr] eqn:Ec. destruct mq as [m1 q1]. injection Hc as <- <- <-.
        destruct (IC TMap (idx s1) vs q c1 m1 q1 fr ltac:(discriminate) Ec) as (Q1 & Q2 & Q3). split; [rewrite vars_app, Q1; destruct fr; try apply len_nil_after; unfold vars_after; cbn; now rewrite !app_nil_r|].
        rewrite pool_ops_app. match goal with |- context [pool_ops (vars_after vs c1) ?l] => replace (pool_ops (vars_after vs c1) l) with (match fr with FDone r => deliver j r | _ => [] end) by (destruct fr; reflexivity) end.
        exact (await_one q j J _ _ _ _ Q3 Q2).
      + destruct (coro_calls f TArray (idx s1) (length vs) q) as [[c1 mq] fr] eqn:Ec. destruct mq as [m1 q1]. injection Hc as <- <- <-.
        destruct (IC TArray (idx s1) vs q c1 m1 q1 fr ltac:(discriminate) Ec) as (Q1 & Q2 & Q3). split; [rewrite vars_app, Q1; destruct fr; try apply len_nil_after; unfold vars_after; cbn; now rewrite !app_nil_r|].
        rewrite pool_ops_app. match goal with |- context [pool_ops (vars_after vs c1) ?l] => replace (pool_ops (vars_after vs c1) l) with (match fr with FDone r => deliver j r | _ => [] end) by (destruct fr; reflexivity) end.
        exact (await_one q j J _ _ _ _ Q3 Q2).
    - cbn zeta in Hc. inversion Hc; subst c m' q'. clear Hc.
      set (vs1 := vs ++ var_of (make_call j pr t)). pose proof (make_len j pr vs t) as L1. pose proof (make_nth j pr vs t) as N1. fold vs1 in L1, N1.
      destruct (proj1 (value_ops E get j pr f) t s1 (length vs) vs1 N1) as [Q1 Q2]. rewrite L1 in Q1, Q2.
      split; [rewrite vars_cons; exact Q2|]. cbn [pool_ops]. rewrite make_ops. fold vs1. rewrite Q1.
      assert (Eal : value_allocs E get (PoolId j) pr f t s1 = value_allocs E get CoroFrame pr f t s1) by apply (proj1 (allocs_pool E get (PoolId j) CoroFrame pr f)).
      rewrite Eal. cbn [forallb clean negb andb]. rewrite forallb_app, clean_allocs. cbn [andb].
      set (al := value_allocs E get CoroFrame pr f t s1).
      assert (HA : forall J', fsteps q (FRun j (AAlloc (kind pr t) false :: map (fun k => AAlloc k false) al ++ J')) ([BpAlloc j (kind pr t) false] ++ map (fun k => BpAlloc j k false) al) q (FRun j J')).
      { intros J'. eapply fs_cons; [apply f_alloc|apply fs_allocs]. }
      destruct (run get (valueParse E CoroFrame pr f t s1)); cbn [forallb clean].
      { cbn [app]. rewrite app_nil_r. exact (HA J). }
      all: cbn [app]; rewrite <- (app_assoc _ [AThrow] J); refine (fs_step _ _ (BpAlloc j (kind pr t) false :: map (fun k => BpAlloc j k false) al) _ _ [BpDestroy j] _ _ (HA (AThrow :: J)) (f_throw _ _ _)).
  Qed.

  Lemma block_ok_clean f t be : t <> TData -> block_ok E si get pr f t be = cleanj (bjob_at t f be).
  Proof.
    intros Ht. unfold block_ok, bjob_at, bjob. destruct (jobs_exact E si get pr f) as (_ & _ & _ & JA & JM & JV). destruct t; [contradiction| |].
    - destruct pr.
      + destruct (JV eq_refl (snd be) {| idx := fst be; off := fst be |} [] 0) as [-> _]. destruct (run get _); reflexivity.
      + destruct (JM eq_refl (snd be) {| idx := fst be; off := fst be |} [] 0) as [-> _]. destruct (run get _); reflexivity.
    - destruct (JA (snd be) {| idx := fst be; off := fst be |} [] 0) as [-> _]. destruct (run get _); reflexivity.
  Qed.

  (* the items of one block: the first, then the others *)
  Lemma it_frame f : F_el f -> F_it f -> F_it (S f).
  Proof.
    intros IE II t ok j n e s vs q i0 c m' q' Ht Hn Hc. rewrite item_calls_S in Hc.
    assert (Hjob : bjob t (S f) e s = if off s <? e then
        match item_key E get pr t s with
        | Ok (_, s1) => value_job E si get f pr s1 ++ match run get (block_value E si f pr s1) with Ok (_, s2) => AAlloc (item_kind pr t) false :: bjob t f e s2 | _ => [] end
        | _ => [AThrow]
        end else []).
    { unfold bjob, item_key, item_kind. destruct t; [contradiction| |].
      - rewrite map_block_job_S. destruct (off s <? e); [|reflexivity]. destruct (run get (block_key E s)) as [[kv s1]| | | |]; cbn [obind]; try reflexivity.
        destruct pr; [reflexivity|]. destruct (read_local R kv); cbn [omap obind]; reflexivity.
      - rewrite array_block_job_S. reflexivity. }
    rewrite Hjob. clear Hjob.
    assert (H0 : ([], (length vs, q)) = (c, (m', q')) -> m' = length (vars_after vs c) /\ c = [] /\ q' = q) by (intros H; inversion H; subst; split; [apply len_nil_after|auto]).
    destruct (off s <? e); [|destruct (H0 Hc) as (Q & -> & ->); split; [exact Q|apply fs_refl]].
    destruct (item_key E get pr t s) as [[key s1]| | | |]; try (destruct (H0 Hc) as (Q & -> & ->); split; [exact Q|]; cbn; apply fs_one, f_throw).
    destruct (element_calls f j s1 (length vs) q) as [c1 [m1 q1]] eqn:Ee.
    pose proof (proj1 (proj1 (proj2 (proj2 (jobs_exact E si get pr f))) s1)) as Hcl.
    destruct (run get (block_value E si f pr s1)) as [[o s2]| | | |] eqn:Hv; cbn [is_ok] in Hcl.
    2-5: (inversion Hc; subst c1 m1 q1; destruct (IE j s1 vs q [] c m' q' Ee) as [Q1 Q2]; split; [exact Q1|]; rewrite app_nil_r in *; rewrite Hcl in *; exact Q2).
    destruct (item_calls f t ok j n e s2 m1 q1) as [c2 mq] eqn:Ei. inversion Hc; subst c mq. clear Hc.
    destruct (IE j s1 vs q (AAlloc (item_kind pr t) false :: bjob t f e s2) c1 m1 q1 Ee) as [Q1 Q2]. rewrite Hcl in Q2. set (vs1 := vars_after vs c1) in *. rewrite Q1 in Ei.
    destruct (II t ok j n e s2 vs1 q1 i0 c2 m' q' Ht ltac:(apply vars_nth; exact Hn) Ei) as [P1 P2].
    set (it := if ok then CAppend j n key (Some (length vs)) else CScratch j (item_kind pr t)) in *.
    assert (Hv0 : var_of it = []) by (unfold it; destruct ok; reflexivity).
    assert (Ho : ops_of vs1 it = [BpAlloc j (item_kind pr t) false]).
    { unfold it. destruct ok; [|reflexivity]. cbn [ops_of]. unfold vs1. rewrite (vars_nth _ _ _ _ Hn). unfold item_of, item_kind. destruct t; [contradiction| |]; cbn [kind item_cls]; [destruct pr|]; reflexivity. }
    split; [rewrite vars_app, vars_cons; fold vs1; rewrite Hv0, app_nil_r; exact P1|].
    rewrite pool_ops_app. fold vs1. cbn [pool_ops]. rewrite Hv0, app_nil_r, Ho. rewrite forallb_app, Hcl. cbn [forallb clean negb andb].
    destruct (cleanj (bjob t f e s2)).
    - eapply fsteps_trans; [exact Q2|]. eapply fs_cons; [apply f_alloc|exact P2].
    - rewrite <- app_assoc. eapply fsteps_trans; [exact Q2|]. rewrite <- app_assoc. eapply fs_cons; [apply f_alloc|exact P2].
  Qed.

  (* a block *)
  Lemma block_frame f t n be vs q i0 c m' q' fr : F_it f -> t <> TData -> nth_error vs n = Some (i0, kind pr t) -> block_calls f t n be (length vs) q = (c, (m', q'), fr) ->
    m' = length (vars_after vs c) /\ done fr = true /\ fsteps q (FNew (bjob_at t f be)) (pool_ops vs c) q' fr.
  Proof.
    intros II Ht Hn Hc. unfold ParaSessionProofs2.block_calls in Hc. rewrite (block_ok_clean f t be Ht) in Hc.
    destruct (item_calls f t (cleanj (bjob_at t f be)) q n (snd be) (at_ (fst be)) (length vs) (S q)) as [c1 [m2 q2]] eqn:Ei.
    destruct (II t _ q n (snd be) (at_ (fst be)) vs (S q) i0 c1 m2 q2 Ht Hn Ei) as [Q1 Q2].
    change (bjob t f (snd be) (at_ (fst be))) with (bjob_at t f be) in Q2.
    unfold at_ in *. rewrite Ei in Hc. destruct (cleanj (bjob_at t f be)); cbn [leave_coro] in Hc; injection Hc as <- <- <- <-; (split; [|split; [reflexivity|]]).
    - rewrite vars_cons, vars_app. cbn [var_of]. rewrite app_nil_r. unfold vars_after at 1. cbn [flat_map var_of app]. rewrite app_nil_r. exact Q1.
    - cbn [pool_ops ops_of var_of]. rewrite app_nil_r, pool_ops_app. eapply fs_cons; [apply f_start|]. eapply fsteps_trans; [exact Q2|]. cbn [pool_ops ops_of var_of app]. apply fs_one, f_return.
    - rewrite vars_cons, vars_app. cbn [var_of]. rewrite app_nil_r. unfold vars_after at 1. cbn [flat_map var_of app]. rewrite app_nil_r. exact Q1.
    - cbn [pool_ops ops_of var_of]. rewrite app_nil_r, pool_ops_app. eapply fs_cons; [apply f_start|]. exact Q2.
  Qed.

  Lemma blocks_fwd f t n i0 i b J : F_it f -> t <> TData -> forall l pre vs q c m' q' frs, nth_error vs n = Some (i0, kind pr t) ->
    seq_blocks (block_calls f t n) l (length vs) q = (c, (m', q'), frs) ->
    m' = length (vars_after vs c) /\ forallb done frs = true /\
    fsteps q (FAwait i b (pre ++ map (fun be => FNew (bjob_at t f be)) l) J) (pool_ops vs c) q' (FAwait i b (pre ++ frs) J).
  Proof.
    intros II Ht. induction l as [|be l IH]; intros pre vs q c m' q' frs Hn Hc; cbn [seq_blocks map] in *.
    - inversion Hc; subst. split; [apply len_nil_after|]. split; [reflexivity|apply fs_refl].
    - destruct (block_calls f t n be (length vs) q) as [[c1 [m1 q1]] fr] eqn:Eb. destruct (block_frame f t n be vs q i0 c1 m1 q1 fr II Ht Hn Eb) as (Q1 & Q2 & Q3).
      destruct (seq_blocks (block_calls f t n) l m1 q1) as [[c2 mq] frs2] eqn:El. inversion Hc; subst c mq frs. clear Hc. rewrite Q1 in El.
      destruct (IH (pre ++ [fr]) _ _ _ _ _ _ (vars_nth _ c1 _ _ Hn) El) as (P1 & P2 & P3).
      split; [rewrite vars_app; exact P1|]. split; [cbn [forallb]; now rewrite Q2|]. rewrite pool_ops_app. eapply fsteps_trans; [exact (fs_child i b pre _ J _ _ _ _ _ Q3)|].
      rewrite <- !app_assoc in P3. exact P3.
  Qed.
  Lemma blocks_bwd f t n i0 i b J : F_it f -> t <> TData -> forall l post vs q c m' q' frs, nth_error vs n = Some (i0, kind pr t) ->
    seq_blocks (block_calls f t n) l (length vs) q = (c, (m', q'), frs) ->
    m' = length (vars_after vs c) /\ forallb done frs = true /\
    fsteps q (FAwait i b (map (fun be => FNew (bjob_at t f be)) (rev l) ++ post) J) (pool_ops vs c) q' (FAwait i b (rev frs ++ post) J).
  Proof.
    intros II Ht. induction l as [|be l IH]; intros post vs q c m' q' frs Hn Hc; cbn [seq_blocks map rev] in *.
    - inversion Hc; subst. split; [apply len_nil_after|]. split; [reflexivity|apply fs_refl].
    - destruct (block_calls f t n be (length vs) q) as [[c1 [m1 q1]] fr] eqn:Eb. destruct (block_frame f t n be vs q i0 c1 m1 q1 fr II Ht Hn Eb) as (Q1 & Q2 & Q3).
      destruct (seq_blocks (block_calls f t n) l m1 q1) as [[c2 mq] frs2] eqn:El. inversion Hc; subst c mq frs. clear Hc. rewrite Q1 in El.
      destruct (IH (fr :: post) _ _ _ _ _ _ (vars_nth _ c1 _ _ Hn) El) as (P1 & P2 & P3).
      split; [rewrite vars_app; exact P1|]. split; [cbn [forallb]; now rewrite Q2|]. rewrite pool_ops_app, map_app. cbn [map rev]. rewrite <- !app_assoc. cbn [app].
      eapply fsteps_trans; [exact (fs_child i b _ post J _ _ _ _ _ Q3)|exact P3].
  Qed.

  Lemma co_frame f : F_it f -> F_co (S f).
  Proof.
    intros II t os vs q c m' q' fr Ht Hc. rewrite coro_calls_S in Hc.
    assert (Hjob : cjob t (S f) os = match split_ranges E si os with
        | Ok rs => [AAlloc (kind pr t) false; ASpawn (match t with TArray => true | _ => false end) (map (bjob_at t f) rs)] | _ => [AThrow] end)
      by (destruct t; [contradiction| |]; reflexivity).
    rewrite Hjob. clear Hjob. destruct (split_ranges E si os) as [rs| | | |].
    2-5: (inversion Hc; subst; split; [unfold vars_after; cbn; now rewrite app_nil_r|]; split; [reflexivity|]; cbn [pool_ops ops_of var_of app]; refine (fs_cons _ _ [BpNew] _ _ [_] _ _ (f_start _ _) _); apply fs_one, f_throw).
    destruct (seq_blocks (block_calls f t (length vs)) (order t rs) (S (length vs)) (S q)) as [[c1 [m1 q1]] frs] eqn:Es.
    destruct (merges q (rev frs)) as [mo ok] eqn:Em. destruct (leave_coro ok q q1) as [[c2 q2] fr2] eqn:El. inversion Hc; subst c m' q' fr. clear Hc.
    set (vs1 := vs ++ [(q, kind pr t)]). assert (L1 : S (length vs) = length vs1) by (unfold vs1; rewrite app_length; cbn; lia). rewrite L1 in Es.
    assert (N1 : nth_error vs1 (length vs) = Some (q, kind pr t)) by (unfold vs1; rewrite nth_error_app2, Nat.sub_diag by lia; reflexivity).
    set (b := match t with TArray => true | _ => false end). set (cs := order t frs).
    assert (HB : m1 = length (vars_after vs1 c1) /\ forallb done frs = true /\
      fsteps (S q) (FAwait q b (map FNew (map (bjob_at t f) rs)) []) (pool_ops vs1 c1) q1 (FAwait q b cs [])).
    { rewrite map_map. unfold cs. destruct t; [contradiction| |]; cbn [order] in *.
      - destruct (blocks_bwd f TMap (length vs) q q b [] II Ht (rev rs) [] vs1 (S q) c1 m1 q1 frs N1 Es) as (P1 & P2 & P3). rewrite rev_involutive, !app_nil_r in P3. auto.
      - exact (blocks_fwd f TArray (length vs) q q b [] II Ht rs [] vs1 (S q) c1 m1 q1 frs N1 Es). }
    destruct HB as (P1 & P2 & P3).
    assert (Hdc : forallb done cs = true) by (unfold cs; destruct t; cbn [order]; rewrite ?forallb_rev; exact P2).
    assert (Hm : merges q (if b then rev cs else cs) = (mo, ok)) by (unfold cs, b; destruct t; [contradiction| |]; exact Em).
    split; [|split; [destruct ok; inversion El; reflexivity|]].
    - rewrite !vars_cons. cbn [var_of]. rewrite app_nil_r. fold vs1. rewrite vars_app. rewrite P1. unfold vars_after at 2. rewrite flat_map_app.
      assert (Hc2 : flat_map var_of c2 = []) by (destruct ok; inversion El; reflexivity). rewrite Hc2.
      assert (HP : forall l, flat_map var_of (map CPool l) = []) by (induction l as [|? ? IHl]; [reflexivity|exact IHl]). now rewrite HP, !app_nil_r.
    - cbn [pool_ops ops_of var_of]. rewrite app_nil_r. fold vs1. rewrite pool_ops_app, pool_ops_app, pool_ops_pool. fold cs.
      eapply fs_cons; [apply f_start|]. eapply fs_cons; [apply f_alloc|]. refine (fs_cons _ _ [] _ _ _ _ _ (f_spawn _ _ _ _ _) _). eapply fsteps_trans; [exact P3|].
      destruct ok; inversion El; subst c2 q2 fr2.
      + eapply fsteps_trans; [apply fs_one; exact (f_join q1 q b cs [] mo Hdc Hm)|]. cbn [pool_ops ops_of var_of app]. apply fs_one, f_return.
      + cbn [pool_ops ops_of var_of app]. rewrite <- app_assoc. apply fs_one. exact (f_rethrow q1 q b cs [] mo Hdc Hm).
  Qed.

  Lemma frames_ok : forall f, F_el f /\ F_it f /\ F_co f.
  Proof.
    induction f as [|f (IE & II & IC)].
    - split; [|split].
      + intros j s vs q J c m' q' Hc. inversion Hc; subst. split; [apply len_nil_after|]. cbn. apply fs_one, f_throw.
      + intros t ok j n e s vs q i0 c m' q' Ht Hn Hc. inversion Hc; subst. split; [apply len_nil_after|]. destruct t; [contradiction| |]; cbn; apply fs_one, f_throw.
      + intros t os vs q c m' q' fr Ht Hc. inversion Hc; subst. split; [unfold vars_after; cbn; now rewrite app_nil_r|]. split; [reflexivity|].
        assert (cjob t 0 os = [AThrow]) as -> by (destruct t; reflexivity). refine (fs_cons _ _ [BpNew] _ _ [_] _ _ (f_start _ _) _); apply fs_one, f_throw.
    - split; [now apply el_frame|]. split; [now apply it_frame|now apply co_frame].
  Qed.
End Coros.
