(** * Properties C104 and C107: what a parse inside a running program does to the pools. *)
From Verif Require Import Base BaseLemmas ModelVarint ModelData ModelSecondary ModelObject ModelPool ModelParse ModelWrapper ModelStorage ModelFrames
  ModelAlloc ModelParaAlloc ModelClient ModelSession Spec SpecApi SpecClient ParseLemmas Samples PropPool PropFrames PropAlloc ParaAllocProofs ClientProofs PropClient
  SessionProofs ParaSessionProofs ParaSessionProofs2 PropSession PropStable PropProgramMemory ParaFrameProofs PropParaSession.
From Coq Require Import ZifyBool ZifyNat ZifyN.
Local Open Scope out_scope.

(** ** What calls do to the pools, exactly *)
Lemma step_exact w st owns G t vs op w' a : rel w st owns G t -> made_ok st vs -> cl_step w op = Ok (w', a) -> pooled_run w (ops_of vs op) w'.
Proof.
  intros R [HV _] H.
  assert (Hcont : forall n x ik p last size, var w n = Ok x -> get_cont w x = Ok (ik, p, last, size) -> exists k, nth_error vs n = Some (p, k) /\ item_cls k = Some ik).
  { intros n x ik p last size Hv Hg. destruct (var_case w st owns G t n R) as [(E1 & _)|(x' & o & g & Hv' & Ha & Ho & Hgn & Hok & _)]; [congruence|]. assert (x' = x) by congruence. subst x'.
    destruct (get_cont_case w st owns G t n x o g R Ha Ho Hgn) as [(E1 & _)|(l & ik' & last' & _ & _ & Hik & E1 & _)]; [congruence|].
    exists (so_cls o). rewrite <- (proj1 Hok). assert (Ei : ik' = ik) by congruence. assert (Ep : so_made o = p) by congruence. subst ik'. split; [|exact Hik].
    rewrite <- HV, nth_error_map, Ho. cbn. rewrite Ep, (proj1 Hok). reflexivity. }
  destruct op; try (destruct (step_does _ _ _ _ H) as (l & Hl & HP); cbn [does ops_of] in *; first [subst l; exact HP|destruct Hl as [-> _]; exact HP]); cbn [cl_step ops_of] in *.
  - apply obind_ok in H as (x & Hx & H). apply obind_ok in H as (v' & _ & H). apply obind_ok in H as (w1 & H1 & H). inversion H; subst. unfold cl_Insert in H1.
    apply obind_ok in H1 as ([[[ik p] ?] ?] & Hg & H1). destruct (Hcont _ _ _ _ _ _ Hx Hg) as (k & -> & Hk). unfold item_of. rewrite Hk.
    destruct (negb _); [discriminate H1|]. apply obind_ok in H1 as ([w2 s] & H2 & H1). apply obind_ok in H1 as (w3 & H3 & H1).
    apply obind_ok in H1 as ([[[? ?] last] size] & _ & H1). apply obind_ok in H1 as (w4 & H4 & H1).
    eapply pooled_same; [|eapply alloc_run; exact H2]. rewrite (store_pools _ _ _ _ H1), <- (store_pools _ _ _ _ H3).
    destruct last; [|now inversion H4]. apply obind_ok in H4 as ([[? ?] ?] & _ & H4). eapply store_pools; exact H4.
  - apply obind_ok in H as (x & Hx & H). apply obind_ok in H as (v' & _ & H). apply obind_ok in H as (w1 & H1 & H). inversion H; subst. unfold cl_Append in H1.
    apply obind_ok in H1 as ([[[ik p] ?] ?] & Hg & H1). destruct (Hcont _ _ _ _ _ _ Hx Hg) as (k & -> & Hk). unfold item_of. rewrite Hk.
    destruct (negb _); [discriminate H1|]. apply obind_ok in H1 as (tl & _ & H1). apply obind_ok in H1 as ([w2 s] & H2 & H1). apply obind_ok in H1 as (w3 & H3 & H1).
    eapply pooled_same; [|eapply alloc_run; exact H2]. rewrite <- (store_pools _ _ _ _ H3).
    destruct tl as [s0|]; [|eapply store_pools; exact H1]. apply obind_ok in H1 as ([[? ?] ?] & _ & H1). apply obind_ok in H1 as (w4 & H4 & H1).
    now rewrite (store_pools _ _ _ _ H1), (store_pools _ _ _ _ H4).
Qed.

Lemma run_exact ops : forall w st owns G t vs w' rs, rel w st owns G t -> made_ok st vs -> t + len ops < W64 -> cl_run w ops = Ok (w', rs) -> pooled_run w (pool_ops vs ops) w'.
Proof.
  induction ops as [|op ops IH]; intros w st owns G t vs w' rs R HM Ht H; cbn [cl_run pool_ops] in *; [inversion H; subst; now apply pooled_none|].
  apply obind_ok in H as ([w1 a] & H1 & H). apply obind_ok in H as ([w2 r] & H2 & H). inversion H; subst. rewrite len_cons in Ht.
  destruct (run_up [op] w st owns G t w1 [a] R ltac:(rewrite len_cons, len_nil; lia) ltac:(cbn [cl_run]; rewrite H1; reflexivity)) as (st1 & r1 & owns1 & G1 & t1 & S1 & R1 & Ht1 & _).
  rewrite len_cons, len_nil in Ht1.
  cbn [spec_run] in S1. apply obind_ok in S1 as ([st1' sa] & S1 & S2). cbn [obind] in S2. inversion S2; subst st1' r1.
  pose proof (made_step _ _ _ _ _ HM S1) as HM1. assert (Ec : creations [op] = var_of op) by (destruct op; reflexivity). rewrite Ec in HM1.
  pose proof (step_exact _ _ _ _ _ _ _ _ _ R HM H1) as P1. pose proof (IH _ _ _ _ _ _ _ _ R1 HM1 ltac:(lia) H2) as P2.
  intros k. rewrite member_run_app, pool_run_app. destruct (P1 k) as (x1 & E1). destruct (P2 k) as (x2 & E2). rewrite E1. cbn [obind]. rewrite E2. cbn [obind]. eauto.
Qed.

(** What a load does to the pools: what its calls do. *)
Lemma load_exact c fuel ops s rs calls check s' x : se_run c fuel session0 ops = Ok (s, rs) -> se_load s calls check = Ok (s', x) -> len (se_done s') < W64 ->
  exists vs, length vs = length (k_vars (se_client s)) /\ pooled_run (se_client s) (pool_ops vs calls) (se_client s').
Proof.
  intros Hrun H Hlen. destruct (C104_sessions_are_programs c fuel ops s rs Hrun) as (rs0 & Hcl).
  assert (Hdo : forall s calls s1 r, se_do s calls = Ok (s1, r) -> cl_run (se_client s) calls = Ok (se_client s1, r) /\ se_done s1 = se_done s ++ calls).
  { intros q cs q1 r Hq. unfold se_do in Hq. apply obind_ok in Hq as ([w y] & Hy & Hq). inversion Hq; subst. auto. }
  unfold se_load in H. apply obind_ok in H as ([s1 r1] & H1 & H). apply Hdo in H1 as [H1 D1].
  assert (Hs1 : len (se_done s) + len calls < W64 /\ k_pools (se_client s') = k_pools (se_client s1)).
  { destruct check; try discriminate H.
    - apply obind_ok in H as ([s2 r2] & H2 & H). apply Hdo in H2 as [H2 D2]. destruct r2 as [|? []]; try discriminate H. inversion H; subst. split.
      + rewrite D2, D1, !len_app in Hlen. lia.
      + cbn [cl_run] in H2. apply obind_ok in H2 as ([w3 y] & H3 & H2). inversion H2; subst. destruct (step_does _ _ _ _ H3) as (l & Hl & HP). cbn [does] in Hl. subst l.
        cbn [cl_step] in H3. apply obind_ok in H3 as (p0 & _ & H3). apply obind_ok in H3 as (z & _ & H3). apply obind_ok in H3 as ([v w4] & H4 & H3). inversion H3; subst. unfold cl_take in H4.
        apply obind_ok in H4 as ([[[? ?] ?] ?] & _ & H4). apply obind_ok in H4 as (p & _ & H4).
        destruct p as [sl|]; [|now inversion H4]. apply obind_ok in H4 as ([[? ?] ?] & _ & H4). apply obind_ok in H4 as (w5 & H5 & H4). inversion H4; subst. eapply store_pools; exact H5.
    - inversion H; subst. split; [rewrite D1, len_app in Hlen; lia|reflexivity]. }
  destruct Hs1 as [HL HP]. destruct (after (se_done s) _ _ ltac:(lia) Hcl) as (st & srs & owns & G & t & Sp & R & Ht).
  assert (HM : exists vs, made_ok st vs).
  { assert (HG : forall l a b r vs, spec_run a l = Ok (b, r) -> made_ok a vs -> exists vs', made_ok b vs').
    { induction l as [|op l IH]; intros a0 b0 r vs Hr Ha; cbn [spec_run] in Hr; [inversion Hr; subst; eauto|]. apply obind_ok in Hr as ([a1 y] & Q1 & Hr). apply obind_ok in Hr as ([a2 z] & Q2 & Hr). inversion Hr; subst.
      eapply IH; [exact Q2|]. eapply made_step; eauto. }
    eapply HG; [exact Sp|]. split; [reflexivity|constructor]. }
  destruct HM as (vs & HM). exists vs. split; [rewrite (r_len _ _ _ _ _ R), <- (proj1 HM), map_length; reflexivity|].
  eapply pooled_same; [exact HP|]. eapply run_exact; [exact R|exact HM|lia|exact H1].
Qed.

(** ** The theorems *)

(** [pooled_run w l w'], PropProgramMemory.v: for every class of objects, running the
    members of the operations [l] on the pools of [w] gives the pools of [w']. *)

(** C104.  What a sequential parse inside a program does to the pools is: from the
    caller's pool it takes the objects of C98, in their order.  Whether it returns an
    object or throws. *)
Theorem C104_pools_of_a_load : forall c fuel ops s rs i b pr content s' x,
  se_run c fuel session0 ops = Ok (s, rs) -> se_mem s b = Some content ->
  se_step c fuel s (SLoad i b pr) = Ok (s', x) -> len (se_done s') < W64 ->
  pooled_run (se_client s) (map (fun k => BpAlloc i k false) (Parse_allocs c fuel content b (PoolId i) pr)) (se_client s').
Proof.
  intros c fuel ops s rs i b pr content s' x Hrun Hmem H Hlen. cbn [se_step] in H. rewrite Hmem in H.
  destruct (load_exact c fuel ops s rs _ _ s' x Hrun H Hlen) as (vs & Hvs & HP). rewrite <- Hvs in HP. 
  assert (E0 : pool_ops vs (Parse_calls c fuel content b i pr (length vs)) = map (fun k => BpAlloc i k false) (Parse_allocs c fuel content b (PoolId i) pr)); [|rewrite <- E0; exact HP].
  unfold Parse_calls, Parse_allocs. destruct (initFromContent c fuel content b) as [sc| | | |]; try reflexivity.
  cbn [pool_ops]. rewrite make_ops. pose proof (make_nth i pr vs TMap) as HN. pose proof (make_len i pr vs TMap) as HL.
  destruct (proj1 (value_ops (doc_env c content b sc) (getter c (sc_map sc)) i pr fuel) TMap {| idx := meta_size; off := meta_size |} (length vs) _ HN) as [Q _]. rewrite HL in Q. rewrite Q. reflexivity.
Qed.

(** C107.  What a parallel parse inside a program does to the pools - also one that throws -
    is what one of the executions of its coroutines (C62, C63, C99: [Parse_job], [fsteps])
    does, from the first step of the root coroutine to its end, followed, if it has a
    result, by its delivery to the caller's pool.  A document that is not split is parsed
    like C104's. *)
Theorem C107_execution : forall c fuel ops s rs i b pr content s' x,
  se_run c fuel session0 ops = Ok (s, rs) -> se_mem s b = Some content ->
  se_step c fuel s (SLoadPara i b pr) = Ok (s', x) -> len (se_done s') < W64 ->
  match Parse_job c fuel content b pr with
  | Some j => exists run m f, fsteps (length (w_pools (k_pools (se_client s) KData))) (FNew j) run m f /\ done f = true /\
      pooled_run (se_client s) (run ++ match f with FDone r => deliver i r | _ => [] end) (se_client s')
  | None => pooled_run (se_client s) (map (fun k => BpAlloc i k false) (Parse_allocs c fuel content b (PoolId i) pr)) (se_client s')
  end.
Proof.
  intros c fuel ops s rs i b pr content s' x Hrun Hmem H Hlen. cbn [se_step] in H. rewrite Hmem in H.
  destruct (load_exact c fuel ops s rs _ _ s' x Hrun H Hlen) as (vs & Hvs & HP). rewrite <- Hvs in HP. clear H.
  set (q := length (w_pools (k_pools (se_client s) KData))) in *. unfold Coro_calls, Parse_job in *.
  destruct (initFromContent c fuel content b) as [sc| | | |] eqn:Ei.
  2-5: (assert (E0 : Parse_allocs c fuel content b (PoolId i) pr = []) by (unfold Parse_allocs; rewrite Ei; reflexivity); rewrite E0; exact HP).
  destruct (sc_need_to_split sc).
  - destruct (coro_calls (doc_env c content b sc) (sc_split sc) (getter c (sc_map sc)) pr fuel TMap meta_size (length vs) q) as [[cs [m1 q1]] fr] eqn:Ec.
    destruct (proj2 (proj2 (frames_ok (doc_env c content b sc) (sc_split sc) (getter c (sc_map sc)) pr fuel)) TMap meta_size vs q cs m1 q1 fr ltac:(discriminate) Ec) as (_ & Hd & Hf).
    exists (pool_ops vs cs), q1, fr. split; [exact Hf|]. split; [exact Hd|]. rewrite pool_ops_app in HP. destruct fr; try discriminate Hd; [|exact HP].
    exact HP.
  - assert (E0 : pool_ops vs (Parse_calls c fuel content b i pr (length vs)) = map (fun k => BpAlloc i k false) (Parse_allocs c fuel content b (PoolId i) pr)); [|rewrite <- E0; exact HP].
    unfold Parse_calls, Parse_allocs. rewrite Ei. cbn [pool_ops]. rewrite make_ops. pose proof (make_nth i pr vs TMap) as HN. pose proof (make_len i pr vs TMap) as HL.
    destruct (proj1 (value_ops (doc_env c content b sc) (getter c (sc_map sc)) i pr fuel) TMap {| idx := meta_size; off := meta_size |} (length vs) _ HN) as [Q _]. rewrite HL in Q. rewrite Q. reflexivity.
Qed.

(** ** Met *)
(** The document of [C107_met], good and with a wrong tag in the second block of its array. *)
Definition bad_content : bytes := firstn 36 para_content ++ [n2b 9] ++ skipn 37 para_content.
Definition bad_s : session := run_tiny para_s2 [SBuffer 5 (Some bad_content)].
Definition pools_made (s : session) : N := len (filter (fun op => match op with CPool BpNew => true | _ => false end) (se_done s)).
Definition is_clean (j : option job) : option bool := match j with Some j => Some (cleanj j) | None => None end.
Example C107_execution_met :
  (match se_run tiny 200 session0 (para_session ++ SSave 5 REPLACE 0%nat 0%nat 3%nat :: para_rest ++ [SBuffer 5 (Some bad_content)]) with
   | Ok (s, _) => Some (se_done s, se_mem s 3%nat, se_mem s 5%nat) | _ => None end) = Some (se_done bad_s, Some para_content, Some bad_content) /\
  se_mem bad_s 3%nat = Some para_content /\ se_mem bad_s 5%nat = Some bad_content /\
  tiny_answers bad_s [SLoadPara 1 3 false] = Some [SAns (AnPtr (Some (KMap, (2%nat, 0))))] /\
  tiny_answers bad_s [SLoadPara 1 5 false] = Some [SThrown ERuntime] /\
  tiny_answers bad_s [SLoad 1 3 false] = Some [SAns (AnPtr (Some (KMap, (1%nat, 1))))] /\
  len (se_done (run_tiny bad_s [SLoadPara 1 3 false])) < W64 /\ len (se_done (run_tiny bad_s [SLoadPara 1 5 false])) < W64 /\
  (* the coroutines there are, also when one of them throws *)
  pools_made (run_tiny bad_s [SLoadPara 1 3 false]) = pools_made bad_s + 7 /\
  pools_made (run_tiny bad_s [SLoadPara 1 5 false]) = pools_made bad_s + 7 /\
  is_clean (Parse_job tiny 200 para_content 3 false) = Some true /\ is_clean (Parse_job tiny 200 bad_content 5 false) = Some false.
Proof. do 11 (split; [vm_compute; reflexivity|]). vm_compute. reflexivity. Qed.
