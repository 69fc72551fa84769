(** * Property C107: the parallel parser inside a running program. *)
From Verif Require Import Base BaseLemmas ModelVarint ModelData ModelSecondary ModelObject ModelParse ModelWrapper ModelPool ModelStorage ModelFrames
  ModelAlloc ModelParaAlloc ModelClient ModelSession ObjInd Spec SpecApi SpecClient Wire ParseLemmas NormalProofs ValueProofs RoundTrip ApiProofs Samples PropRoundTrip PropPool PropFrames
  ClientProofs PropClient GeneralProofs PropAlloc SessionProofs ParaSessionProofs ParaSessionProofs2 PropSession PropStable.
From Coq Require Import ZifyBool ZifyNat ZifyN.
Local Open Scope out_scope.

(** ** A tree means the same whatever pools its containers remember *)
Lemma denotes_pools mem o : forall o' v, no_pools o' = no_pools o -> denotes mem o v -> denotes mem o' v.
Proof.
  induction o as [|dt x|dt x|p n l IH|p n l IH|p n l IH] using obj_ind'; intros o' v Ho Hd; inversion Hd; subst; destruct o' as [|dt' x'|dt' x'|p' n' l'|p' n' l'|p' n' l']; cbn [no_pools] in Ho; try discriminate Ho.
  - inversion Ho; subst. now constructor.
  - inversion Ho; subst. now constructor.
  - inversion Ho as [[Hn Hl]]. subst. assert (len l' = len l) by (rewrite <- (len_map no_pools l'), Hl; apply len_map). constructor; [congruence|].
    match goal with H : Forall2 _ l _ |- _ => revert H end. generalize (rev l0). clear - IH Hl. revert l' Hl. induction IH as [|a l Ha _ IHl]; intros [|b l'] Hl vs HF; try discriminate Hl; inversion HF; subst; constructor; cbn [map] in Hl; inversion Hl; auto.
  - inversion Ho as [[Hn Hl]]. subst. assert (len l' = len l) by (rewrite <- (len_map (fun e => (fst e, no_pools (snd e))) l'), Hl; apply len_map). constructor; [congruence|].
    match goal with H : Forall2 _ l _ |- _ => revert H end. generalize l0. clear - IH Hl. revert l' Hl. induction IH as [|a l Ha _ IHl]; intros [|b l'] Hl vs HF; try discriminate Hl; inversion HF as [|? ? ? ? [F1 F2] ?]; subst; constructor; cbn [map] in Hl; inversion Hl; auto. split; [congruence|auto].
  - inversion Ho as [[Hn Hl]]. subst. assert (len l' = len l) by (rewrite <- (len_map (fun e => (fst e, no_pools (snd e))) l'), Hl; apply len_map). constructor; [congruence|].
    match goal with H : Forall2 _ l _ |- _ => revert H end. generalize l0. clear - IH Hl. revert l' Hl. induction IH as [|a l Ha _ IHl]; intros [|b l'] Hl vs HF; try discriminate Hl; inversion HF as [|? ? ? ? [F1 F2] ?]; subst; constructor; cbn [map] in Hl; inversion Hl; auto. split; [congruence|auto].
Qed.

(** ** Loading *)
(** C107.  Parsing a buffer with the Coroutine scheduler into a pool that exists, after any
    history of the program and of that pool: every object the pointer returned leads to is
    there (its memory belongs to that pool), and together they show the tree of the
    parser's result; the exceptions are the parser's; no byte of any buffer changes.
    ([no_pools]: which pool a container remembers as the one it was made from is left
    open: it is gone, see C38 and [C107_met].) *)
Theorem C107_load : forall c fuel ops s rs i b pr content, sane c -> fits c content ->
  se_run c fuel session0 ops = Ok (s, rs) ->
  len (se_done s) + len (Coro_calls c fuel content b i pr (length (k_vars (se_client s))) (length (w_pools (k_pools (se_client s) KData)))) + 2 < W64 ->
  defined (cl_step (se_client s) (CPool (BpClear i))) -> se_mem s b = Some content ->
  match Parse c fuel content b (PoolId i) {| po_type := Coroutine; po_ref := pr |} with
  | Ok o => exists s' a, se_step c fuel s (SLoadPara i b pr) = Ok (s', SAns (AnPtr a)) /\ se_mem s' = se_mem s /\
      match a with
      | None => o = ONull
      | Some p => exists n d o', nth_error (k_vars (se_client s')) n = Some p /\ no_pools o' = no_pools o /\
          forall d', (d <= d')%nat -> cl_step (se_client s') (CView d' n) = Ok (se_client s', AnView o')
      end
  | Throw e => exists s', se_step c fuel s (SLoadPara i b pr) = Ok (s', SThrown e) /\ se_mem s' = se_mem s
  | UB => se_step c fuel s (SLoadPara i b pr) = UB
  | Abort => se_step c fuel s (SLoadPara i b pr) = Abort
  | Fuel => se_step c fuel s (SLoadPara i b pr) = Fuel
  end.
Proof.
  intros c fuel ops s rs i b pr content Hs Hfit Hrun Hlen Hdef Hmem.
  destruct (C104_sessions_are_programs c fuel ops s rs Hrun) as (rs0 & Hcl).
  destruct (after (se_done s) _ _ ltac:(lia) Hcl) as (st & srs & owns & G & t & Sp & R & Ht).
  assert (Hi : exists_pool st i = true) by (eapply pool_there; [exact R|lia|exact Hdef]).
  cbn [se_step]. rewrite Hmem. unfold se_load. rewrite (r_len _ _ _ _ _ R), (pools_len _ _ _ _ _ R) in *.
  set (m := length (st_objs st)) in *. set (q := length (st_alive st)) in *.
  destruct (para_load_spec c fuel content b i pr st (se_mem s) Hs Hfit Hi (below_run _ _ _ _ below_start Sp) Hmem) as (st1 & r & H1 & H2 & _ & H4); [fold m q; lia|]. cbn zeta in *. fold m q in H1, H4.
  set (calls := Coro_calls c fuel content b i pr m q) in *.
  destruct (run_down calls _ _ _ _ _ _ _ R ltac:(lia) H1) as (w1 & r1 & owns1 & G1 & t1 & M1 & R1 & Ht1 & _ & e1 & He1).
  assert (Hdo : se_do s calls = Ok ({| se_client := w1; se_mem := se_mem s; se_done := se_done s ++ calls |}, r1)) by (unfold se_do; rewrite M1; reflexivity).
  rewrite !Hdo. cbn [obind].
  destruct (Coro_check c fuel content b i pr) as [[]|e| | |].
  2:{ rewrite H4. eexists. split; reflexivity. }
  2-4: (rewrite H4; reflexivity).
  destruct (Parse c fuel content b (PoolId i) {| po_type := Coroutine; po_ref := pr |}) as [o| | | |]; try contradiction H4.
  - destruct H4 as (st2 & v & S2 & _ & _ & Hv).
    destruct (run_down [CTake (se_mem s) m root_key] w1 st1 owns1 G1 t1 st2 [SaPtr v] R1) as (w2 & r2 & owns2 & G2 & t2 & M2 & R2 & Ht2 & Hr2 & e2 & He2).
    { unfold len in *. cbn [length]. lia. }
    { cbn [spec_run]. rewrite S2. reflexivity. }
    unfold se_do. cbn [se_client]. rewrite M2. cbn [obind]. inversion Hr2 as [|a sa ? ? Ha Hnil]; subst. inversion Hnil; subst.
    destruct a as [| |a| | |]; cbn [same_answer] in Ha; try contradiction. eexists _, a. split; [reflexivity|]. split; [reflexivity|]. cbn [se_client].
    destruct v as [k|]; cbn [same_ptr] in Ha; [|subst a; exact Hv]. destruct Ha as [Hn Ha]. destruct a as [p|]; [|congruence]. symmetry in Ha.
    destruct Hv as (d & o' & Hv & Ho). exists k, d, o'. split; [exact Ha|]. split; [exact Ho|]. intros d' Hd'.
    pose proof (view_ok w2 st2 owns2 G2 t2 R2 d' k p Ha) as HV. rewrite (see_tree_more _ _ _ _ _ _ _ Hv Hd') in HV. inversion HV as [x y -> Eq1 Eq2| |].
    cbn [cl_step]. unfold var. rewrite Ha. cbn [obind]. rewrite <- Eq1, <- Eq2. reflexivity.
  - unfold se_do. cbn [se_client cl_run]. rewrite (run_down_UB _ _ _ _ _ _ R1 ltac:(lia) H4). reflexivity.
Qed.

(** C107.  The coroutines make and end BridgePools of their own.  Afterwards - the document
    may be good or bad - exactly the pools are there that were there before: none is lost
    and none is left behind. *)
Theorem C107_pools : forall c fuel ops s rs i b pr content s' x k, sane c -> fits c content ->
  se_run c fuel session0 ops = Ok (s, rs) ->
  defined (cl_step (se_client s) (CPool (BpClear i))) -> se_mem s b = Some content ->
  se_step c fuel s (SLoadPara i b pr) = Ok (s', x) -> len (se_done s') + 1 < W64 ->
  (defined (cl_step (se_client s') (CPool (BpClear k))) <-> defined (cl_step (se_client s) (CPool (BpClear k)))).
Proof.
  intros c fuel ops s rs i b pr content s' x k Hs Hfit Hrun Hdef Hmem Hstep Hlen.
  destruct (C104_sessions_are_programs c fuel ops s rs Hrun) as (rs0 & Hcl). pose proof (done_grows _ _ _ _ _ _ Hstep) as Hg.
  destruct (after (se_done s) _ _ ltac:(lia) Hcl) as (st & srs & owns & G & t & Sp & R & Ht).
  assert (Hi : exists_pool st i = true) by (eapply pool_there; [exact R|lia|exact Hdef]).
  cbn [se_step] in Hstep. rewrite Hmem in Hstep. rewrite (r_len _ _ _ _ _ R), (pools_len _ _ _ _ _ R) in Hstep.
  destruct (load_runs s _ _ s' x st owns G t R Ht ltac:(lia) Hstep) as (st1 & owns1 & G1 & t1 & R1 & Ht1 & _ & Hc & st2 & r2 & S2 & Hst).
  destruct (para_load_spec c fuel content b i pr st (se_mem s) Hs Hfit Hi (below_run _ _ _ _ below_start Sp) Hmem) as (st2' & r & H1 & H2 & _); [lia|]. cbn zeta in *.
  assert (st2' = st2) by congruence. subst st2'.
  assert (Hk : exists_pool st1 k = exists_pool st k).
  { rewrite <- H2. destruct Hst as [[-> _]|(a & a' & Ha & _)]; [reflexivity|]. cbn [spec_step] in Ha. apply obind_ok in Ha as (ob & _ & Ha). apply obind_ok in Ha as (es & _ & Ha). destruct (is_map ob); [|discriminate Ha].
    apply obind_ok in Ha as ([v l] & _ & Ha). inversion Ha; subst. reflexivity. }
  rewrite (defined_iff _ _ _ _ _ _ R1 ltac:(lia)), (defined_iff _ _ _ _ _ _ R ltac:(lia)). cbn [spec_step pool_call]. unfold only. rewrite Hk.
  destruct (exists_pool st k); cbn [obind]; split; intros (y & Hy); try discriminate Hy; eexists; reflexivity.
Qed.

(** C107.  C104's cycle with the parallel parser: what a serialized object showed along
    every path of keys and indices, the object parsed in parallel shows, too. *)
Theorem C107_cycle : forall c fuel ops s rs depth n w' o v ty i b s1 x content ops' s2 rs' j pr,
  sane c -> se_run c fuel session0 ops = Ok (s, rs) ->
  cl_step (se_client s) (CView depth n) = Ok (w', AnView o) -> denotes (se_mem s) o v -> distinct_keys v -> (pr = true -> no_custom v) ->
  se_step c fuel s (SSave depth ty i n b) = Ok (s1, SAns x) ->
  se_mem s1 b = Some content -> fits c content -> (length content <= fuel)%nat ->
  se_run c fuel s1 ops' = Ok (s2, rs') -> Forall (leaves b) ops' ->
  defined (cl_step (se_client s2) (CPool (BpClear j))) ->
  len (se_done s2) + len (Coro_calls c fuel content b j pr (length (k_vars (se_client s2))) (length (w_pools (k_pools (se_client s2) KData)))) + 2 < W64 ->
  exists s3 a k d o', se_step c fuel s2 (SLoadPara j b pr) = Ok (s3, SAns (AnPtr (Some a))) /\
    nth_error (k_vars (se_client s3)) k = Some a /\
    (forall d', (d <= d')%nat -> cl_step (se_client s3) (CView d' k) = Ok (se_client s3, AnView o')) /\
    (forall path, api_seen (se_mem s3) o' path = api_seen (se_mem s) o path) /\
    (forall path, api_seen (se_mem s) o path = Ok (seen_at v path)).
Proof.
  intros c fuel ops s rs depth n w' o v ty i b s1 x content ops' s2 rs' j pr Hs Hrun Hview Hd Hk Hnc Hsave Hmem1 Hfit Hfuel Hrun' Hleave Hdef Hlen.
  pose proof (done_grows _ _ _ _ _ _ Hsave) as HG1. pose proof (grows_run _ _ _ _ _ _ Hrun') as HG2.
  assert (Hser : Serialize c (se_mem s) ty (PoolId i) o = Ok content) by (eapply saved_doc; eauto; lia).
  assert (Hrun1 : se_run c fuel session0 (ops ++ [SSave depth ty i n b]) = Ok (s1, rs ++ [SAns x])) by (eapply se_run_app; [exact Hrun|]; cbn [se_run]; rewrite Hsave; reflexivity).
  assert (Hmem2 : se_mem s2 b = Some content) by (rewrite (leaves_run _ _ _ _ _ _ _ Hleave Hrun'); exact Hmem1).
  pose proof (se_run_app _ _ _ _ _ _ _ _ _ Hrun1 Hrun') as Hrun2.
  destruct (transport c c (se_mem s) ty (PoolId i) o v content [] b fuel (PoolId j) {| po_type := Coroutine; po_ref := pr |}) as (o' & v' & HP & Hsc & _ & Hr & _); auto; try (rewrite app_nil_r; exact Hfit).
  rewrite app_nil_r in HP, Hr. cbn [po_ref] in Hr.
  pose proof (C107_load c fuel _ s2 _ j b pr content Hs Hfit Hrun2 Hlen Hdef Hmem2) as HL. rewrite HP in HL.
  destruct HL as (s3 & a & H3 & Hm3 & Ha).
  assert (Hd3 : denotes (se_mem s3) o' v') by (apply Hr; intros _; rewrite Hm3; exact Hmem2).
  destruct a as [p|]; [|subst o'; inversion Hd3]. destruct Ha as (k & d & o2 & Hk3 & Ho2 & Hv3).
  pose proof (denotes_pools _ _ _ _ Ho2 Hd3) as Hd2.
  exists s3, p, k, d, o2. split; [exact H3|]. split; [exact Hk3|]. split; [exact Hv3|].
  assert (Hseen : forall path, api_seen (se_mem s) o path = Ok (seen_at v path)) by (intros path; now apply api_seen_ok).
  split; [|exact Hseen]. intros path. rewrite Hseen, (api_seen_ok _ o2 v' path Hd2). f_equal. symmetry. now apply same_content_seen.
Qed.

(** ** Met *)
(** The map {"a": [7, 8], "b": 9} is built in pool 0 and saved with a string dictionary, in
    blocks of eight bytes; a number in it is changed; the buffer is loaded in parallel and
    in place into pool 0, which then is destroyed; then a buffer that holds no document is
    loaded. *)
Definition run_tiny (s : session) (ops : list scall) : session := match se_run tiny 200 s ops with Ok (s', _) => s' | _ => s end.
Definition tiny_answers (s : session) (ops : list scall) : option (list sess_answer) := match se_run tiny 200 s ops with Ok (_, r) => Some r | _ => None end.
Definition para_session : list scall :=
  sample_session ++ [SCall (CData 0 false (u32 8)); SCall (CInsert 1 (OwnKey []) (Some 3%nat)); SCall (CData 0 false (u32 9)); SCall (CInsert 0 (OwnKey [n2b 98]) (Some 4%nat))].
Definition para_rest : list scall :=
  [SCall (CAssign 2 (u32 8)); SCall (CPool BpNew); SLoadPara 0 3 true; SCall (CPool (BpDestroy 0)); SBuffer 4 (Some [n2b 1; n2b 2; n2b 3]); SLoadPara 1 4 false].
Definition para_s : session := run_tiny session0 para_session.
Definition para_s1 : session := run_tiny para_s [SSave 5 REPLACE 0%nat 0%nat 3%nat].
Definition para_s2 : session := run_tiny para_s1 para_rest.
Definition para_content : bytes := match se_mem para_s1 3%nat with Some x => x | None => [] end.
Definition para_tree (p : nat) : obj :=
  OMap (PoolId p) 2 [([n2b 98], data_of_num U32 9); ([n2b 97], OArray (PoolId p) 2 [data_of_num U32 8; data_of_num U32 7])].
Definition para_value : Spec.value := VMap [([n2b 98], VScalar (VNum U32 9)); ([n2b 97], VArr [VScalar (VNum U32 7); VScalar (VNum U32 8)])].

Example C107_met :
  (exists rs, se_run tiny 200 session0 para_session = Ok (para_s, rs)) /\
  cl_step (se_client para_s) (CView 5 0) = Ok (se_client para_s, AnView (para_tree 0)) /\
  denotes (se_mem para_s) (para_tree 0) para_value /\ distinct_keys para_value /\ no_custom para_value /\
  se_step tiny 200 para_s (SSave 5 REPLACE 0%nat 0%nat 3%nat) = Ok (para_s1, SAns AnNone) /\
  se_mem para_s1 3%nat = Some para_content /\ fits tiny para_content /\ (length para_content <= 200)%nat /\
  (exists rs, se_run tiny 200 para_s1 para_rest = Ok (para_s2, rs)) /\
  tiny_answers para_s1 para_rest = Some [SAns AnNone; SAns AnNone; SAns (AnPtr (Some (KMapView, (1%nat, 0)))); SAns AnNone; SAns AnNone; SThrown ERuntime] /\
  Forall (leaves 3) para_rest /\ defined (cl_step (se_client para_s2) (CPool (BpClear 1))) /\
  len (se_done para_s2) + len (Coro_calls tiny 200 para_content 3 1 false (length (k_vars (se_client para_s2))) (length (w_pools (k_pools (se_client para_s2) KData)))) + 2 < W64 /\
  (* the document is split: seven coroutines *)
  len (filter (fun op => match op with CPool BpNew => true | _ => false end) (Coro_calls tiny 200 para_content 3 1 false 11 16)) = 7 /\
  (* the next load, and what is to be seen then; the pools the containers remember are gone *)
  tiny_answers para_s2 [SLoadPara 1%nat 3%nat false; SCall (CView 5 12)] = Some [SAns (AnPtr (Some (KMap, (2%nat, 0)))); SAns (AnView
      (OMap (PoolId 18) 2 [([n2b 97], OArray (PoolId 20) 2 [data_of_num U32 8; data_of_num U32 7]); ([n2b 98], data_of_num U32 9)]))] /\
  (forall k, In k [18; 20]%nat -> se_run tiny 200 para_s2 [SLoadPara 1%nat 3%nat false; SCall (CPool (BpClear k))] = UB) /\
  (* so an insert into one of them is undefined *)
  se_run tiny 200 para_s2 [SLoadPara 1%nat 3%nat false; SCall (CData 1 false (u32 1)); SCall (CInsert 12 (OwnKey [n2b 99]) (Some 17%nat))] = UB.
Proof.
  split; [eexists; vm_compute; reflexivity|]. split; [vm_compute; reflexivity|].
  split; [unfold para_tree, para_value; repeat (first [ apply den_map | apply den_array | apply den_data | apply dd_num | apply Forall2_cons | apply Forall2_nil | split | reflexivity ])|].
  split; [unfold para_value; repeat (first [ apply dk_map | apply dk_arr | apply dk_scalar | apply NoDup_cons | apply NoDup_nil | apply Forall_cons | apply Forall_nil | (cbn; intuition discriminate) ])|].
  split; [unfold para_value; repeat (first [ apply nc_map | apply nc_arr | (apply nc_scalar; discriminate) | apply Forall_cons | apply Forall_nil ])|].
  split; [vm_compute; reflexivity|]. split; [vm_compute; reflexivity|]. split; [vm_compute; reflexivity|]. split; [vm_compute; lia|].
  split; [eexists; vm_compute; reflexivity|].
  split; [vm_compute; reflexivity|]. split; [repeat constructor; cbn; lia|]. split; [eexists; vm_compute; reflexivity|]. split; [vm_compute; reflexivity|].
  split; [vm_compute; reflexivity|]. split; [vm_compute; reflexivity|]. split; [intros k [<-|[<-|[]]]; vm_compute; reflexivity|]. vm_compute. reflexivity.
Qed.
