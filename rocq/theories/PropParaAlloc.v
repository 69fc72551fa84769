(** * C99: the objects a parallel parse leaves in the caller's pool. *)
From Verif Require Import Base BaseLemmas ModelVarint ModelData ModelSecondary ModelObject ModelPool
  ModelParse ModelWrapper ModelStorage ModelFrames ModelAlloc ModelParaAlloc Spec SpecApi VarintProofs Wire NumProofs SeriProofs SeriProofs2 DocProofs ObjInd ParseLemmas
  NormalProofs SecondaryProofs ValueProofs ParaProofs GeneralProofs FrameProofs TermProofs Samples RoundTrip PropDocument PropHostile
  Lenient LenientPara LenientProofs LenientTables LenientRef PropLenient LenientParaProofs PropPara PropInsitu InsituSim InsituBack PropInsituPara
  Overrun OverrunProofs PropOverrun PropPool PropFrames PropAlloc ParaAllocProofs.
From Coq Require Import ZifyBool ZifyNat ZifyN Permutation.

(** ** Specification *)

Definition cls_dec (a b : cls) : {a = b} + {a <> b}.
Proof. decide equality. Defined.

(** In a program that has done [pre] with its pools, [p] being one that still lives,
    the coroutines of [j] end with a result however they are interleaved - every
    execution can be continued to its end - and whichever way it went, what the
    caller's pool [p] owns more than before are as many live objects of each class as
    there are in [l]; nothing else changed hands. *)
Definition delivers (j : job) (l : list cls) : Prop :=
  forall k pre p n,
    legal_run [] (member_run k pre) -> nth_error (fold_left alive_after (member_run k pre) []) p = Some true ->
    n = length (fold_left alive_after (member_run k pre) []) ->
    (forall ops m f, fsteps n (FNew j) ops m f -> exists ops' m' r, fsteps m f ops' m' (FDone r)) /\
    forall ops m r, fsteps n (FNew j) ops m (FDone r) ->
      exists rs1 rs2 own1 own2 w h,
        outcome_of k pre (ops ++ deliver p r) rs1 rs2 own1 own2 w h /\
        length (slots_returned rs2) = count_occ cls_dec l k /\
        (forall s, In s (slots_returned rs2) -> own2 s = Some p /\ h_live h s = true) /\
        (forall s, ~ In s (slots_returned rs2) -> own2 s = own1 s).

(** ... they end with an exception however they are interleaved, and every object any
    of them has allocated is destroyed; no pool owns more than before. *)
Definition delivers_nothing (j : job) : Prop :=
  forall k pre n,
    legal_run [] (member_run k pre) -> n = length (fold_left alive_after (member_run k pre) []) ->
    (forall ops m f, fsteps n (FNew j) ops m f -> exists ops' m', fsteps m f ops' m' FFail) /\
    forall ops m, fsteps n (FNew j) ops m FFail ->
      exists rs1 rs2 own1 own2 w h,
        outcome_of k pre ops rs1 rs2 own1 own2 w h /\
        (forall s, In s (slots_returned rs2) -> own2 s = None /\ h_live h s = false) /\
        (forall s, ~ In s (slots_returned rs2) -> own2 s = own1 s).

(** ** Proofs *)
Lemma count_is k l : count k l = count_occ cls_dec l k.
Proof.
  unfold count. induction l as [|x l IH]; [reflexivity|]. cbn [filter count_occ].
  destruct (cls_dec x k) as [->|Hne]; destruct (cls_eqb k _) eqn:E; cbn [length]; try congruence; destruct k; try discriminate E; destruct x; try discriminate E; congruence.
Qed.

Lemma clean_delivers j l : forallb clean j = true -> Permutation (flat_map cost j) l -> delivers j l.
Proof.
  intros Hc HP k pre p n HL Hp Hn. split.
  - intros ops m f Hr. destruct (completes (fsize f) f m (le_n _)) as (ops' & m' & f' & Hr' & Hd). exists ops', m'.
    pose proof (fsteps_clean _ _ _ _ _ Hr) as C1. pose proof (fsteps_clean _ _ _ _ _ Hr') as C2. cbn [fclean] in C1. rewrite C1, Hc in C2.
    destruct f'; try discriminate Hd; try discriminate C2. eauto.
  - intros ops m r Hr. destruct (C62_parallel_parse_owned k pre p n j ops m r HL Hp Hn Hr) as (rs1 & rs2 & own1 & own2 & w & h & H1 & H2 & H3 & H4 & _).
    exists rs1, rs2, own1, own2, w, h. split; [exact H1|]. split; [|auto]. rewrite H2.
    pose proof (fsteps_count k _ _ _ _ _ Hr Hc) as HC. cbn [todo] in HC. rewrite (count_perm k _ _ HP), count_is in HC. cbn in HC. lia.
Qed.

Lemma dirty_delivers j : forallb clean j = false -> delivers_nothing j.
Proof.
  intros Hc k pre n HL Hn. split.
  - intros ops m f Hr. destruct (completes (fsize f) f m (le_n _)) as (ops' & m' & f' & Hr' & Hd). exists ops', m'.
    pose proof (fsteps_clean _ _ _ _ _ Hr) as C1. pose proof (fsteps_clean _ _ _ _ _ Hr') as C2. cbn [fclean] in C1. rewrite C1, Hc in C2.
    destruct f'; try discriminate Hd; try discriminate C2. exact Hr'.
  - intros ops m Hr. destruct (C63_failed_parse_keeps_nothing k pre n j ops m HL Hn Hr) as (rs1 & rs2 & own1 & own2 & w & h & H1 & H2 & H3 & H4 & _).
    exists rs1, rs2, own1, own2, w, h. split; [exact H1|]. split; [|exact H4]. intros s Hs. apply H3 in Hs. tauto.
Qed.

Lemma objects_same views : forall v w, same_content v w -> Permutation (objects views v) (objects views w).
Proof.
  induction v as [x|l IH|l IH] using value_ind'; intros w H; inversion H as [|? l' HF|? l1 l' HP HF]; subst; cbn [objects class_of].
  - reflexivity.
  - apply perm_skip. clear H. induction HF as [|a b l l' Hab HF IHF]; [constructor|]. inversion IH; subst. cbn [flat_map]. apply Permutation_app; [apply perm_skip; auto|auto].
  - apply perm_skip. rewrite HP. apply (Permutation_Forall HP) in IH. clear H HP. induction HF as [|a b l0 l' [_ Hab] HF IHF]; [constructor|]. inversion IH; subst. cbn [flat_map].
    apply Permutation_app; [apply perm_skip; auto|auto].
Qed.

(** ** C99 *)

(** Whatever bytes the parallel parser accepts (copying): the objects the caller's pool
    gains are those of the root map with all its entries, and nothing else. *)
Theorem C99_owning : forall c fuel content buf q o, sane c -> fits c content -> announced content ->
  b2n (nth 9 content x00) = 10 ->
  Parse c fuel content buf q parallel = Ok o ->
  exists ty D blocks main rest entries e j,
    content = main ++ rest /\ len main = big_endian (firstn 8 content) /\
    b2n (nth 8 content x00) = SeriTypeToChar ty /\ ptables false ty D blocks rest /\
    pmap content (negb (ndebug c)) D blocks 10 entries e /\ o = pmeaning entries /\
    Parse_job c fuel content buf false = Some j /\ delivers j (objects false (VMap entries)).
Proof.
  intros c fuel content buf q o Hsane HL Han H9 H. unfold Parse in H. apply obind_ok in H as (sc & Hsc & H).
  unfold Parse_prog in H. cbn [po_type po_ref] in H. rewrite (init_flag _ _ _ _ _ Hsc), H9 in H. cbn [N.eqb Pos.eqb] in H.
  unfold CoroParse_prog in H. rewrite run_bind in H. apply obind_ok in H as ([root e] & Hv & H).
  destruct (para_root_sound c fuel content buf sc root e Hsane HL Han Hsc Hv) as (ty & D & blocks & main & rest & es & H1 & H2 & H3 & H4 & H5 & ->).
  cbn [tree_of take_root] in H. rewrite run_lift, take_root_first in H. injection H as <-.
  eexists ty, D, blocks, main, rest, es, e, _. do 6 (split; [assumption || reflexivity|]).
  unfold Parse_job. rewrite Hsc, (init_flag _ _ _ _ _ Hsc), H9. split; [reflexivity|].
  destruct (jobs_exact (doc_env c content buf sc) (sc_split sc) (getter c (sc_map sc)) false fuel) as (_ & JM & _). destruct (JM meta_size) as [J1 J2].
  apply clean_delivers; [rewrite J1, Hv; reflexivity|]. rewrite (J2 _ _ Hv). apply objects_tree.
Qed.

(** In place (input without nine consecutive bytes above 127, see C77). *)
Theorem C99_in_place : forall c fuel content buf q o', sane c -> fits c content -> announced content -> short_numbers content ->
  b2n (nth 9 content x00) = 10 ->
  Parse c fuel content buf q {| po_type := Coroutine; po_ref := true |} = Ok o' ->
  exists ty D blocks main rest entries e j,
    content = main ++ rest /\ len main = big_endian (firstn 8 content) /\
    b2n (nth 8 content x00) = SeriTypeToChar ty /\ ptables false ty D blocks rest /\
    pmap content (negb (ndebug c)) D blocks 10 entries e /\ reflects content buf o' (pmeaning entries) /\
    Parse_job c fuel content buf true = Some j /\ delivers j (objects true (VMap entries)).
Proof.
  intros c fuel content buf q o' Hsane HL Han Hsh H9 H. unfold Parse in H. apply obind_ok in H as (sc & Hsc & H).
  unfold Parse_prog in H. cbn [po_type po_ref] in H. rewrite (init_flag _ _ _ _ _ Hsc), H9 in H. cbn [N.eqb Pos.eqb] in H.
  unfold CoroParse_prog in H. rewrite run_bind in H. apply obind_ok in H as ([root' e] & Hv' & H).
  assert (Hget : forall id v, getter c (sc_map sc) id = Ok v -> v_buf v = b_buf (doc_env c content buf sc) /\ exists s, read_local (b_env (doc_env c content buf sc)) v = Ok s).
  { intros id v Hg. exact (getter_view _ _ _ _ _ _ _ Hsane Hsc Hg). }
  destruct (para_back (doc_env c content buf sc) (sc_split sc) (getter c (sc_map sc)) eq_refl eq_refl HL Hget (short_tame _ _ _ _ Hsh) fuel) as (_ & VS & _).
  destruct (VS _ _ _ Hv') as (root & Hv & He).
  destruct (para_root_sound c fuel content buf sc root e Hsane HL Han Hsc Hv) as (ty & D & blocks & main & rest & es & H1 & H2 & H3 & H4 & H5 & ->).
  eexists ty, D, blocks, main, rest, es, e, _. do 5 (split; [assumption|]). split.
  { rewrite run_lift in H. destruct (take_root_back _ _ _ _ _ He H) as (r & Hr & HR). cbn [tree_of take_root] in Hr. rewrite take_root_first in Hr. injection Hr as <-. exact HR. }
  unfold Parse_job. rewrite Hsc, (init_flag _ _ _ _ _ Hsc), H9. split; [reflexivity|].
  destruct (jobs_exact (doc_env c content buf sc) (sc_split sc) (getter c (sc_map sc)) true fuel) as (_ & JM & _). destruct (JM meta_size) as [J1 J2].
  apply clean_delivers; [rewrite J1, Hv'; reflexivity|]. rewrite (J2 _ _ Hv'). destruct (echo_viewed _ _ _ _ He) as [-> ->].
  change (viewed (cls_of (tree_of CoroFrame (VMap es))) :: map viewed (below (tree_of CoroFrame (VMap es)))) with (map viewed (cls_of (tree_of CoroFrame (VMap es)) :: below (tree_of CoroFrame (VMap es)))).
  rewrite objects_viewed. apply Permutation_map, objects_tree.
Qed.

(** A document written by Serialize and split at its root, in either mode: one root
    map, one item and the objects of the value. *)
Theorem C99_serialized : forall cs cp mem ty p o v content buf fuel views j,
  sane cs -> sane cp -> denotes mem o v -> (views = true -> no_custom v) ->
  Serialize cs mem ty p o = Ok content -> fits cp content -> (length content <= fuel)%nat ->
  Parse_job cp fuel content buf views = Some j ->
  delivers j (objects views (VMap [(root_key, v)])).
Proof.
  intros cs cp mem ty p o v content buf fuel views j Hcs Hcp Hd Hnc Hs HL Hf Hj.
  destruct (Serialize_document cs mem ty p o v Hcs Hd) as (content' & Hs' & Hdoc). rewrite Hs in Hs'. injection Hs' as <-.
  assert (H32 : len content < W32) by (unfold fits in HL; rewrite W32_val; destruct (ndebug cp); lia). specialize (Hdoc H32).
  assert (HL' : lim cp (len (content ++ []))) by (rewrite app_nil_r; exact HL).
  destruct (init_ok cp (split_block_size cs) ty v content [] buf fuel Hcp Hdoc HL' Hf)
    as (sc & body & fl & ks & info & Y & Hinit & (hd & Hhd & Hcont) & HY & Hw & Htot & Hfl & Hinfo & Hmp & Hans & Hlb).
  rewrite app_nil_r in *. unfold Parse_job in Hj. rewrite Hinit, Hfl in Hj. destruct fl; [|discriminate]. injection Hj as <-.
  set (E := doc_env cp content buf sc) in *. set (D := dict_of ty ks) in *.
  set (m := fun _ : nat => Some content).
  assert (Hmap : ModelParse.b_map E = match D with Some _ => true | None => false end).
  { unfold E, D; cbn. destruct ty; cbn.
    - assert (sc_map sc = None) as -> by (now apply Hmp). reflexivity.
    - destruct (sc_map sc) eqn:Em; [reflexivity|]. exfalso. destruct Hmp as [Hmp _]. discriminate (Hmp eq_refl). }
  assert (Hlhd : len hd = 10) by (unfold len; now rewrite Hhd).
  assert (Hfb : (length body <= fuel)%nat) by lia.
  assert (Hncr : views = true -> no_custom (VMap [(root_key, v)])).
  { intros Hp. constructor. constructor; [cbn; auto|constructor]. }
  destruct (Parse_blocks_ok E (sc_split sc) (getter cp (sc_map sc)) D (table_of info) (split_block_size cs) m)
    with (fuel := fuel) (pr := views) as (_ & HM & _); auto.
  { intros id l Hid. unfold GetBlockInfoFromId. rewrite Hinfo. unfold table_of in Hid. now rewrite Hid. }
  destruct (HM _ _ hd Y Hw) as (root & Hrun & (v2 & Hsame & Hr & _)); auto.
  rewrite Hlhd in Hrun. change 10 with meta_size in Hrun.
  destruct (jobs_exact E (sc_split sc) (getter cp (sc_map sc)) views fuel) as (_ & JM & _). destruct (JM meta_size) as [J1 J2].
  apply clean_delivers; [rewrite J1, Hrun; reflexivity|]. rewrite (J2 _ _ Hrun).
  rewrite (objects_same views _ _ (Order.regrouped_same _ _ Hsame)).
  destruct (blocks_wf E (getter cp (sc_map sc)) (fun _ => True) (sc_split sc) fuel I) as (_ & W & _).
  apply denoted_objects with (P := fun _ => True) (mem := m); [|exact Hr].
  exact (W views meta_size _ Hrun).
Qed.

(** When the parallel parse throws, the caller's pool is as before. *)
Theorem C99_exception : forall c fuel content buf q views e j,
  Parse c fuel content buf q {| po_type := Coroutine; po_ref := views |} = Throw e ->
  Parse_job c fuel content buf views = Some j ->
  delivers_nothing j.
Proof.
  intros c fuel content buf q views e j H Hj. apply dirty_delivers. unfold Parse_job in Hj. unfold Parse in H.
  destruct (initFromContent c fuel content buf) as [sc| | | |] eqn:Hsc; try discriminate. cbn [obind] in H. unfold Parse_prog in H. cbn [po_type po_ref] in H.
  destruct (sc_need_to_split sc); [|discriminate]. injection Hj as <-. unfold CoroParse_prog in H. rewrite run_bind in H.
  destruct (jobs_exact (doc_env c content buf sc) (sc_split sc) (getter c (sc_map sc)) views fuel) as (_ & JM & _). destruct (JM meta_size) as [J1 _]. rewrite J1.
  destruct (run _ (ParseMap _ _ _ _ _)) as [[root x]| | | |]; try reflexivity. exfalso. cbn [obind] in H. rewrite run_lift in H.
  destruct root as [|? ?|? ?|? ? ?|? ? items|? ? items]; try discriminate H. cbn [take_root] in H.
  assert (G : forall it key e', MapView_take (fun _ => Some content) it key <> Throw e').
  { clear. induction it as [|[k o] it IH]; intros key e'; cbn [MapView_take]; [discriminate|]. unfold read_view.
    assert (R0 : forall a n e, read_range content a n <> Throw e) by (intros a n e0; unfold read_range; destruct (_ =? _); [discriminate|]; destruct (_ <=? _); discriminate).
    destruct (read_range content (v_off k) (v_len k)) eqn:E; try discriminate; [|exfalso; eapply R0; exact E].
    cbn [obind]. destruct (bytes_eqb _ _); [discriminate|]. destruct (MapView_take _ it key) as [[? ?]| | | |] eqn:E2; try discriminate. exfalso. eapply IH; exact E2. }
  cbn [b_env doc_env root_env r_content] in H. destruct (MapView_take _ _ _) as [[? ?]| | | |] eqn:E; try discriminate H. eapply G; exact E.
Qed.

(** The hypotheses are met: an array cut into two blocks is read by four coroutines,
    the objects they make are those of the value; with a table that has no entry for
    the array the parse throws after the root map was made.  The value of the sample is
    split by a small block size. *)
Example C99_met :
  Parse_job x86_release 200 (two_doc [] [(0, [16]); (1, [4; 4])]) 7 false =
    Some [AAlloc KMap false;
          ASpawn false [[ASpawn false [[AAlloc KArray false;
                           ASpawn true [[AAlloc KData false; AAlloc KArrayItem false]; [AAlloc KData false; AAlloc KArrayItem false]]]];
                         AAlloc KMapItem false]]] /\
  (exists o, Parse x86_release 200 (two_doc [] [(0, [16]); (1, [4; 4])]) 7 p1 parallel = Ok o) /\
  (exists o, Parse x86_release 200 (two_doc [] [(0, [16]); (1, [4; 4])]) 7 p1 {| po_type := Coroutine; po_ref := true |} = Ok o) /\
  objects false (VMap two_entries) = [KMap; KMapItem; KArray; KArrayItem; KData; KArrayItem; KData] /\
  Parse_job x86_release 200 (two_doc [] [(0, [16])]) 7 false = Some [AAlloc KMap false; ASpawn false [[ASpawn false [[AThrow]]]]] /\
  Parse x86_release 200 (two_doc [] [(0, [16])]) 7 p1 parallel = Throw EOutOfRange /\
  (forall ty views, exists j, Parse_job tiny 200 (sample_doc tiny ty) 7 views = Some j).
Proof.
  split; [vm_compute; reflexivity|]. split; [eexists; vm_compute; reflexivity|]. split; [eexists; vm_compute; reflexivity|]. split; [reflexivity|].
  split; [vm_compute; reflexivity|]. split; [vm_compute; reflexivity|]. intros [] []; eexists; vm_compute; reflexivity.
Qed.
(** A history with a living pool. *)
Example C99_history : forall k, legal_run [] (member_run k [BpNew]) /\ nth_error (fold_left alive_after (member_run k [BpNew]) []) 0 = Some true.
Proof. intros []; repeat split. Qed.
