(** * C97: which inputs make the parallel parser leave its buffers or fail an assert. *)
From Verif Require Import Base BaseLemmas ModelVarint ModelData ModelSecondary ModelObject
  ModelParse ModelWrapper Spec SpecApi VarintProofs Wire NumProofs SeriProofs SeriProofs2 DocProofs ObjInd ParseLemmas
  NormalProofs SecondaryProofs ValueProofs ParaProofs GeneralProofs FrameProofs TermProofs Samples PropDocument PropHostile
  Lenient LenientPara LenientProofs LenientTables LenientRef PropLenient LenientParaProofs PropPara PropInsitu InsituSim InsituBack PropInsituPara
  Overrun OverrunProofs PropOverrun PropAssert OverrunPara OverrunParaProofs.
From Coq Require Import ZifyBool ZifyNat ZifyN.

Notation coroutine_scheduler r := {| po_type := Coroutine; po_ref := r |}.

(** A document with a well-formed header that says that the root is split, and
    well-formed tables. *)
Definition framed_split (content : bytes) (ty : SeriType) (D : option (N -> option bytes)) (blocks : list (N * list N)) : Prop :=
  exists size t f body rest, content = size ++ [t] ++ [f] ++ body ++ rest /\
    len size = 8 /\ big_endian size = 10 + len body /\ b2n t = SeriTypeToChar ty /\ b2n f = 10 /\ ptables true ty D blocks rest.

(** What the proofs need of the tables. *)
Lemma framed_split_env c fuel content buf p r ty D blocks :
  sane c -> fits c content -> (length content <= fuel)%nat -> framed_split content ty D blocks ->
  10 <= len content /\ exists sc, let E := doc_env c content buf sc in let get := getter c (sc_map sc) in
    Parse c fuel content buf p (coroutine_scheduler r) = run get (CoroParse_prog E (sc_split sc) fuel r) /\
    si_info (sc_split sc) = blocks /\ NoDup (map fst blocks) /\
    (forall id l, In (id, l) blocks -> Forall (fun x => x < 2 ^ 32) l /\ len l <= len content) /\
    ModelParse.b_map E = match D with Some _ => true | None => false end /\
    (forall d id v s, D = Some d -> get id = Ok v -> read_local (b_env E) v = Ok s -> d id = Some s) /\
    (forall d id s, D = Some d -> d id = Some s -> exists v, get id = Ok v /\ read_local (b_env E) v = Ok s /\ v_buf v = b_buf E) /\
    (forall id, (D <> None -> forall h, get id <> out h) /\ forall v, get id = Ok v -> v_buf v = b_buf E /\ exists s, read_local (b_env E) v = Ok s).
Proof.
  intros Hsane HL Hfuel (size & t & f & body & rest & -> & Hsz & Htot & Ht & Hf & HT).
  destruct (init_pcomplete_known c fuel size t f body rest buf ty D blocks Hsane HL Hfuel Hsz Htot Ht (or_intror Hf) HT) as (sc & H1 & H2 & H3 & H4 & H5).
  split; [rewrite !len_app, !len_cons, len_nil; lia|]. set (content := size ++ [t] ++ [f] ++ body ++ rest) in *.
  exists sc. cbv zeta. split.
  { unfold Parse. rewrite H1. cbn [obind]. unfold Parse_prog. cbn [po_type po_ref]. rewrite H4, Hf. reflexivity. }
  destruct (ptables_bounds _ _ _ _ _ HT) as [Hnd HB]. split; [exact H3|]. split; [exact Hnd|]. split.
  { intros id l Hin. destruct (HB id l Hin) as [B1 B2]. split; [exact B1|]. unfold content. rewrite !len_app. lia. }
  set (E := doc_env c content buf sc).
  assert (HD : match sc_map sc, D with None, None => True | Some m, Some d => forall id, known_strings c content m id = d id | _, _ => False end).
  { destruct D as [d|]; [destruct H5 as (m & -> & _ & H5); exact H5|rewrite H5; exact I]. }
  split. { cbn. destruct (sc_map sc), D; try contradiction; reflexivity. }
  split.
  { intros d id v s -> Hg Hr. destruct (sc_map sc) as [m|]; [|contradiction]. rewrite <- HD. unfold known_strings. rewrite Hg.
    change (b_env E) with (root_env c content) in Hr. now rewrite Hr. }
  split.
  { intros d id s -> Hd. assert (exists m, sc_map sc = Some m) as (m & Hm) by (destruct (sc_map sc); [eauto|contradiction]). rewrite Hm in HD.
    rewrite <- HD in Hd. unfold known_strings in Hd. rewrite Hm.
    destruct (getter c (Some m) id) as [v| | | |] eqn:Hg; try discriminate. exists v. split; [reflexivity|]. change (b_env E) with (root_env c content).
    split; [destruct (read_local _ v); try discriminate; congruence|]. rewrite <- Hm in Hg. now destruct (getter_view _ _ _ _ _ _ _ Hsane H1 Hg). }
  intros id. split.
  - intros HN h. destruct (sc_map sc) as [m|]; [|destruct D; [contradiction|congruence]]. cbn [getter]. unfold GetStr. destruct h; destruct (assoc_find _ _ _); discriminate.
  - intros v Hg. exact (getter_view _ _ _ _ _ _ _ Hsane H1 Hg).
Qed.

Lemma coroutine_out h c fuel content buf p r ty D blocks :
  sane c -> fits c content -> small_numbers content -> (length content <= fuel)%nat -> framed_split content ty D blocks ->
  Parse c fuel content buf p (coroutine_scheduler r) = out h ->
  split_harms (negb r) (negb (ndebug c)) D blocks content content h TMap 10.
Proof.
  intros Hsane HL Hsm Hfuel HFr H. destruct (framed_split_env c fuel content buf p r ty D blocks Hsane HL Hfuel HFr) as (H10 & sc & HP & Hb & Hnd & HB & Hmap & G1 & G2 & G3).
  rewrite HP in H. clear HP. set (E := doc_env c content buf sc) in *. subst blocks. unfold CoroParse_prog in H. rewrite run_bind in H.
  apply obind_out in H as [H|([root j] & Hv & H)].
  - destruct (para_out E (sc_split sc) (getter c (sc_map sc)) D r eq_refl eq_refl HL Hmap G1 G2 G3 Hsm HB h fuel) as (_ & PM & _). exact (PM 10 H).
  - exfalso. rewrite run_lift in H. destruct r.
    + destruct (para_back E (sc_split sc) (getter c (sc_map sc)) eq_refl eq_refl HL (fun id v => proj2 (G3 id) v) (tame_small E eq_refl eq_refl HL Hsm) fuel) as (_ & PB & _).
      apply PB in Hv as (o & Ho & He). destruct (para_sound E (sc_split sc) (getter c (sc_map sc)) D eq_refl eq_refl HL Hmap G1 HB fuel) as (_ & PS & _).
      apply PS in Ho as (es & _ & -> & _). cbn [tree_of] in He. destruct (take_root_echo content buf _ _ _ He eq_refl) as (r' & Hr' & _).
      change (r_content (b_env E)) with content in H. rewrite Hr' in H. now apply ok_out in H.
    + destruct (para_sound E (sc_split sc) (getter c (sc_map sc)) D eq_refl eq_refl HL Hmap G1 HB fuel) as (_ & PS & _).
      apply PS in Hv as (es & _ & -> & _). cbn [tree_of take_root] in H. now apply ok_out in H.
Qed.

(** C97.  Whatever makes the parallel parser run into undefined behaviour or a failed
    assert is one of the specified spots. *)
Theorem C97_only : forall c fuel content buf p r ty D blocks,
  sane c -> fits c content -> small_numbers content -> (length content <= fuel)%nat -> framed_split content ty D blocks ->
  (Parse c fuel content buf p (coroutine_scheduler r) = UB ->
     split_harms (negb r) (negb (ndebug c)) D blocks content content Undefined TMap 10) /\
  (Parse c fuel content buf p (coroutine_scheduler r) = Abort ->
     split_harms (negb r) (negb (ndebug c)) D blocks content content FailedAssert TMap 10).
Proof. intros. split; intros H'; eapply coroutine_out; eauto; exact H'. Qed.

(** Conversely, if such a spot is reached behind children that are complete before the
    last byte of the document, the parser runs into one: which one, if there are several
    in different blocks, depends on the order of the blocks (and, in the program, on the
    scheduling); a release build has only undefined behaviour. *)
Theorem C97_leads : forall c fuel content buf p r ty D blocks room tail h,
  sane c -> len content < 2 ^ 31 -> small_numbers content -> (length content <= fuel)%nat -> framed_split content ty D blocks ->
  content = room ++ tail -> tail <> [] ->
  split_harms (negb r) (negb (ndebug c)) D blocks content room h TMap 10 ->
  Parse c fuel content buf p (coroutine_scheduler r) = UB \/ (ndebug c = false /\ Parse c fuel content buf p (coroutine_scheduler r) = Abort).
Proof.
  intros c fuel content buf p r ty D blocks room tail h Hsane Hl Hsm Hfuel HFr Hroom Htail H.
  assert (HL : fits c content) by (unfold fits; change (2 ^ 32) with 4294967296; change (2 ^ 31) with 2147483648 in *; destruct (ndebug c); lia).
  assert (G : exists h', Parse c fuel content buf p (coroutine_scheduler r) = out h').
  { destruct (framed_split_env c fuel content buf p r ty D blocks Hsane HL Hfuel HFr) as (H10 & sc & HP & Hb & Hnd & HB & Hmap & G1 & G2 & G3).
    rewrite HP. clear HP. set (E := doc_env c content buf sc) in *. subst blocks.
    destruct (para_leads E (sc_split sc) (getter c (sc_map sc)) D r room tail eq_refl eq_refl HL Hl Hmap G1 G2 G3 (getter_nf c _) Hsm HB Hnd Hroom Htail h) as (PL & _).
    destruct (PL TMap 10 H fuel) as [_ PM]; [change (r_content (b_env E)) with content; lia|]. destruct (PM eq_refl) as (h' & Hh).
    exists h'. unfold CoroParse_prog, meta_size. rewrite run_bind, Hh. apply out_bind. }
  destruct G as ([|] & G); [now left|right]. split; [|exact G]. destruct (ndebug c) eqn:Hn; [|reflexivity]. exfalso. revert G. now apply C94_release.
Qed.

(** Without such a spot it returns or throws. *)
Theorem C97_otherwise : forall c fuel content buf p r ty D blocks,
  sane c -> len content < 2 ^ 31 -> short_numbers content -> (length content + 3 <= fuel)%nat -> framed_split content ty D blocks ->
  (forall h, ~ split_harms (negb r) (negb (ndebug c)) D blocks content content h TMap 10) ->
  (exists o, Parse c fuel content buf p (coroutine_scheduler r) = Ok o) \/ exists e, Parse c fuel content buf p (coroutine_scheduler r) = Throw e.
Proof.
  intros c fuel content buf p r ty D blocks Hs Hl Hsh Hf Hfr HN.
  assert (HL : fits c content) by (unfold fits; change (2 ^ 32) with 4294967296; change (2 ^ 31) with 2147483648 in *; destruct (ndebug c); lia).
  pose proof (C97_only c fuel content buf p r ty D blocks Hs HL (vints_short _ Hsh) ltac:(lia) Hfr) as [C1 C2].
  destruct (Parse c fuel content buf p (coroutine_scheduler r)) as [o|e| | |] eqn:HP; [eauto|eauto| | |].
  - exfalso. apply (HN FailedAssert). auto.
  - exfalso. apply (HN Undefined). auto.
  - exfalso. revert HP. apply Parse_ends; auto. left. apply short_tame. exact Hsh.
Qed.

(** The theorems speak about something.  Two documents: in the first one the only key
    announces more bytes than there are; the sequential parser and the parallel one
    that reads in place refuse it, the parallel one that copies leaves the buffer.  In
    the second one the first block of a split array is malformed, the second one holds
    a string that announces more bytes than there are: the sequential parser refuses
    the document at the first block, the parallel one also runs the second. *)
Definition long_key_doc : bytes :=
  hdr 17 0 10 ++ (str [1; 0; 100] ++ root_key) ++ section (split_bytes [(0, [5])]).
Definition second_block_doc : bytes :=
  hdr 28 0 10 ++ (str [1; 0; 4] ++ root_key ++ str [130; 2; 1; 0; 200; 1; 97; 0; 0; 100; 98]) ++ section (split_bytes [(0, [16]); (1, [4; 4])]).

Ltac at_tac doc i n := exists (firstn i doc), (skipn n doc); split; vm_compute; reflexivity.

Example C97_met :
  (framed_split long_key_doc NORMAL None [(0, [5])] /\ short_numbers long_key_doc /\
   (exists room tail, long_key_doc = room ++ tail /\ tail <> [] /\
      forall strict, split_harms true strict None [(0, [5])] long_key_doc room Undefined TMap 10) /\
   Parse x86_release 100 long_key_doc 7 p1 (coroutine_scheduler false) = UB /\
   Parse x86_release 100 long_key_doc 7 p1 (coroutine_scheduler true) = Throw ERuntime /\
   Parse x86_release 100 long_key_doc 7 p1 sequential = Throw ERuntime) /\
  (framed_split second_block_doc NORMAL None [(0, [16]); (1, [4; 4])] /\ short_numbers second_block_doc /\
   (exists room tail, second_block_doc = room ++ tail /\ tail <> [] /\
      forall strict, split_harms true strict None [(0, [16]); (1, [4; 4])] second_block_doc room Undefined TMap 10) /\
   Parse x86_release 100 second_block_doc 7 p1 (coroutine_scheduler false) = UB /\
   Parse x86_release 100 second_block_doc 7 p1 sequential = Throw ERuntime).
Proof.
  split.
  - split.
    { exists (be_bytes 8 17), (n2b 0), (n2b 10), (str [1; 0; 100] ++ root_key), (section (split_bytes [(0, [5])])). do 5 (split; [reflexivity|]).
      replace (section (split_bytes [(0, [5])])) with (str [4] ++ split_bytes [(0, [5])] ++ []) by reflexivity.
      constructor; [vint_tac|]. replace (split_bytes [(0, [5])]) with (str [1] ++ concat [str [0] ++ str [1] ++ concat [str [5]]] ++ []) by reflexivity.
      econstructor; [vint_tac|reflexivity|repeat constructor; cbn; intuition discriminate|].
      constructor; [|constructor]. exists 0, (str [0]), 1, (str [1]), [str [5]]. split; [vint_tac|]. split; [reflexivity|]. split; [vint_tac|]. split; [reflexivity|]. split; [|reflexivity].
      constructor; [|constructor]. exists 5. split; [vint_tac|reflexivity]. }
    split; [apply short_check; reflexivity|]. split; [|vm_compute; auto].
    exists (firstn 21 long_key_doc), (skipn 21 long_key_doc). split; [symmetry; apply firstn_skipn|]. split; [vm_compute; discriminate|].
    intros strict. apply sh_block with (n := 1) (a := 11) (id := 0) (b := 12) (sizes := [5]) (lo := 12) (hi := 17); [discriminate| | |now left| |].
    + exists (str [1]). split; [vint_tac|]. split; [at_tac long_key_doc 10%nat 11%nat|reflexivity].
    + exists (str [0]). split; [vint_tac|]. split; [at_tac long_key_doc 11%nat 12%nat|reflexivity].
    + exists [], 5, []. repeat split.
    + apply bh_key_end with (n := 100) (a := 13); try reflexivity.
      exists (str [100]). split; [vint_tac|]. split; [at_tac long_key_doc 12%nat 13%nat|reflexivity].
  - split.
    { exists (be_bytes 8 28), (n2b 0), (n2b 10), (str [1; 0; 4] ++ root_key ++ str [130; 2; 1; 0; 200; 1; 97; 0; 0; 100; 98]), (section (split_bytes [(0, [16]); (1, [4; 4])])).
      do 5 (split; [reflexivity|]). exact (proj1 (proj2 C83_met)). }
    split; [apply short_check; reflexivity|]. split; [|vm_compute; auto].
    exists (firstn 36 second_block_doc), (skipn 36 second_block_doc). split; [symmetry; apply firstn_skipn|]. split; [vm_compute; discriminate|].
    intros strict. apply sh_block with (n := 1) (a := 11) (id := 0) (b := 12) (sizes := [16]) (lo := 12) (hi := 28); [discriminate| | |now left| |].
    + exists (str [1]). split; [vint_tac|]. split; [at_tac second_block_doc 10%nat 11%nat|reflexivity].
    + exists (str [0]). split; [vint_tac|]. split; [at_tac second_block_doc 11%nat 12%nat|reflexivity].
    + exists [], 16, []. repeat split.
    + apply bh_entry with (k := root_key) (j := 17); [reflexivity| |].
      { refine (pk_plain _ _ 12 4 (str [4]) root_key eq_refl _ eq_refl _); [vint_tac|at_tac second_block_doc 12%nat 17%nat]. }
      apply ch_split with (x := n2b 130) (t := TArray); [reflexivity|at_tac second_block_doc 17%nat 18%nat|].
      apply sh_block with (n := 2) (a := 19) (id := 1) (b := 20) (sizes := [4; 4]) (lo := 24) (hi := 28); [discriminate| | |right; now left| |].
      * exists (str [2]). split; [vint_tac|]. split; [at_tac second_block_doc 18%nat 19%nat|reflexivity].
      * exists (str [1]). split; [vint_tac|]. split; [at_tac second_block_doc 19%nat 20%nat|reflexivity].
      * exists [4], 4, []. repeat split.
      * apply bh_element; [reflexivity|]. apply ch_whole with (x := n2b 0) (t := TData); [reflexivity|at_tac second_block_doc 24%nat 25%nat|].
        apply hm_payload. apply bad_blob with (d := BRIDGE_BYTES) (n := 100) (a := 27); auto; try reflexivity.
        -- at_tac second_block_doc 25%nat 26%nat.
        -- exists (str [100]). split; [vint_tac|]. split; [at_tac second_block_doc 26%nat 27%nat|reflexivity].
Qed.
