(** * Properties C12, C14, C15, C16, C38, C44: truncated, hostile and huge input. *)
From Verif Require Import Base BaseLemmas ModelVarint ModelData ModelSecondary ModelObject
  ModelParse ModelWrapper Spec SpecApi VarintProofs Wire NumProofs DocProofs ObjInd ParseLemmas
  NormalProofs SecondaryProofs ValueProofs RoundTrip GeneralProofs ApiProofs Samples PropRoundTrip PropDocument TermProofs.
From Coq Require Import ZifyBool ZifyNat ZifyN.

Definition seq_own : ParseOption := {| po_type := Normal; po_ref := false |}.
Definition seq_ref : ParseOption := {| po_type := Normal; po_ref := true |}.
Definition par_own : ParseOption := {| po_type := Coroutine; po_ref := false |}.
Definition par_ref : ParseOption := {| po_type := Coroutine; po_ref := true |}.

(** The first eight bytes of a document, as the number every machine reads there. *)
Definition declared_size (content : bytes) : N := of_network (firstn 8 content).


Lemma num_of_wire_network c b : length b = 8%nat -> num_of_wire c 8 b = of_network b.
Proof.
  intros Hb. assert (E : b = be_bytes 8 (of_network b)).
  { unfold be_bytes. replace (of_network b) with (of_le_bytes (rev b)) by (rewrite <- of_network_rev; now rewrite rev_involutive).
    rewrite le_of_le' by (rewrite rev_length, Hb; reflexivity). now rewrite rev_involutive. }
  rewrite E at 1. apply num_of_wire_be.
  replace (of_network b) with (of_le_bytes (rev b)) by (rewrite <- of_network_rev; now rewrite rev_involutive).
  pose proof (of_le_bytes_bound (rev b)) as H. rewrite len_rev in H. unfold len in H. rewrite Hb in H. exact H.
Qed.

(** ** Rejection that does not depend on the rest of the bytes *)

Definition rejected_up_front (content : bytes) : Prop :=
  len content < 10 \/                                  (* shorter than a header *)
  len content <= declared_size content \/              (* ends before the declared size *)
  (b2n (nth 8 content x00) <> 0 /\ b2n (nth 8 content x00) <> 1).  (* unknown document type *)

Lemma reject c fuel content buf p po : rejected_up_front content ->
  Parse c fuel content buf p po = Throw ERuntime.
Proof.
  intros H. unfold Parse, initFromContent, meta_size. destruct (N.ltb_spec (len content) 10) as [|Hl]; [reflexivity|].
  unfold ParseTotalSize. replace (len content <? 8) with false by lia. cbn [obind].
  rewrite num_of_wire_network by (rewrite firstn_length; unfold len in Hl; lia).
  destruct H as [H|[H|H]]; [lia| |].
  - assert (HS : forall t, declared_size content = t -> secondary_env c content t = Throw ERuntime).
    { intros t <-. unfold secondary_env, parseLength_str. now replace (len content <=? declared_size content) with true by lia. }
    unfold declared_size in HS. rewrite (HS _ eq_refl). cbn [obind].
    destruct (_ =? SeriTypeToChar NORMAL); [reflexivity|]. destruct (_ =? SeriTypeToChar REPLACE); reflexivity.
  - destruct H as [H0 H1]. cbn [SeriTypeToChar]. apply N.eqb_neq in H0, H1. now rewrite H0, H1.
Qed.

(** ** C12.  Truncation *)

(** The property as stated is false: a cut inside the tables can be accepted, can
    run into undefined behaviour, or trip an assert. *)
Theorem C12_truncation_refuted :
  (exists content n o, Serialize x86_debug no_mem NORMAL p0 sample = Ok content /\ (n < length content)%nat /\
     Parse x86_debug 200 (firstn n content) 7 p1 seq_own = Ok o /\ o <> ONull) /\
  (exists content n, Serialize x86_release no_mem REPLACE p0 sample = Ok content /\ (n < length content)%nat /\
     Parse x86_release 200 (firstn n content) 7 p1 seq_own = UB).
Proof.
  split.
  - exists (sample_doc x86_debug NORMAL), (length (sample_doc x86_debug NORMAL) - 1)%nat. eexists.
    split; [apply sample_serialized; cbn; tauto|]. split; [vm_compute; lia|]. split; [vm_compute; reflexivity|discriminate].
  - exists (sample_doc x86_release REPLACE), 57%nat.
    split; [apply sample_serialized; cbn; tauto|]. split; [vm_compute; lia|]. vm_compute. reflexivity.
Qed.

(** What is guaranteed: a document is a main part (header and body) followed by its
    tables, and every prefix that does not reach into the tables is rejected with
    an exception, by every reader, in every mode, without looking at the body. *)
Theorem C12_truncated_body_partial : forall cs cp mem ty p o v content,
  sane cs -> denotes mem o v -> Serialize cs mem ty p o = Ok content -> len content < 2 ^ 32 ->
  exists main tables,
    content = main ++ tables /\
    match ty with
    | NORMAL => exists splits, prefixed splits tables
    | REPLACE => exists strings splits a b, tables = a ++ b /\ prefixed strings a /\ prefixed splits b
    end /\
    forall n fuel buf p' po, (n <= length main)%nat ->
      Parse cp fuel (firstn n content) buf p' po = Throw ERuntime.
Proof.
  intros cs cp mem ty p o v content Hc Hd Hs HL.
  destruct (C11_framing cs mem ty p o v content Hc Hd Hs HL) as (size & split & body & aux & Hcont & Hsz & Hnet & _ & Haux).
  set (t := n2b (SeriTypeToChar ty)) in *. set (f := n2b (if split then 10 else 0)) in *.
  exists (size ++ [t] ++ [f] ++ body), aux. split; [rewrite Hcont; now rewrite <- !app_assoc|]. split; [exact Haux|].
  intros n fuel buf p' po Hn. apply reject.
  rewrite !app_length in Hn. cbn [length] in Hn. unfold len in Hsz.
  assert (Hlen : len (firstn n content) <= N.of_nat n) by (unfold len; rewrite firstn_length; lia).
  destruct (Nat.ltb_spec n 10) as [Hlt|Hge]; [left; lia|]. right; left.
  unfold declared_size. rewrite firstn_firstn, Nat.min_l by lia. rewrite Hcont.
  rewrite (firstn_app_exact size _ 8) by lia. rewrite Hnet. rewrite Hcont in Hlen. unfold len in *. lia.
Qed.

Example C12_met : let content := sample_doc x86_debug REPLACE in
  (length content = 85)%nat /\ declared_size content = 55 /\
  Parse tiny_big_endian 200 (firstn 55 content) 7 p1 par_ref = Throw ERuntime /\
  (exists o, Parse tiny_big_endian 200 content 7 p1 par_ref = Ok o).
Proof. vm_compute. repeat split. eexists. reflexivity. Qed.

(** ** C14.  Memory safety *)

Definition hdr (total ty flag : N) : bytes := be_bytes 8 total ++ [n2b ty] ++ [n2b flag].
(** A root map with one child: a 4-byte integer whose length field says 10. *)
Definition evil_number : bytes :=
  hdr 30 0 0 ++ str [1; 0; 4] ++ root_key ++ str [0; 2; 10] ++ repeat x00 10 ++ str [1; 0].
(** A root map with one child: a string of 100 bytes that are not there. *)
Definition evil_string : bytes := hdr 20 0 0 ++ str [1; 0; 4] ++ root_key ++ str [0; 1; 100] ++ str [1; 0].

Theorem C14_memory_safety_refuted :
  (* a stack buffer is overrun (release build); an assert fires (debug build) *)
  Parse x86_release 100 evil_number 7 p1 seq_own = UB /\ Parse x86_debug 100 evil_number 7 p1 seq_own = Abort /\
  (* bytes outside the document are read *)
  Parse x86_release 100 evil_string 7 p1 seq_own = UB /\ Parse x86_debug 100 evil_string 7 p1 seq_own = UB.
Proof. vm_compute. repeat split. Qed.

(** What is guaranteed: these inputs are rejected by an exception before anything
    but the header is looked at; and documents written by the library, with any
    bytes after them, are read safely in every mode. *)
Theorem C14_rejected_partial : forall c fuel content buf p po,
  rejected_up_front content -> Parse c fuel content buf p po = Throw ERuntime.
Proof. exact reject. Qed.

Theorem C14_serialized_partial : forall cs cp mem ty p o v content X buf fuel p' po,
  sane cs -> sane cp -> denotes mem o v -> (po_ref po = true -> no_custom v) ->
  Serialize cs mem ty p o = Ok content -> fits cp (content ++ X) -> (length content <= fuel)%nat ->
  exists o', Parse cp fuel (content ++ X) buf p' po = Ok o'.
Proof.
  intros. edestruct (transport cs cp mem ty p o v content X buf fuel p' po) as (o' & v' & HP & _); eauto.
Qed.

Example C14_met : rejected_up_front (str [0; 0; 0; 0; 0; 0; 0; 100; 0; 0; 7]) /\ rejected_up_front [] /\
  rejected_up_front (str [0; 0; 0; 0; 0; 0; 0; 10; 2; 0; 7]).
Proof.
  split; [|split]; [right; left|left|right; right]; vm_compute; try reflexivity; [discriminate|split; discriminate].
Qed.

(** ** C15.  Termination *)

(** A map inside the root map whose first key has length 2^64 - 13: skipping the
    key takes the cursor back to the map itself. *)
Definition evil_cycle : bytes :=
  hdr 30 0 0 ++ str [1; 0; 4] ++ root_key ++ str [1; 1; 0] ++
  str [243; 255; 255; 255; 255; 255; 255; 255; 255; 1] ++ str [1; 0].

Lemma cycle_step c p pr get m fuel : (c = x86_debug \/ c = x86_release) ->
  let E := doc_env c evil_cycle m {| sc_map := None; sc_split := si_empty; sc_need_to_split := false; sc_total := 30 |} in
  run get (valueParse E p pr fuel TMap (at_ 18)) = Fuel.
Proof.
  intros Hc E. induction fuel as [fuel IH] using lt_wf_ind.
  destruct fuel as [|[|f]]; [reflexivity| |].
  { destruct Hc as [-> | ->]; destruct pr; vm_compute; reflexivity. }
  assert (H1 : parseLength (b_env E) (at_ 18) = Ok (1, at_ 19)) by (destruct Hc as [-> | ->]; vm_compute; reflexivity).
  assert (H2 : parseLength (b_env E) (at_ 19) = Ok (0, at_ 20)) by (destruct Hc as [-> | ->]; vm_compute; reflexivity).
  assert (H3 : parse_key E (at_ 20) = PRet ({| v_buf := m; v_off := 30; v_len := 18446744073709551603 |}, at_ 17))
    by (destruct Hc as [-> | ->]; vm_compute; reflexivity).
  assert (H4 : parseObjectType (b_env E) (at_ 17) = Ok (TMap, at_ 18)) by (destruct Hc as [-> | ->]; vm_compute; reflexivity).
  assert (H5 : check_oor (b_env E) (at_ 20) = Ok tt) by (destruct Hc as [-> | ->]; vm_compute; reflexivity).
  cbn [valueParse]. rewrite H1. cbn [lift pbind]. rewrite H2. cbn [lift pbind].
  destruct pr.
  - cbn [mapview_loop]. change (1 =? 0) with false. cbv iota. rewrite H3. cbn [pbind]. rewrite H4. cbn [lift pbind].
    rewrite !run_bind, IH by lia. reflexivity.
  - rewrite H5. cbn [lift pbind map_loop]. change (1 =? 0) with false. cbv iota. rewrite H3. cbn [pbind]. rewrite H4. cbn [lift pbind].
    rewrite !run_bind, IH by lia. reflexivity.
Qed.

(** No amount of fuel suffices: the recursion never returns.  (On a real machine it
    overflows the stack.) *)
Theorem C15_termination_refuted : forall c fuel buf p po, (c = x86_debug \/ c = x86_release) ->
  Parse c fuel evil_cycle buf p po = Fuel.
Proof.
  intros c fuel buf p po Hc. destruct fuel as [|fuel]; [destruct Hc as [-> | ->]; vm_compute; reflexivity|].
  set (sc := {| sc_map := None; sc_split := si_empty; sc_need_to_split := false; sc_total := 30 |}).
  assert (Hi : initFromContent c (S fuel) evil_cycle buf = Ok sc) by (destruct Hc as [-> | ->]; vm_compute; reflexivity).
  unfold Parse. rewrite Hi. cbn [obind].
  set (E := doc_env c evil_cycle buf sc). set (get := getter c (sc_map sc)).
  replace (Parse_prog c (S fuel) evil_cycle buf p po sc) with (NormalParse_prog E (S fuel) (po_ref po) p 30)
    by (unfold Parse_prog; destruct (po_type po); reflexivity).
  unfold NormalParse_prog. rewrite run_bind. unfold meta_size. change {| idx := 10; off := 10 |} with (at_ 10).
  assert (Hr : run get (valueParse E p (po_ref po) (S fuel) TMap (at_ 10)) = Fuel); [|now rewrite Hr].
  assert (H1 : parseLength (b_env E) (at_ 10) = Ok (1, at_ 11)) by (destruct Hc as [-> | ->]; vm_compute; reflexivity).
  assert (H2 : parseLength (b_env E) (at_ 11) = Ok (0, at_ 12)) by (destruct Hc as [-> | ->]; vm_compute; reflexivity).
  assert (H3 : parse_key E (at_ 12) = PRet ({| v_buf := buf; v_off := 13; v_len := 4 |}, at_ 17))
    by (destruct Hc as [-> | ->]; vm_compute; reflexivity).
  assert (H4 : parseObjectType (b_env E) (at_ 17) = Ok (TMap, at_ 18)) by (destruct Hc as [-> | ->]; vm_compute; reflexivity).
  assert (H5 : check_oor (b_env E) (at_ 12) = Ok tt) by (destruct Hc as [-> | ->]; vm_compute; reflexivity).
  cbn [valueParse]. rewrite H1. cbn [lift pbind]. rewrite H2. cbn [lift pbind].
  destruct (po_ref po).
  - destruct fuel as [|fuel]; [reflexivity|].
    cbn [mapview_loop]. change (1 =? 0) with false. cbv iota. rewrite H3. cbn [pbind]. rewrite H4. cbn [lift pbind].
    rewrite !run_bind. unfold E, sc. rewrite (cycle_step c p true get buf fuel Hc). reflexivity.
  - rewrite H5. cbn [lift pbind]. destruct fuel as [|fuel]; [reflexivity|].
    cbn [map_loop]. change (1 =? 0) with false. cbv iota. rewrite H3. cbn [pbind]. rewrite H4. cbn [lift pbind].
    rewrite !run_bind. unfold E, sc. rewrite (cycle_step c p false get buf fuel Hc). reflexivity.
Qed.

(** What is guaranteed, for input below 2 GiB.  Fuel counts the nesting depth plus
    the loop iterations of the model, so a bound on it is a bound on the work per
    level of the real parser.

    (1) Dictionary documents parsed into owning objects: termination on every byte
    string, whatever the bytes after the header are. *)
Theorem C15_dictionary_owning_partial : forall c content buf p po fuel,
  len content < 2 ^ 31 -> b2n (nth 8 content x00) = 1 -> po_ref po = false ->
  (length content + 3 <= fuel)%nat -> Parse c fuel content buf p po <> Fuel.
Proof. intros. apply Parse_ends; auto. Qed.

(** (2) In every mode, input without nine consecutive bytes above 127 (that is,
    without a length field of 2^63 or more). *)
Theorem C15_short_lengths_partial : forall c content buf p po fuel,
  len content < 2 ^ 31 ->
  (forall i, exists j, (j < 9)%nat /\ b2n (nth (i + j) content x00) < 128) ->
  (length content + 3 <= fuel)%nat -> Parse c fuel content buf p po <> Fuel.
Proof. intros. apply Parse_ends; auto. left. apply short_tame. assumption. Qed.

(** Hostile inputs that meet the hypotheses: (1) the cycle above, marked as a
    dictionary document; (2) the over-long string. *)
Example C15_met :
  (let content := hdr 30 1 0 ++ skipn 10 evil_cycle ++ str [1; 0] in
   len content < 2 ^ 31 /\ b2n (nth 8 content x00) = 1 /\ exists e, Parse x86_release 40 content 7 p1 par_own = Throw e) /\
  (forall i, exists j, (j < 9)%nat /\ b2n (nth (i + j) evil_string x00) < 128).
Proof.
  split; [vm_compute; repeat split; eexists; reflexivity|].
  intros i. destruct (Nat.ltb_spec i 22) as [Hi|Hi].
  - do 22 (destruct i as [|i]; [first [exists 0%nat; split; [lia|vm_compute; reflexivity] | exists 1%nat; split; [lia|vm_compute; reflexivity]]|]). lia.
  - exists 0%nat. split; [lia|]. rewrite nth_overflow; [vm_compute; reflexivity|]. change (length evil_string) with 22%nat. lia.
Qed.

(** ** C16.  Whatever is returned is well formed *)
Lemma well_formed_any (P Q : pool -> Prop) pr : (forall p, P p -> Q p) -> forall o, well_formed P pr o -> well_formed Q pr o.
Proof.
  intros HPQ o. revert pr.
  induction o as [|dt s|dt s|p n l IH|p n l IH|p n l IH] using obj_ind'; intros pr Hw; inversion Hw; subst;
    econstructor; eauto; rewrite Forall_forall in *; auto.
Qed.

(** The result is null (no "root" entry in the document) or a tree in which every
    data node has a supported tag and a payload of that type, no child is missing
    and every Size() is the number of children; it is made of views exactly when
    the in-situ mode was asked for. *)
Theorem C16_result_well_formed : forall c fuel content buf p po o,
  Parse c fuel content buf p po = Ok o ->
  o = ONull \/ well_formed (fun _ => True) (po_ref po) o.
Proof.
  intros c fuel content buf p po o H. apply Parse_wf in H as [H|H]; [now left|right].
  eapply well_formed_any; [|exact H]. auto.
Qed.

(** Following any path of keys and indices inside a well-formed tree. *)
Lemma walk_well_formed P pr mem path : forall o w,
  (o = ONull \/ well_formed P pr o) -> api_walk mem o path = Ok w -> w = ONull \/ well_formed P pr w.
Proof.
  induction path as [|[k|n] path IH]; intros o w Ho; cbn [api_walk]; [intros [= <-]; exact Ho| |].
  - intros H. apply obind_ok in H as (o' & Ho' & H). apply (IH o' w); [|exact H]. clear IH H.
    destruct o as [| | | |q size items|q size items]; cbn in Ho'; try (injection Ho' as <-; now left).
    + injection Ho' as <-. destruct Ho as [|Ho]; [discriminate|]. inversion Ho as [| | |? ? ? _ _ HF|]; subst.
      clear -HF. induction HF as [|[k' x] items Hx HF IHF]; cbn; [now left|]. destruct (bytes_eqb k' k); auto.
    + destruct Ho as [|Ho]; [discriminate|]. inversion Ho as [| | | |? ? ? _ _ HF]; subst.
      clear Ho. induction HF as [|[k' x] items Hx HF IHF]; cbn in Ho'; [injection Ho' as <-; now left|].
      apply obind_ok in Ho' as (b & _ & Hb). destruct (bytes_eqb b k); [injection Hb as <-; now right|auto].
  - intros H. apply obind_ok in H as (o' & Ho' & H). apply (IH o' w); [|exact H]. clear IH H.
    destruct o as [| | |q size items| |]; cbn in Ho'; injection Ho' as <-; try now left.
    destruct Ho as [|Ho]; [discriminate|]. inversion Ho as [| |? ? ? ? _ _ HF| |]; subst.
    unfold Array_at. destruct (_ <=? _); [now left|]. rewrite walk_nth.
    destruct (nth_error items _) as [x|] eqn:E; [|now left].
    right. rewrite Forall_forall in HF. apply HF. now apply nth_error_In in E.
Qed.

(** Hence every read of a copying parse's result is defined, whatever the input was. *)
Theorem C16_reads_are_defined : forall c fuel content buf p sch o,
  Parse c fuel content buf p {| po_type := sch; po_ref := false |} = Ok o ->
  forall mem path, exists s, api_seen mem o path = Ok s.
Proof.
  intros c fuel content buf p sch o H mem path.
  apply C16_result_well_formed in H. cbn [po_ref] in H.
  assert (HW : exists w, api_walk mem o path = Ok w).
  { clear -H. revert o H. induction path as [|[k|n] path IH]; intros o Ho; cbn [api_walk]; [eauto| |].
    - assert (Hk : exists o', w_key mem o k = Ok o').
      { destruct Ho as [->|Ho]; [cbn; eauto|]. inversion Ho; cbn; eauto. }
      destruct Hk as (o' & Ho'). rewrite Ho'. cbn [obind]. apply IH.
      eapply (walk_well_formed _ _ mem [Key k] o); [exact Ho|]. cbn. now rewrite Ho'.
    - assert (Hk : exists o', w_idx o n = Ok o') by (destruct o; cbn; eauto).
      destruct Hk as (o' & Ho'). rewrite Ho'. cbn [obind]. apply IH.
      eapply (walk_well_formed _ _ mem [Idx n] o); [exact Ho|]. cbn. now rewrite Ho'. }
  destruct HW as (w & Hw). pose proof (walk_well_formed _ _ _ _ _ _ H Hw) as Hwf.
  unfold api_seen. rewrite Hw. cbn [obind]. destruct Hwf as [->|Hwf]; [cbn; eauto|].
  inversion Hwf as [dt s x Hd| |? ? ? ? _ _ _|? ? ? _ _ _|]; subst; cbn [w_Empty w_GetType GetType w_Size obind]; eauto.
  destruct Hd as [s|s|s|t n]; [| | |destruct t]; cbn; eauto.
Qed.

(** A hand-made document that the library would not write (stray split ids, a map
    with a repeated key) but accepts; and an in-situ parallel parse. *)
Definition odd_doc : bytes :=
  hdr 30 0 0 ++ str [1; 9; 4] ++ root_key ++ str [1; 2; 8; 1; 97; 2; 0; 7; 1; 97] ++ str [2; 0; 3] ++ str [1; 0].
Example C16_met :
  (exists o, Parse x86_debug 200 odd_doc 7 p1 seq_own = Ok o /\ well_formed (fun _ => True) false o) /\
  (exists o, Parse tiny 200 (sample_doc tiny REPLACE) 7 p1 par_ref = Ok o /\ well_formed (fun _ => True) true o).
Proof.
  split.
  - destruct (Parse x86_debug 200 odd_doc 7 p1 seq_own) as [o| | | |] eqn:E; try (vm_compute in E; discriminate).
    exists o. split; [reflexivity|]. apply C16_result_well_formed in E as E'. destruct E' as [->|H]; [vm_compute in E; discriminate|exact H].
  - destruct (Parse tiny 200 (sample_doc tiny REPLACE) 7 p1 par_ref) as [o| | | |] eqn:E; try (vm_compute in E; discriminate).
    exists o. split; [reflexivity|]. apply C16_result_well_formed in E as E'. destruct E' as [->|H]; [vm_compute in E; discriminate|exact H].
Qed.

(** ** C38.  Extending a parsed container *)

(** With the sequential scheduler every container of the result uses the pool that
    was passed to Parse, so inserting is safe while that pool lives. *)
Theorem C38_extendable_sequential_partial : forall c fuel content buf p pr o mem path w live,
  Parse c fuel content buf p {| po_type := Normal; po_ref := pr |} = Ok o ->
  api_walk mem o path = Ok w -> live p = true ->
  (w_GetType w = Ok (Some TArray) -> forall x, exists w', Array_Insert live w x = Ok w') /\
  (w_GetType w = Ok (Some TMap) -> forall x,
     (pr = false -> forall k, exists w', Map_Insert live w k x = Ok w') /\
     (pr = true -> forall k, exists w', MapView_Insert live w k x = Ok w')).
Proof.
  intros c fuel content buf p pr o mem path w live H Hw Hl.
  apply Parse_wf in H. cbn [po_ref] in H.
  eapply walk_well_formed in Hw; [|exact H].
  assert (HP : forall q, result_pool {| po_type := Normal; po_ref := pr |} p q -> live q = true).
  { intros q [->|[Hq _]]; [exact Hl|discriminate]. }
  destruct Hw as [->|Hw]; [split; cbn; discriminate|].
  inversion Hw as [| |pr' q size l Hp _ _|q size l Hp _ _|q size l Hp _ _]; subst; split; cbn; try discriminate; intros _ x.
  - cbn. rewrite (HP _ Hp). eauto.
  - split; [|discriminate]. intros _ k. rewrite (HP _ Hp). eauto.
  - split; [discriminate|]. intros _ k. rewrite (HP _ Hp). eauto.
Qed.

(** With the coroutine scheduler it is not: containers built by a block task keep a
    reference to a pool object inside the (finished) coroutine frame. *)
Theorem C38_extendable_parallel_refuted : exists o k m x,
  Parse tiny 200 (sample_doc tiny NORMAL) 7 p1 par_own = Ok o /\
  api_walk no_mem o [Key k] = Ok m /\ w_GetType m = Ok (Some TMap) /\
  forall live, live CoroFrame = false -> Map_Insert live m k x = UB.
Proof.
  exists (match Parse tiny 200 (sample_doc tiny NORMAL) 7 p1 par_own with Ok o => o | _ => ONull end), k_sub.
  eexists. exists ONull. split; [vm_compute; reflexivity|]. split; [vm_compute; reflexivity|]. split; [reflexivity|].
  intros live Hl. cbn. now rewrite Hl.
Qed.

Example C38_met : exists o, Parse tiny 200 (sample_doc tiny NORMAL) 7 p1 seq_own = Ok o /\
  exists w, api_walk no_mem o [Key k_tags] = Ok w /\ w_GetType w = Ok (Some TArray).
Proof. eexists. split; [vm_compute; reflexivity|]. eexists. split; vm_compute; reflexivity. Qed.
