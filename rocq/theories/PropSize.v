(** * Property C44: size limits. *)
From Verif Require Import Base BaseLemmas ModelVarint ModelData ModelSecondary ModelObject
  ModelParse ModelWrapper Spec SpecApi VarintProofs Wire NumProofs DocProofs ObjInd ParseLemmas
  NormalProofs SecondaryProofs ValueProofs RoundTrip GeneralProofs ApiProofs Samples PropRoundTrip PropDocument PropHostile.
From Coq Require Import ZifyBool ZifyNat ZifyN.

Lemma list_of_len : forall n, exists s : bytes, len s = n.
Proof. intros n. exists (repeat x00 (N.to_nat n)). unfold len. rewrite repeat_length. apply N2Nat.id. Qed.

(** The bytes written for a string of 2^32 characters: its length field is 0. *)
Definition huge_prefix : bytes := str [1; 1; 4] ++ root_key ++ str [0; 1; 0].
Definition huge_doc (s : bytes) : bytes :=
  be_bytes 8 (20 + len s) ++ str [0; 0] ++ huge_prefix ++ s ++ str [1; 0].

Lemma huge_serialize s p : len s = 2 ^ 32 ->
  Serialize x86_release no_mem NORMAL p (data_of_string s) = Ok (huge_doc s).
Proof.
  intros Hs. unfold Serialize, data_of_string.
  cbn [valueSeri]. unfold container_valueSeri.
  match goal with |- context [st_seriLength ?c ?n ?st] => let r := eval vm_compute in (st_seriLength c n st) in change (st_seriLength c n st) with r end.
  cbn [obind].
  match goal with |- context [seri_split_id ?c ?st] => let r := eval vm_compute in (seri_split_id c st) in change (seri_split_id c st) with r end.
  cbn [obind seri_items].
  match goal with |- context [seri_key ?c ?k ?st] => let r := eval vm_compute in (seri_key c k st) in change (seri_key c k st) with r end.
  cbn [obind]. unfold seri_child. cbn [GetType obind].

  set (pre := [x00; x00; x00; x00; x00; x00; x00; x00; x00; x00; Byte.x01; Byte.x01; Byte.x04; Byte.x72; Byte.x6f; Byte.x6f; Byte.x74]).
  set (si := Some {| si_info := []; si_next := 2 |}).
  assert (HV : valueSeri x86_release no_mem (OData BRIDGE_STRING (SStr s))
      (st_push (ObjectTypeToChar TData) {| outer := pre; smap := None; sinfo := si |}) =
      Ok ({| outer := (pre ++ str [0; 1; 0]) ++ s; smap := None; sinfo := si |}, false)).
  { cbn [valueSeri]. unfold Data_valueSeri. change (negb (valid_data_type BRIDGE_STRING)) with false. cbv iota.
    cbn [smap st_push with_outer]. unfold seriData.
    change ((BRIDGE_STRING =? BRIDGE_BYTES) || (BRIDGE_STRING =? BRIDGE_CUSTOM)) with false. change (BRIDGE_STRING =? BRIDGE_STRING) with true.
    cbv iota. cbn [get_str obind]. rewrite Hs. reflexivity. }
  rewrite HV. cbn [obind]. set (st3 := {| outer := (pre ++ str [0; 1; 0]) ++ s; smap := None; sinfo := si |}).
  assert (HL : len (outer st3) = 20 + 2 ^ 32).
  { cbn [outer st3]. rewrite len_app, Hs. reflexivity. }
  assert (HC : forall n, n = 12 -> cut_block x86_release st3 n [] = (20 + 2 ^ 32, [8])).
  { intros n ->. unfold cut_block. cbn [sinfo st3 si]. rewrite HL. reflexivity. }
  rewrite HC by reflexivity. cbn [obind].
  assert (HB : last_block st3 (20 + 2 ^ 32) [8] = [8]).
  { unfold last_block. cbn [sinfo st3 si]. rewrite HL. reflexivity. }
  rewrite HB. cbn [obind]. unfold register_split_info. cbn [sinfo st3 si last].
  change ((2 <=? len [8]) || (split_block_size x86_release <=? 8)) with false. cbv iota. fold st3.
  cbn [obind]. rewrite HL. unfold SeriTotalSizeToOuter. rewrite HL. change (20 + 2 ^ 32 <? 8) with false. cbv iota. cbn [obind smap st3].
  fold st3. cbn [sinfo st3].
  unfold si. match goal with |- context [SplitInfo_Serialize ?c ?x] => let r := eval vm_compute in (SplitInfo_Serialize c x) in change (SplitInfo_Serialize c x) with r end.
  cbn [obind]. unfold SuffixSecondary. unfold seriLength.
  match goal with |- context [varint_encode ?c ?x ?n] => let r := eval vm_compute in (varint_encode c x n) in change (varint_encode c x n) with r end.
  cbn [obind]. f_equal. unfold huge_doc. rewrite num_to_wire_be, Hs. cbn [outer st3]. rewrite <- !app_assoc. reflexivity.
Qed.

(** Reading primitives on a buffer of any size, in a build without asserts. *)
Section Big.
  Variable E : renv.
  Hypothesis Hnd : ndebug (r_cfg E) = true.
  Hypothesis HS : r_size E < 2 ^ 63.

  Lemma big_empty i : i < r_size E -> check_empty E (at_ i) = Ok tt.
  Proof.
    intros Hi. unfold check_empty, remain. cbn [idx at_]. change (2 ^ 63) with 9223372036854775808 in HS.
    rewrite sub64_small by (rewrite ?W64_val; lia). rewrite to_int64_small by (change (2 ^ 63) with 9223372036854775808; lia).
    now replace (Z.of_N (r_size E - i) <=? 0)%Z with false by lia.
  Qed.
  Lemma big_skip i n : i + n <= r_size E -> skip n (at_ i) = {| idx := i + n; off := i |}.
  Proof. intros Hi. unfold skip; cbn. change (2 ^ 63) with 9223372036854775808 in HS. now rewrite u64_small by (rewrite ?W64_val in *; lia). Qed.
  Lemma big_add i n : i + n <= r_size E -> add_off n {| idx := i + n; off := i |} = at_ (i + n).
  Proof. intros Hi. unfold add_off; cbn. change (2 ^ 63) with 9223372036854775808 in HS. now rewrite u64_small by (rewrite ?W64_val in *; lia). Qed.

  Lemma big_length A n B i :
    r_content E = A ++ venc n ++ B -> r_base E + i = len A -> i + len (venc n) <= r_size E -> n < W64 ->
    parseLength E (at_ i) = Ok (n, at_ (i + len (venc n))).
  Proof.
    intros HC HB Hi Hn. pose proof (venc_len_pos n).
    unfold parseLength. rewrite big_empty by lia. cbn [obind].
    rewrite curAddr_at by lia. cbn [obind]. rewrite HC, HB.
    rewrite varint_decode_ok; [|exact Hn|now left].
    cbn [obind]. rewrite big_skip by auto. rewrite check_oor_ok by (cbn; lia). cbn [obind].
    now rewrite big_add by auto.
  Qed.
  Lemma big_datatype A b B i :
    r_content E = A ++ b :: B -> r_base E + i = len A -> i + 1 <= r_size E ->
    parseDataType E (at_ i) = Ok (b2n b, at_ (i + 1)).
  Proof.
    intros HC HB Hi. unfold parseDataType. rewrite big_empty by lia. cbn [obind].
    rewrite curAddr_at by lia. cbn [obind]. rewrite HC, HB, read_byte_mid. cbn [obind].
    rewrite big_skip by auto. rewrite check_oor_ok by (cbn; lia). cbn [obind].
    now rewrite big_add by auto.
  Qed.
  Lemma big_objtype A v fl B i :
    r_content E = A ++ tag v fl :: B -> r_base E + i = len A -> i + 1 <= r_size E ->
    parseObjectType E (at_ i) = Ok (type_of v, at_ (i + 1)).
  Proof.
    intros HC HB Hi. unfold parseObjectType. rewrite big_empty by lia. cbn [obind].
    rewrite curAddr_at by lia. cbn [obind]. rewrite HC, HB, read_byte_mid. cbn [obind].
    rewrite big_skip by auto. rewrite check_oor_ok by (cbn; lia). cbn [obind].
    rewrite big_add by auto. destruct v, fl; reflexivity.
  Qed.
End Big.

Definition huge_header : bytes := Eval vm_compute in be_bytes 8 (20 + 2 ^ 32) ++ str [0; 0].

Lemma huge_doc_eq s : len s = 2 ^ 32 -> huge_doc s = huge_header ++ huge_prefix ++ s ++ str [1; 0].
Proof. intros Hs. unfold huge_doc. rewrite Hs. reflexivity. Qed.


Lemma huge_parse s fuel buf p po : len s = 2 ^ 32 ->
  forall o, Parse x86_release fuel (huge_doc s) buf p po <> Ok o.
Proof.
  intros Hs o. rewrite (huge_doc_eq s Hs).
  set (doc := huge_header ++ huge_prefix ++ s ++ str [1; 0]).
  assert (HL : len doc = 22 + 2 ^ 32) by (unfold doc; rewrite !len_app, Hs; reflexivity).
  destruct fuel as [|fuel].
  { unfold Parse. intros H. apply obind_ok in H as (sc & _ & H). unfold Parse_prog in H.
    assert (HN : forall x, run (getter x86_release (sc_map sc)) (NormalParse_prog (doc_env x86_release doc buf sc) 0 (po_ref po) p (sc_total sc)) = Ok x -> False)
      by (cbn; discriminate).
    destruct (po_type po); [eapply HN; eauto|]. destruct (sc_need_to_split sc); [cbn in H; discriminate|eapply HN; eauto]. }
  assert (Hinit : initFromContent x86_release (S fuel) doc buf =
    Ok {| sc_map := None; sc_split := si_empty; sc_need_to_split := false; sc_total := 20 + 2 ^ 32 |}).
  { unfold initFromContent. rewrite HL. change (22 + 2 ^ 32 <? meta_size) with false. cbv iota.
    unfold ParseTotalSize. rewrite HL. change (22 + 2 ^ 32 <? 8) with false. cbv iota. cbn [obind].
    change (firstn 8 doc) with (firstn 8 huge_header).
    assert (HT : num_of_wire x86_release 8 (firstn 8 huge_header) = 20 + 2 ^ 32) by (vm_compute; reflexivity). rewrite HT.
    change (b2n (nth 8 doc x00) =? SeriTypeToChar NORMAL) with true. cbv iota.
    unfold secondary_env, parseLength_str. rewrite HL. change (22 + 2 ^ 32 <=? 20 + 2 ^ 32) with false. cbv iota.
    assert (HD : doc = (huge_header ++ huge_prefix ++ s) ++ venc 1 ++ str [0]) by (unfold doc; rewrite <- !app_assoc; reflexivity).
    assert (HA : len (huge_header ++ huge_prefix ++ s) = 20 + 2 ^ 32) by (rewrite !len_app, Hs; reflexivity).
    assert (Hv : varint_decode x86_release doc (20 + 2 ^ 32) (to_int32 (to_int64 (sub64 (22 + 2 ^ 32) (20 + 2 ^ 32)))) = Ok (1, 1)).
    { rewrite HD, <- HA. apply (varint_decode_ok x86_release _ 1); [reflexivity|now left]. }
    rewrite Hv. cbn [obind]. change (22 + 2 ^ 32 <? u64 (20 + 2 ^ 32 + 1)) with false. cbv iota. cbn [obind fst snd].
    change (u64 (20 + 2 ^ 32 + 1)) with (21 + 2 ^ 32).
    unfold SplitInfo_Construct. change {| idx := 0; off := 0 |} with (at_ 0).
    erewrite (big_length {| r_cfg := x86_release; r_content := doc; r_base := 21 + 2 ^ 32; r_size := 1 |} eq_refl eq_refl
       ((huge_header ++ huge_prefix ++ s) ++ venc 1) 0 []).
    - cbn. reflexivity.
    - cbn [r_content]. rewrite HD. rewrite <- !app_assoc. reflexivity.
    - cbn [r_base]. rewrite len_app, HA. reflexivity.
    - vm_compute. discriminate.
    - reflexivity. }
  unfold Parse. rewrite Hinit. cbn [obind].
  set (sc := {| sc_map := None; sc_split := si_empty; sc_need_to_split := false; sc_total := 20 + 2 ^ 32 |}).
  set (E := doc_env x86_release doc buf sc). set (get := getter x86_release (sc_map sc)).
  replace (Parse_prog x86_release (S fuel) doc buf p po sc) with (NormalParse_prog E (S fuel) (po_ref po) p (20 + 2 ^ 32))
    by (unfold Parse_prog; destruct (po_type po); reflexivity).
  unfold NormalParse_prog. rewrite run_bind. unfold meta_size. change {| idx := 10; off := 10 |} with (at_ 10).
  assert (HSz : r_size (b_env E) = 22 + 2 ^ 32) by exact HL.
  assert (HSm : r_size (b_env E) < 2 ^ 63) by (rewrite HSz; reflexivity).
  set (rest := s ++ str [1; 0]).
  assert (H1 : parseLength (b_env E) (at_ 10) = Ok (1, at_ 11)).
  { rewrite (big_length (b_env E) eq_refl HSm huge_header 1 (str [1; 4] ++ root_key ++ str [0; 1; 0] ++ rest)); try reflexivity; rewrite HSz; vm_compute; discriminate. }
  assert (H2 : parseLength (b_env E) (at_ 11) = Ok (1, at_ 12)).
  { rewrite (big_length (b_env E) eq_refl HSm (huge_header ++ str [1]) 1 (str [4] ++ root_key ++ str [0; 1; 0] ++ rest)); try reflexivity; rewrite HSz; vm_compute; discriminate. }
  assert (H3 : parseLength (b_env E) (at_ 12) = Ok (4, at_ 13)).
  { rewrite (big_length (b_env E) eq_refl HSm (huge_header ++ str [1; 1]) 4 (root_key ++ str [0; 1; 0] ++ rest)); try reflexivity; rewrite HSz; vm_compute; discriminate. }
  assert (H4 : parseObjectType (b_env E) (at_ 17) = Ok (TData, at_ 18)).
  { rewrite (big_objtype (b_env E) eq_refl HSm (huge_header ++ str [1; 1; 4] ++ root_key) (VScalar (VStr [])) false (str [1; 0] ++ rest)); try reflexivity; rewrite HSz; vm_compute; discriminate. }
  assert (H5 : parseDataType (b_env E) (at_ 18) = Ok (1, at_ 19)).
  { rewrite (big_datatype (b_env E) eq_refl HSm (huge_header ++ str [1; 1; 4] ++ root_key ++ str [0]) (n2b 1) (str [0] ++ rest)); try reflexivity; rewrite HSz; vm_compute; discriminate. }
  assert (H6 : parseLength (b_env E) (at_ 19) = Ok (0, at_ 20)).
  { rewrite (big_length (b_env E) eq_refl HSm (huge_header ++ str [1; 1; 4] ++ root_key ++ str [0; 1]) 0 rest); try reflexivity; rewrite HSz; vm_compute; discriminate. }
  assert (HK : parse_key E (at_ 12) = PRet ({| v_buf := buf; v_off := 13; v_len := 4 |}, at_ 17)).
  { unfold parse_key. change (ModelParse.b_map E) with false. cbv iota zeta. rewrite H3. cbn [lift pbind].
    rewrite curAddr_at by (rewrite HSz; reflexivity). cbn [lift pbind].
    rewrite check_oor_ok by (rewrite HSz; vm_compute; discriminate). reflexivity. }
  assert (HD : forall pr, exists o, Data_valueParse E pr (at_ 18) = PRet (o, at_ 20)).
  { intros pr. unfold Data_valueParse. rewrite H5. cbn [lift pbind]. change (negb (valid_data_type 1)) with false. cbv iota.
    change ((1 =? BRIDGE_STRING) && ModelParse.b_map E) with false. cbv iota. rewrite H6. cbn [lift pbind].
    rewrite curAddr_at by (rewrite HSz; reflexivity). cbn [lift pbind].
    destruct pr.
    - unfold parseData_view. change ((1 =? BRIDGE_BYTES) || (1 =? BRIDGE_STRING)) with true. cbv iota. cbn [lift pbind].
      rewrite check_oor_ok by (rewrite HSz; vm_compute; discriminate). cbn [lift pbind]. eexists. reflexivity.
    - unfold parseData. change ((1 =? BRIDGE_BYTES) || (1 =? BRIDGE_CUSTOM)) with false. change (1 =? BRIDGE_STRING) with true. cbv iota.
      unfold read_range. change (0 =? 0) with true. cbv iota. cbn [omap obind lift pbind].
      rewrite check_oor_ok by (rewrite HSz; vm_compute; discriminate). cbn [lift pbind]. eexists. reflexivity. }
  assert (Hrun : forall f pr o s', run get (valueParse E p pr f TMap (at_ 10)) = Ok (o, s') -> off s' = 20).
  { intros f pr o' s'. destruct f as [|f]; [discriminate|]. cbn [valueParse]. rewrite H1. cbn [lift pbind]. rewrite H2. cbn [lift pbind].
    destruct pr.
    - destruct f as [|f]; [discriminate|]. cbn [mapview_loop]. change (1 =? 0) with false. cbv iota. rewrite HK. cbn [pbind].
      rewrite H4. cbn [lift pbind]. destruct f as [|f]; [discriminate|]. cbn [valueParse]. destruct (HD true) as (x & Hx). rewrite Hx. cbn [pbind].
      cbn [mapview_loop]. change (1 - 1 =? 0) with true. cbv iota. cbn. intros [= _ <-]. reflexivity.
    - rewrite check_oor_ok by (rewrite HSz; vm_compute; discriminate). cbn [lift pbind].
      destruct f as [|f]; [discriminate|]. cbn [map_loop]. change (1 =? 0) with false. cbv iota. rewrite HK. cbn [pbind].
      rewrite H4. cbn [lift pbind]. destruct f as [|f]; [discriminate|]. cbn [valueParse]. destruct (HD false) as (x & Hx). rewrite Hx. cbn [pbind].
      rewrite run_bind, run_bind. intros H. apply obind_ok in H as ([it s2] & H & H'). cbn in H'. injection H' as _ <-.
      apply obind_ok in H as (k & _ & H). change (1 - 1) with 0 in H. cbn in H. injection H as _ <-. reflexivity. }
  intros H. apply obind_ok in H as ([root s'] & Hr & H). apply Hrun in Hr. rewrite Hr in H.
  change (negb (20 =? 20 + 2 ^ 32)) with true in H. discriminate.
Qed.

(** The property as stated is false: a string of 4 GiB is written without complaint,
    but its length field wraps to 0, and no reader accepts the document. *)
Theorem C44_any_size_refuted : exists o v content,
  denotes no_mem o v /\ Serialize x86_release no_mem NORMAL p0 o = Ok content /\
  forall fuel buf p po o', Parse x86_release fuel content buf p po <> Ok o'.
Proof.
  destruct (list_of_len (2 ^ 32)) as (s & Hs).
  exists (data_of_string s), (VScalar (VStr s)), (huge_doc s).
  split; [constructor; constructor|]. split; [apply huge_serialize; exact Hs|].
  intros. apply huge_parse. exact Hs.
Qed.

(** What is guaranteed: below 4 GiB (2 GiB when the reader has asserts) size does
    not matter; the number of nodes, the depth and the lengths are otherwise free. *)
Theorem C44_below_limit_partial : forall cs cp mem ty p o v content buf fuel p' po,
  sane cs -> sane cp -> denotes mem o v -> distinct_keys v -> (po_ref po = true -> no_custom v) ->
  Serialize cs mem ty p o = Ok content ->
  len content < (if ndebug cp then 2 ^ 32 else 2 ^ 31) -> (length content <= fuel)%nat ->
  exists o', Parse cp fuel content buf p' po = Ok o' /\
    forall mem', (po_ref po = true -> mem' buf = Some content) ->
    forall path, api_seen mem' o' path = Ok (seen_at v path).
Proof.
  intros. pose proof (transport_seen cs cp mem ty p o v content [] buf fuel p' po) as H'. rewrite app_nil_r in H'.
  apply H'; auto.
Qed.

Example C44_met : len (sample_doc tiny REPLACE) < 2 ^ 31 /\
  Serialize tiny no_mem REPLACE p0 sample = Ok (sample_doc tiny REPLACE).
Proof. split; [vm_compute; reflexivity|]. apply sample_serialized. cbn. tauto. Qed.
