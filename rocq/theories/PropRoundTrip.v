(** * Properties C01-C06, C09, C13, C19, C21, C41, C42, C47, C48: transport. *)
From Verif Require Import Base BaseLemmas ModelVarint ModelData ModelSecondary ModelObject
  ModelParse ModelWrapper Spec SpecApi VarintProofs Wire NumProofs DocProofs ObjInd
  ParseLemmas NormalProofs ValueProofs RoundTrip GeneralProofs ApiProofs EndianProofs Samples.
From Coq Require Import ZifyBool ZifyNat ZifyN.

(** The general statement from which the transport properties are read off. *)
Lemma transport cs cp mem ty p o v content X buf fuel p' po :
  sane cs -> sane cp -> denotes mem o v ->
  Serialize cs mem ty p o = Ok content -> fits cp (content ++ X) ->
  (length content <= fuel)%nat -> (po_ref po = true -> no_custom v) ->
  exists o' v', Parse cp fuel (content ++ X) buf p' po = Ok o' /\
    same_content v v' /\ (po_type po = Normal -> v' = mirror v) /\
    result_ok buf (content ++ X) (po_ref po) o' v'.
Proof.
  intros Hcs Hcp Hd Hs Hf Hfuel Hnc.
  destruct (Serialize_document cs mem ty p o v Hcs Hd) as (content' & Hs' & Hdoc).
  rewrite Hs in Hs'. injection Hs' as <-.
  assert (HL : lim cp (len (content ++ X))) by exact Hf.
  eapply Parse_document; eauto. apply Hdoc.
  apply lim_W32 in HL. rewrite len_app in HL. lia.
Qed.

Lemma transport_seen cs cp mem ty p o v content X buf fuel p' po :
  sane cs -> sane cp -> denotes mem o v -> distinct_keys v ->
  Serialize cs mem ty p o = Ok content -> fits cp (content ++ X) ->
  (length content <= fuel)%nat -> (po_ref po = true -> no_custom v) ->
  exists o', Parse cp fuel (content ++ X) buf p' po = Ok o' /\
    forall mem', (po_ref po = true -> mem' buf = Some (content ++ X)) ->
    forall path, api_seen mem' o' path = Ok (seen_at v path).
Proof.
  intros Hcs Hcp Hd Hk Hs Hf Hfuel Hnc.
  destruct (transport cs cp mem ty p o v content X buf fuel p' po) as (o' & v' & HP & Hsc & _ & Hr & _); auto.
  exists o'. split; [exact HP|]. intros mem' Hm path.
  rewrite (api_seen_ok mem' o' v' path (Hr mem' Hm)). f_equal. symmetry. now apply same_content_seen.
Qed.

(** C01.  Whatever a user can see of an object along a path of keys and indices
    (node type, size, typed value, absence), he sees of the parsed document. *)
Theorem C01_round_trip_normal : forall cs cp mem p o v content buf fuel p',
  sane cs -> sane cp -> denotes mem o v -> distinct_keys v ->
  Serialize cs mem NORMAL p o = Ok content -> fits cp content -> (length content <= fuel)%nat ->
  exists o', Parse cp fuel content buf p' {| po_type := Normal; po_ref := false |} = Ok o' /\
    forall mem' path, api_seen mem' o' path = api_seen mem o path /\
                      api_seen mem o path = Ok (seen_at v path).
Proof.
  intros cs cp mem p o v content buf fuel p' Hcs Hcp Hd Hk Hs Hf Hfuel.
  pose proof (transport_seen cs cp mem NORMAL p o v content [] buf fuel p' {| po_type := Normal; po_ref := false |}) as H.
  rewrite app_nil_r in H. destruct H as (o' & HP & Ho); auto; try discriminate.
  exists o'. split; [exact HP|]. intros mem' path. rewrite Ho by discriminate.
  now rewrite (api_seen_ok mem o v path Hd).
Qed.

(** The same for objects given by the API calls that built them, with success of
    the serialization as part of the conclusion. *)
Theorem C01_round_trip_built : forall live cs cp mem p o buf p',
  sane cs -> sane cp -> built live mem o ->
  exists v content, denotes mem o v /\ Serialize cs mem NORMAL p o = Ok content /\
    (distinct_keys v -> fits cp content ->
     exists o', Parse cp (length content) content buf p' {| po_type := Normal; po_ref := false |} = Ok o' /\
       forall mem' path, api_seen mem' o' path = api_seen mem o path).
Proof.
  intros live cs cp mem p o buf p' Hcs Hcp Hb. destruct (built_denotes live mem o Hb) as (v & Hd).
  destruct (Serialize_document cs mem NORMAL p o v Hcs Hd) as (content & Hs & _).
  exists v, content. split; [exact Hd|]. split; [exact Hs|]. intros Hk Hf.
  destruct (C01_round_trip_normal cs cp mem p o v content buf (length content) p') as (o' & HP & Ho); auto.
  exists o'. split; [exact HP|]. intros mem' path. apply Ho.
Qed.

Example C01_met : exists o', Parse x86_release 200 (sample_doc x86_debug NORMAL) 7 p1 {| po_type := Normal; po_ref := false |} = Ok o' /\
  api_seen no_mem o' [Key k_tags; Idx 1] = Ok (SeenScalar (VNum F32 1077936128)).
Proof.
  destruct (C01_round_trip_normal x86_debug x86_release no_mem p0 sample sample_value (sample_doc x86_debug NORMAL) 7%nat 200%nat p1)
    as (o' & H & Ho).
  - apply x86_debug_sane.
  - apply x86_release_sane.
  - apply sample_denotes.
  - apply sample_distinct.
  - apply sample_serialized. cbn; tauto.
  - vm_compute. reflexivity.
  - apply sample_doc_small. cbn; tauto.
  - exists o'. split; [exact H|]. destruct (Ho no_mem [Key k_tags; Idx 1]) as [-> ->]. reflexivity.
Qed.

(** C02. *)
Theorem C02_round_trip_replace : forall cs cp mem p o v content buf fuel p',
  sane cs -> sane cp -> denotes mem o v -> distinct_keys v ->
  Serialize cs mem REPLACE p o = Ok content -> fits cp content -> (length content <= fuel)%nat ->
  exists o', Parse cp fuel content buf p' {| po_type := Normal; po_ref := false |} = Ok o' /\
    forall mem' path, api_seen mem' o' path = api_seen mem o path /\
                      api_seen mem o path = Ok (seen_at v path).
Proof.
  intros cs cp mem p o v content buf fuel p' Hcs Hcp Hd Hk Hs Hf Hfuel.
  pose proof (transport_seen cs cp mem REPLACE p o v content [] buf fuel p' {| po_type := Normal; po_ref := false |}) as H.
  rewrite app_nil_r in H. destruct H as (o' & HP & Ho); auto; try discriminate.
  exists o'. split; [exact HP|]. intros mem' path. rewrite Ho by discriminate.
  now rewrite (api_seen_ok mem o v path Hd).
Qed.

Example C02_met : exists o', Parse tiny 200 (sample_doc x86_release REPLACE) 7 p1 {| po_type := Normal; po_ref := false |} = Ok o' /\
  api_seen no_mem o' [Key k_sub; Key k_id] = Ok (SeenScalar (VStr k_dup)).
Proof.
  destruct (C02_round_trip_replace x86_release tiny no_mem p0 sample sample_value (sample_doc x86_release REPLACE) 7%nat 200%nat p1)
    as (o' & H & Ho).
  - apply x86_release_sane.
  - apply tiny_sane.
  - apply sample_denotes.
  - apply sample_distinct.
  - apply sample_serialized. cbn; tauto.
  - vm_compute. reflexivity.
  - apply sample_doc_small. cbn; tauto.
  - exists o'. split; [exact H|]. destruct (Ho no_mem [Key k_sub; Key k_id]) as [-> ->]. reflexivity.
Qed.

(** C03.  In-situ and copying parse show the same content, for both schedulers. *)
Theorem C03_insitu_same_content : forall cs cp mem ty p o v content buf fuel p' sch,
  sane cs -> sane cp -> denotes mem o v -> distinct_keys v -> no_custom v ->
  Serialize cs mem ty p o = Ok content -> fits cp content -> (length content <= fuel)%nat ->
  exists o_ref o_copy,
    Parse cp fuel content buf p' {| po_type := sch; po_ref := true |} = Ok o_ref /\
    Parse cp fuel content buf p' {| po_type := sch; po_ref := false |} = Ok o_copy /\
    forall mem', mem' buf = Some content ->
    forall path, api_seen mem' o_ref path = api_seen mem' o_copy path /\
                 api_seen mem' o_ref path = Ok (seen_at v path).
Proof.
  intros cs cp mem ty p o v content buf fuel p' sch Hcs Hcp Hd Hk Hnc Hs Hf Hfuel.
  pose proof (fun pr => transport_seen cs cp mem ty p o v content [] buf fuel p' {| po_type := sch; po_ref := pr |}) as H.
  rewrite app_nil_r in H.
  destruct (H true) as (o1 & HP1 & Ho1); auto. destruct (H false) as (o2 & HP2 & Ho2); auto.
  exists o1, o2. split; [exact HP1|]. split; [exact HP2|]. intros mem' Hm path.
  rewrite Ho1, Ho2; cbn; auto; discriminate.
Qed.

Example C03_met : exists o_ref, Parse tiny 200 (sample_doc tiny REPLACE) 7 p1 {| po_type := Coroutine; po_ref := true |} = Ok o_ref /\
  api_seen (mem1 7 (sample_doc tiny REPLACE)) o_ref [Key k_sub; Key k_id] = Ok (SeenScalar (VStr k_dup)).
Proof.
  destruct (C03_insitu_same_content tiny tiny no_mem REPLACE p0 sample sample_value (sample_doc tiny REPLACE) 7%nat 200%nat p1 Coroutine)
    as (o_ref & o_copy & H & _ & Ho).
  - apply tiny_sane.
  - apply tiny_sane.
  - apply sample_denotes.
  - apply sample_distinct.
  - apply sample_no_custom.
  - apply sample_serialized. cbn; tauto.
  - vm_compute. reflexivity.
  - apply sample_doc_small. cbn; tauto.
  - exists o_ref. split; [exact H|].
    destruct (Ho (mem1 7 (sample_doc tiny REPLACE)) eq_refl [Key k_sub; Key k_id]) as [_ ->]. reflexivity.
Qed.

(** C04.  All views of an in-situ result lie in the buffer and are readable. *)
Lemma inside_readable mem buf content w :
  mem buf = Some content -> inside buf (len content) w -> exists s, read_view mem w = Ok s /\ len s = v_len w.
Proof.
  intros Hm [Hb Hi]. unfold read_view. rewrite Hb, Hm. unfold read_range.
  destruct (N.eqb_spec (v_len w) 0) as [E|E]; [exists []; split; [reflexivity|now rewrite E]|].
  replace (v_off w + v_len w <=? len content + 1) with true by lia.
  eexists. split; [reflexivity|]. unfold slice, len in *. rewrite firstn_length, skipn_length, app_length. cbn. lia.
Qed.

Theorem C04_views_inside_buffer : forall cs cp mem ty p o v content buf fuel p' sch,
  sane cs -> sane cp -> denotes mem o v -> no_custom v ->
  Serialize cs mem ty p o = Ok content -> fits cp content -> (length content <= fuel)%nat ->
  exists o', Parse cp fuel content buf p' {| po_type := sch; po_ref := true |} = Ok o' /\
    all_views (fun w => v_buf w = buf /\ v_off w + v_len w <= len content /\
                        forall mem', mem' buf = Some content -> exists s, read_view mem' w = Ok s) o'.
Proof.
  intros cs cp mem ty p o v content buf fuel p' sch Hcs Hcp Hd Hnc Hs Hf Hfuel.
  pose proof (transport cs cp mem ty p o v content [] buf fuel p' {| po_type := sch; po_ref := true |}) as H.
  rewrite app_nil_r in H. destruct H as (o' & v' & HP & _ & _ & _ & Hv); auto.
  exists o'. split; [exact HP|]. eapply all_views_impl; [|exact Hv]. cbn.
  intros w [_ Hw]. pose proof Hw as [H1 H2]. split; [exact H1|]. split; [exact H2|].
  intros mem' Hm. destruct (inside_readable mem' buf content w Hm Hw) as (s & Hr & _). eauto.
Qed.

Example C04_met : exists o', Parse tiny 200 (sample_doc tiny NORMAL) 7 p1 {| po_type := Coroutine; po_ref := true |} = Ok o' /\
  match o' with OMapView _ _ ((w, _) :: _) => v_len w = 2 | _ => False end.
Proof. eexists. vm_compute. split; reflexivity. Qed.

(** C05.  Whatever the input, a copying parse returns a tree without views: what
    can be read from it does not depend on any buffer. *)
Theorem C05_copy_is_independent : forall c fuel content buf p sch o,
  Parse c fuel content buf p {| po_type := sch; po_ref := false |} = Ok o ->
  owning o /\
  forall mem mem' path, api_seen mem o path = api_seen mem' o path.
Proof.
  intros c fuel content buf p sch o H. apply Parse_wf in H. cbn [po_ref] in H.
  assert (HO : owning o).
  { destruct H as [->|H]; [constructor|now apply well_formed_owning in H]. }
  split; [exact HO|]. intros mem mem' path. unfold api_seen.
  assert (Hwalk : forall path o, (o = ONull \/ exists P, well_formed P false o) ->
     exists w, api_walk mem o path = Ok w /\ api_walk mem' o path = Ok w /\ (w = ONull \/ exists P, well_formed P false w)).
  { clear. induction path as [|[k|n] path IH]; intros o Ho; cbn [api_walk].
    - eauto.
    - destruct o as [| | | |p size items|p size items]; cbn [w_key obind]; try (apply IH; now left).
      + apply IH. destruct Ho as [|[P Ho]]; [discriminate|]. inversion Ho as [| | |? ? ? _ _ HF|]; subst.
        clear -HF. induction HF as [|[k' o'] items Hx HF IHF]; cbn; [now left|].
        destruct (bytes_eqb k' k); [right; eauto|auto].
      + exfalso. destruct Ho as [|[P Ho]]; [discriminate|]. inversion Ho.
    - destruct o as [| | |p size items| |]; cbn [w_idx obind]; try (apply IH; now left).
      apply IH. destruct Ho as [|[P Ho]]; [discriminate|]. inversion Ho as [| |? ? ? ? _ _ HF| |]; subst.
      unfold Array_at. destruct (_ <=? _); [now left|]. rewrite walk_nth.
      destruct (nth_error items _) as [x|] eqn:E; [|now left].
      right. exists P. rewrite Forall_forall in HF. apply HF. now apply nth_error_In in E. }
  destruct (Hwalk path o) as (w & -> & -> & Hw); [destruct H; eauto|]. cbn [obind].
  destruct w; try reflexivity. destruct Hw as [|[P Hw]]; [discriminate|]. inversion Hw.
Qed.

Example C05_met : exists o, Parse tiny 200 (sample_doc tiny NORMAL) 7 p1 {| po_type := Coroutine; po_ref := false |} = Ok o /\ o <> ONull.
Proof. eexists. vm_compute. split; [reflexivity|discriminate]. Qed.

(** C06.  The parallel parser agrees with the sequential one. *)
Theorem C06_parallel_equals_sequential : forall cs cp mem ty p o v content buf fuel p' pr,
  sane cs -> sane cp -> denotes mem o v -> distinct_keys v -> (pr = true -> no_custom v) ->
  Serialize cs mem ty p o = Ok content -> fits cp content -> (length content <= fuel)%nat ->
  exists o_par o_seq,
    Parse cp fuel content buf p' {| po_type := Coroutine; po_ref := pr |} = Ok o_par /\
    Parse cp fuel content buf p' {| po_type := Normal; po_ref := pr |} = Ok o_seq /\
    forall mem', (pr = true -> mem' buf = Some content) ->
    forall path, api_seen mem' o_par path = api_seen mem' o_seq path /\
                 api_seen mem' o_par path = Ok (seen_at v path).
Proof.
  intros cs cp mem ty p o v content buf fuel p' pr Hcs Hcp Hd Hk Hnc Hs Hf Hfuel.
  pose proof (fun s => transport_seen cs cp mem ty p o v content [] buf fuel p' {| po_type := s; po_ref := pr |}) as H.
  rewrite app_nil_r in H.
  destruct (H Coroutine) as (o1 & HP1 & Ho1); auto. destruct (H Normal) as (o2 & HP2 & Ho2); auto.
  exists o1, o2. split; [exact HP1|]. split; [exact HP2|]. intros mem' Hm path.
  rewrite Ho1, Ho2; cbn; auto.
Qed.

(** The sample document really takes the parallel branch, with several blocks. *)
Example C06_met :
  exists sc, initFromContent tiny 200 (sample_doc tiny NORMAL) 7 = Ok sc /\ sc_need_to_split sc = true /\
    In (2, [26; 26; 10]) (si_info (sc_split sc)) /\
    exists o, Parse tiny 200 (sample_doc tiny NORMAL) 7 p1 {| po_type := Coroutine; po_ref := false |} = Ok o.
Proof.
  eexists. split; [vm_compute; reflexivity|]. split; [reflexivity|].
  split; [cbn; tauto|]. eexists. vm_compute. reflexivity.
Qed.

(** C09.  The bytes do not depend on the byte order of the writer, and any reader
    reads them (see also C01-C06, where writer and reader platforms are unrelated). *)
Theorem C09_byte_order : forall cs cp mem ty p o v content buf fuel p' po,
  Serialize (other_endian cs) mem ty p o = Serialize cs mem ty p o /\
  (sane cs -> sane cp -> denotes mem o v -> distinct_keys v -> (po_ref po = true -> no_custom v) ->
   Serialize cs mem ty p o = Ok content -> fits cp content -> (length content <= fuel)%nat ->
   exists o1 o2, Parse cp fuel content buf p' po = Ok o1 /\ Parse (other_endian cp) fuel content buf p' po = Ok o2 /\
     forall mem', (po_ref po = true -> mem' buf = Some content) ->
     forall path, api_seen mem' o1 path = Ok (seen_at v path) /\ api_seen mem' o2 path = Ok (seen_at v path)).
Proof.
  intros cs cp mem ty p o v content buf fuel p' po. split; [apply Serialize_endian|].
  intros Hcs Hcp Hd Hk Hnc Hs Hf Hfuel.
  pose proof (fun c => transport_seen cs c mem ty p o v content [] buf fuel p' po) as H. rewrite app_nil_r in H.
  destruct (H cp) as (o1 & HP1 & Ho1); auto. destruct (H (other_endian cp)) as (o2 & HP2 & Ho2); auto.
  exists o1, o2. auto.
Qed.

Example C09_met : Serialize (other_endian tiny) no_mem REPLACE p0 sample = Ok (sample_doc tiny REPLACE) /\
  little (other_endian tiny) = false.
Proof. split; [vm_compute; reflexivity|reflexivity]. Qed.

(** C13.  Trailing bytes. *)
Theorem C13_trailing_bytes : forall cs cp mem ty p o v content X buf fuel p' po,
  sane cs -> sane cp -> denotes mem o v -> distinct_keys v -> (po_ref po = true -> no_custom v) ->
  Serialize cs mem ty p o = Ok content -> fits cp (content ++ X) -> (length content <= fuel)%nat ->
  exists o1 o2, Parse cp fuel content buf p' po = Ok o1 /\ Parse cp fuel (content ++ X) buf p' po = Ok o2 /\
    (po = {| po_type := Normal; po_ref := false |} -> o1 = o2) /\
    forall mem', (po_ref po = true -> mem' buf = Some (content ++ X)) ->
    forall path, api_seen mem' o2 path = Ok (seen_at v path).
Proof.
  intros cs cp mem ty p o v content X buf fuel p' po Hcs Hcp Hd Hk Hnc Hs Hf Hfuel.
  assert (Hf0 : fits cp content) by (unfold fits in *; rewrite len_app in Hf; lia).
  pose proof (transport cs cp mem ty p o v content [] buf fuel p' po) as H. rewrite app_nil_r in H.
  destruct H as (o1 & v1 & HP1 & _ & Hn1 & Hr1 & _); auto.
  destruct (transport cs cp mem ty p o v content X buf fuel p' po) as (o2 & v2 & HP2 & Hs2 & Hn2 & Hr2 & _); auto.
  exists o1, o2. split; [exact HP1|]. split; [exact HP2|]. split.
  - intros ->. cbn in *.
    assert (W : forall o, Parse cp fuel content buf p' {| po_type := Normal; po_ref := false |} = Ok o \/
                     Parse cp fuel (content ++ X) buf p' {| po_type := Normal; po_ref := false |} = Ok o ->
                denotes no_mem o (mirror v) -> o = tree_of p' (mirror v)).
    { intros o' [Ho|Ho] Hden; apply Parse_wf in Ho; (destruct Ho as [->|Ho]; [inversion Hden|]);
        (eapply tree_of_unique; [|exact Hden]).
      all: cbn [po_ref] in Ho; clear -Ho.
      all: induction o' as [|dt s|dt s|q n l IH|q n l IH|q n l IH] using obj_ind'; inversion Ho; subst; econstructor; eauto;
        try (match goal with H : result_pool _ _ _ |- _ => destruct H as [H|[H _]]; [congruence|discriminate] end);
        rewrite Forall_forall in *; auto. }
    rewrite (W o1), (W o2); auto.
    + rewrite <- Hn2 by reflexivity. apply Hr2. discriminate.
    + rewrite <- Hn1 by reflexivity. apply Hr1. discriminate.
  - intros mem' Hm path. rewrite (api_seen_ok mem' o2 v2 path (Hr2 mem' Hm)). f_equal.
    symmetry. now apply same_content_seen.
Qed.

Example C13_met : exists o, Parse x86_debug 200 (sample_doc x86_debug REPLACE ++ str [1; 2; 3]) 7 p1
    {| po_type := Normal; po_ref := false |} = Ok o /\ o <> ONull.
Proof. eexists. vm_compute. split; [reflexivity|discriminate]. Qed.

(** C21.  One sequential round trip reverses every map, two restore the order. *)
Theorem C21_two_round_trips : forall c1 c2 c3 c4 mem ty1 ty2 p q r o v content1 buf1 fuel1 pr1 s1,
  sane c1 -> sane c2 -> sane c3 -> sane c4 -> denotes mem o v -> (pr1 = true -> no_custom v) ->
  Serialize c1 mem ty1 p o = Ok content1 -> fits c2 content1 -> (length content1 <= fuel1)%nat ->
  s1 = Normal ->
  exists o1, Parse c2 fuel1 content1 buf1 q {| po_type := s1; po_ref := pr1 |} = Ok o1 /\
    forall mem1, (pr1 = true -> mem1 buf1 = Some content1) ->
      denotes mem1 o1 (mirror v) /\
      exists content2, Serialize c3 mem1 ty2 q o1 = Ok content2 /\
        forall buf2 fuel2 pr2, fits c4 content2 -> (length content2 <= fuel2)%nat -> (pr2 = true -> no_custom v) ->
        exists o2, Parse c4 fuel2 content2 buf2 r {| po_type := Normal; po_ref := pr2 |} = Ok o2 /\
          forall mem2, (pr2 = true -> mem2 buf2 = Some content2) -> denotes mem2 o2 v.
Proof.
  intros c1 c2 c3 c4 mem ty1 ty2 p q r o v content1 buf1 fuel1 pr1 s1 H1 H2 H3 H4 Hd Hnc Hs Hf Hfuel ->.
  pose proof (transport c1 c2 mem ty1 p o v content1 [] buf1 fuel1 q {| po_type := Normal; po_ref := pr1 |}) as H.
  rewrite app_nil_r in H. destruct H as (o1 & v1 & HP1 & _ & Hn1 & Hr1 & _); auto.
  specialize (Hn1 eq_refl). subst v1. exists o1. split; [exact HP1|]. intros mem1' Hm1.
  split; [now apply Hr1|].
  destruct (Serialize_document c3 mem1' ty2 q o1 (mirror v) H3 (Hr1 _ Hm1)) as (content2 & Hs2 & _).
  exists content2. split; [exact Hs2|]. intros buf2 fuel2 pr2 Hf2 Hfuel2 Hnc2.
  pose proof (transport c3 c4 mem1' ty2 q o1 (mirror v) content2 [] buf2 fuel2 r {| po_type := Normal; po_ref := pr2 |}) as H.
  rewrite app_nil_r in H. destruct H as (o2 & v2 & HP2 & _ & Hn2 & Hr2 & _); auto.
  { cbn. intros Hp. specialize (Hnc2 Hp). clear -Hnc2.
    induction v as [x|l IH|l IH] using value_ind'; cbn; inversion Hnc2; subst; constructor; auto.
    - apply Forall_map. rewrite Forall_forall in *. auto.
    - apply Forall_rev, Forall_map. rewrite Forall_forall in *. cbn. auto. }
  exists o2. split; [exact HP2|]. intros mem2 Hm2. specialize (Hn2 eq_refl). rewrite mirror_involutive in Hn2. subst v2.
  now apply Hr2.
Qed.

(** The order is really reversed by one round trip. *)
Example C21_met : mirror sample_value <> sample_value /\
  exists o1, Parse x86_debug 200 (sample_doc x86_debug NORMAL) 7 p1 {| po_type := Normal; po_ref := true |} = Ok o1.
Proof. split; [discriminate|]. eexists. vm_compute. reflexivity. Qed.

(** C19.  With a key inserted twice, lookup gives the latest value before and the
    oldest one after a round trip. *)
Definition twice : obj := OMap p0 2 [ (k_id, data_of_num U32 2); (k_id, data_of_num U32 1) ].

Theorem C19_duplicate_keys_refuted :
  built all_live no_mem twice /\
  exists content o', Serialize x86_debug no_mem NORMAL p0 twice = Ok content /\
    Parse x86_debug 100 content 7 p1 {| po_type := Normal; po_ref := false |} = Ok o' /\
    api_seen no_mem twice [Key k_id] = Ok (SeenScalar (VNum U32 2)) /\
    api_seen no_mem o' [Key k_id] = Ok (SeenScalar (VNum U32 1)).
Proof.
  split.
  - eapply b_map_insert with (k := k_id);
      [eapply b_map_insert with (k := k_id); [apply (b_map _ _ p0)|apply (b_num _ _ U32 1); reflexivity| |reflexivity]
      |apply (b_num _ _ U32 2); reflexivity| |reflexivity]; cbn; intros n [= <-]; reflexivity.
  - do 2 eexists. split; [vm_compute; reflexivity|]. split; [vm_compute; reflexivity|]. split; reflexivity.
Qed.

(** What does hold, duplicates included: after a sequential round trip every lookup
    gives the first inserted entry, i.e. the lookup in the mirrored value. *)
Theorem C19_lookup_after_round_trip_partial : forall cs cp mem ty p o v content buf fuel p' pr,
  sane cs -> sane cp -> denotes mem o v -> (pr = true -> no_custom v) ->
  Serialize cs mem ty p o = Ok content -> fits cp content -> (length content <= fuel)%nat ->
  exists o', Parse cp fuel content buf p' {| po_type := Normal; po_ref := pr |} = Ok o' /\
    forall mem', (pr = true -> mem' buf = Some content) ->
    forall path, api_seen mem' o' path = Ok (seen_at (mirror v) path) /\
                 (distinct_keys v -> api_seen mem' o' path = api_seen mem o path).
Proof.
  intros cs cp mem ty p o v content buf fuel p' pr Hcs Hcp Hd Hnc Hs Hf Hfuel.
  pose proof (transport cs cp mem ty p o v content [] buf fuel p' {| po_type := Normal; po_ref := pr |}) as H.
  rewrite app_nil_r in H. destruct H as (o' & v' & HP & Hsc & Hn & Hr & _); auto.
  exists o'. split; [exact HP|]. intros mem' Hm path. specialize (Hn eq_refl). subst v'.
  rewrite (api_seen_ok mem' o' _ path (Hr mem' Hm)). split; [reflexivity|].
  intros Hk. rewrite (api_seen_ok mem o v path Hd). f_equal. symmetry. now apply same_content_seen.
Qed.

(** C41.  Custom types. *)
Theorem C41_custom_types : forall (T : Type) (SerializeToBridge : T -> bytes) (ConstructFromBridge : bytes -> T),
  (forall t, ConstructFromBridge (SerializeToBridge t) = t) ->
  forall cs cp mem ty p o v content buf fuel p' sch path t,
  sane cs -> sane cp -> denotes mem o v -> distinct_keys v ->
  api_walk mem o path = Ok (data_of_custom (SerializeToBridge t)) ->
  Serialize cs mem ty p o = Ok content -> fits cp content -> (length content <= fuel)%nat ->
  exists o' node b, Parse cp fuel content buf p' {| po_type := sch; po_ref := false |} = Ok o' /\
    forall mem', api_walk mem' o' path = Ok node /\ w_Get CCustom node = Ok (Some (VCustom b)) /\
                 ConstructFromBridge b = t.
Proof.
  intros T ser de Hinv cs cp mem ty p o v content buf fuel p' sch path t Hcs Hcp Hd Hk Hw Hs Hf Hfuel.
  pose proof (transport cs cp mem ty p o v content [] buf fuel p' {| po_type := sch; po_ref := false |}) as H.
  rewrite app_nil_r in H. destruct H as (o' & v' & HP & Hsc & _ & Hr & _); auto; [discriminate|]. cbn in Hr.
  assert (Hseen : seen_at v path = SeenScalar (VCustom (ser t))).
  { pose proof (api_seen_ok mem o v path Hd) as Ha. unfold api_seen in Ha. rewrite Hw in Ha. cbn in Ha. congruence. }
  rewrite (same_content_seen v v' path Hsc Hk) in Hseen. unfold seen_at in Hseen.
  destruct (find v' path) as [x|] eqn:Hfind; [|discriminate].
  destruct x as [x| |]; cbn in Hseen; try discriminate. injection Hseen as ->.
  destruct (C05_copy_is_independent _ _ _ _ _ _ _ HP) as [Hown _].
  destruct (api_walk_ok no_mem o' v' path) as (node & Hwn & Hdn); [apply Hr; discriminate|].
  rewrite Hfind in Hdn. cbn in Hdn. exists o', node, (ser t). split; [exact HP|]. intros mem'.
  destruct (api_walk_ok mem' o' v' path) as (node' & Hwn' & Hdn'); [apply Hr; discriminate|].
  assert (node' = node) as ->.
  { assert (forall q o1 m m' n n', (o1 = ONull \/ owning o1) ->
       api_walk m o1 q = Ok n -> api_walk m' o1 q = Ok n' -> n = n').
    2:{ eapply H; eauto. }
    clear. intros q. induction q as [|[k|n0] q IH]; intros o1 m m' n n' Ho H1 H2; cbn [api_walk] in *.
    - congruence.
    - apply obind_ok in H1 as (w1 & W1 & H1). apply obind_ok in H2 as (w2 & W2 & H2).
      assert (w1 = w2 /\ (w1 = ONull \/ owning w1)) as [<- Hw1]; [|eapply IH; eauto].
      destruct o1 as [| | | |pp sz its|pp sz its]; cbn in W1, W2; try (split; [congruence|left; congruence]).
      + split; [congruence|]. injection W1 as <-. destruct Ho as [|Ho]; [discriminate|]. inversion Ho; subst.
        clear -H0. induction H0 as [|[a b] its Hb HF IHF]; cbn; [now left|]. destruct (bytes_eqb a k); auto.
      + destruct Ho as [|Ho]; [discriminate|]. inversion Ho as [| | | | |? ? ? HA]; subst.
        destruct its as [|[vv oo] its]; [cbn in W1, W2; split; [congruence|left; congruence]|].
        inversion HA as [|? ? [Hfalse _] _]. destruct Hfalse.
    - apply obind_ok in H1 as (w1 & W1 & H1). apply obind_ok in H2 as (w2 & W2 & H2).
      assert (w1 = w2 /\ (w1 = ONull \/ owning w1)) as [<- Hw1]; [|eapply IH; eauto].
      destruct o1 as [| | |pp sz its| |]; cbn in W1, W2; try (split; [congruence|left; congruence]).
      split; [congruence|]. injection W1 as <-. destruct Ho as [|Ho]; [discriminate|]. inversion Ho as [| | |? ? ? HA| |]; subst.
      unfold Array_at. destruct (_ <=? _); [now left|]. rewrite walk_nth. destruct (nth_error its _) eqn:E; [|now left].
      right. rewrite Forall_forall in HA. apply HA. now apply nth_error_In in E. }
  split; [exact Hwn'|]. split; [|apply Hinv].
  inversion Hdn as [? ? ? Hx|? ? ? Hx| | |]; subst.
  - inversion Hx; subst. reflexivity.
  - inversion Hx.
Qed.

Definition with_custom : obj := OMap p0 1 [ (k_id, data_of_custom (str [9; 8; 7])) ].

Example C41_met : exists content o', Serialize x86_debug no_mem REPLACE p0 with_custom = Ok content /\
  Parse x86_debug 100 content 7 p1 {| po_type := Normal; po_ref := false |} = Ok o' /\
  api_seen no_mem o' [Key k_id] = Ok (SeenScalar (VCustom (str [9; 8; 7]))).
Proof. do 2 eexists. split; [vm_compute; reflexivity|]. split; [vm_compute; reflexivity|]. reflexivity. Qed.

(** C42.  A document with custom data cannot be parsed in situ; all others can. *)
Theorem C42_insitu_custom_refuted :
  built all_live no_mem with_custom /\
  exists content, Serialize x86_debug no_mem NORMAL p0 with_custom = Ok content /\
    forall sch, Parse x86_debug 100 content 7 p1 {| po_type := sch; po_ref := true |} = Throw ERuntime.
Proof.
  split.
  - eapply b_map_insert with (k := k_id); [apply (b_map _ _ p0)|apply (b_custom _ _ (str [9; 8; 7]))| |reflexivity].
    cbn; intros n [= <-]; reflexivity.
  - eexists. split; [vm_compute; reflexivity|]. intros []; vm_compute; reflexivity.
Qed.

Theorem C42_insitu_accepts_partial : forall cs cp mem ty p o v content buf fuel p' sch,
  sane cs -> sane cp -> denotes mem o v -> no_custom v ->
  Serialize cs mem ty p o = Ok content -> fits cp content -> (length content <= fuel)%nat ->
  exists o', Parse cp fuel content buf p' {| po_type := sch; po_ref := true |} = Ok o' /\ o' <> ONull.
Proof.
  intros cs cp mem ty p o v content buf fuel p' sch Hcs Hcp Hd Hnc Hs Hf Hfuel.
  pose proof (transport cs cp mem ty p o v content [] buf fuel p' {| po_type := sch; po_ref := true |}) as H.
  rewrite app_nil_r in H. destruct H as (o' & v' & HP & _ & _ & Hr & _); auto.
  exists o'. split; [exact HP|]. eapply denotes_not_null. apply (Hr (fun _ => Some content)). reflexivity.
Qed.

(** C47.  Hash iteration order, on either side, is invisible: for the sequential
    copying parser the resulting trees are identical. *)
Theorem C47_iteration_order_invisible : forall cs1 cs2 cp1 cp2 mem ty p o v content1 content2 buf1 buf2 fuel1 fuel2 p',
  sane cs1 -> sane cs2 -> sane cp1 -> sane cp2 -> denotes mem o v ->
  Serialize cs1 mem ty p o = Ok content1 -> Serialize cs2 mem ty p o = Ok content2 ->
  fits cp1 content1 -> fits cp2 content2 -> (length content1 <= fuel1)%nat -> (length content2 <= fuel2)%nat ->
  exists o', Parse cp1 fuel1 content1 buf1 p' {| po_type := Normal; po_ref := false |} = Ok o' /\
             Parse cp2 fuel2 content2 buf2 p' {| po_type := Normal; po_ref := false |} = Ok o'.
Proof.
  intros cs1 cs2 cp1 cp2 mem ty p o v content1 content2 buf1 buf2 fuel1 fuel2 p' C1 C2 C3 C4 Hd Hs1 Hs2 Hf1 Hf2 Hu1 Hu2.
  assert (W : forall cs cp content buf fuel, sane cs -> sane cp -> Serialize cs mem ty p o = Ok content ->
      fits cp content -> (length content <= fuel)%nat ->
      Parse cp fuel content buf p' {| po_type := Normal; po_ref := false |} = Ok (tree_of p' (mirror v))).
  { intros cs cp content buf fuel H1 H2 Hs Hf Hu.
    pose proof (transport cs cp mem ty p o v content [] buf fuel p' {| po_type := Normal; po_ref := false |}) as H.
    rewrite app_nil_r in H. destruct H as (o' & v' & HP & _ & Hn & Hr & _); auto; [discriminate|].
    rewrite HP. f_equal. specialize (Hn eq_refl). subst v'. cbn in Hr.
    assert (Hden : denotes no_mem o' (mirror v)) by (apply Hr; discriminate).
    apply Parse_wf in HP. destruct HP as [->|HP]; [inversion Hden|].
    eapply tree_of_unique; [|exact Hden]. cbn [po_ref] in HP. clear -HP.
    induction o' as [|dt s|dt s|q n l IH|q n l IH|q n l IH] using obj_ind'; inversion HP; subst; econstructor; eauto;
        try (match goal with H : result_pool _ _ _ |- _ => destruct H as [H|[H _]]; [congruence|discriminate] end);
        rewrite Forall_forall in *; auto. }
  exists (tree_of p' (mirror v)). split; [apply (W cs1)|apply (W cs2)]; assumption.
Qed.

(** Two iteration orders give different documents of the sample. *)
Example C47_met : sample_doc x86_debug REPLACE <> sample_doc x86_release REPLACE.
Proof. vm_compute. discriminate. Qed.

(** C48.  C-string literals. *)
Theorem C48_c_strings : forall arr,
  (forall s, arr = s ++ [x00] -> data_of_cstr arr = data_of_string s) /\
  ((forall s, arr <> s ++ [x00]) -> data_of_cstr arr = data_of_string arr) /\
  forall cs cp mem ty p content buf fuel p',
    sane cs -> sane cp -> Serialize cs mem ty p (data_of_cstr arr) = Ok content -> fits cp content ->
    (length content <= fuel)%nat ->
    exists o' s, Parse cp fuel content buf p' {| po_type := Normal; po_ref := false |} = Ok o' /\
      w_Get CStr o' = Ok (Some (VStr s)) /\ (arr = s ++ [x00] \/ (arr = s /\ forall s', arr <> s' ++ [x00])).
Proof.
  intros arr.
  assert (H1 : forall s, arr = s ++ [x00] -> cstr_content arr = s).
  { intros s ->. unfold cstr_content. rewrite rev_app_distr. cbn. apply rev_involutive. }
  assert (H2 : (forall s, arr <> s ++ [x00]) -> cstr_content arr = arr).
  { intros H. unfold cstr_content. destruct (rev arr) as [|b r] eqn:E; [reflexivity|].
    destruct (byte_eqb_spec b x00) as [->|]; [|reflexivity]. exfalso. apply (H (rev r)).
    rewrite <- (rev_involutive arr), E. reflexivity. }
  split; [intros s Hs; unfold data_of_cstr; now rewrite (H1 s Hs)|].
  split; [intros Hs; unfold data_of_cstr; now rewrite (H2 Hs)|].
  intros cs cp mem ty p content buf fuel p' Hcs Hcp Hs Hf Hu.
  pose proof (transport cs cp mem ty p (data_of_cstr arr) (VScalar (VStr (cstr_content arr))) content [] buf fuel p' {| po_type := Normal; po_ref := false |}) as H.
  rewrite app_nil_r in H. destruct H as (o' & v' & HP & Hsc & _ & Hr & _); auto; [do 2 constructor|discriminate|].
  inversion Hsc; subst. exists o', (cstr_content arr). split; [exact HP|]. cbn in Hr.
  assert (Hd : denotes no_mem o' (VScalar (VStr (cstr_content arr)))) by (apply Hr; discriminate).
  split.
  - inversion Hd as [? ? ? Hx|? ? ? Hx| | |]; subst; [inversion Hx; subst; reflexivity|].
    apply Parse_wf in HP. destruct HP as [HP|HP]; inversion HP.
  - destruct (rev arr) as [|b r] eqn:E.
    + right. assert (arr = []) as -> by (rewrite <- (rev_involutive arr), E; reflexivity).
      split; [reflexivity|]. intros s' H. destruct s'; discriminate.
    + destruct (byte_eqb_spec b x00) as [->|Hb].
      * left. assert (arr = rev r ++ [x00]) as -> by (rewrite <- (rev_involutive arr), E; reflexivity). f_equal.
        symmetry. now apply H1.
      * right. assert (Hno : forall s', arr <> s' ++ [x00]).
        { intros s' ->. rewrite rev_app_distr in E. cbn in E. congruence. }
        split; [symmetry; now apply H2|exact Hno].
Qed.

Example C48_met : data_of_cstr (str [97; 0; 98; 0]) = data_of_string (str [97; 0; 98]) /\
  data_of_cstr (str [97; 98]) = data_of_string (str [97; 98]).
Proof. split; reflexivity. Qed.
