(** * Properties C76-C77: the in-place parser on arbitrary bytes. *)
From Verif Require Import Base BaseLemmas ModelVarint ModelData ModelSecondary ModelObject
  ModelParse ModelWrapper Spec SpecApi VarintProofs Wire NumProofs SeriProofs SeriProofs2 DocProofs ObjInd ParseLemmas
  NormalProofs SecondaryProofs ValueProofs RoundTrip GeneralProofs ApiProofs Samples PropRoundTrip PropDocument PropHostile FrameProofs PropTamper
  PropContainers PropCanonical Lenient LenientProofs LenientTables LenientRef TermProofs PropLenient.
From Coq Require Import ZifyBool ZifyNat ZifyN.

Notation insitu := {| po_type := Normal; po_ref := true |}.

Lemma has_custom_no v : has_custom v = false <-> no_custom v.
Proof.
  induction v as [x|l IH|l IH] using value_ind'; cbn [has_custom].
  - split; intros H.
    + constructor. intros s ->. discriminate.
    + inversion H; subst. destruct x; try reflexivity. now exfalso; eapply H1.
  - transitivity (Forall no_custom l).
    + rewrite Forall_forall in *. split.
      * intros H x Hx. apply IH; [exact Hx|]. apply not_true_iff_false. intros Hc. apply not_true_iff_false in H. apply H. apply existsb_exists. eauto.
      * intros H. apply not_true_iff_false. intros Hc. apply existsb_exists in Hc as (x & Hx & Hc). specialize (IH x Hx). apply H, IH in Hx. congruence.
    + split; [now constructor|]. now inversion 1.
  - transitivity (Forall (fun e => no_custom (snd e)) l).
    + rewrite Forall_forall in *. split.
      * intros H x Hx. apply IH; [exact Hx|]. apply not_true_iff_false. intros Hc. apply not_true_iff_false in H. apply H. apply existsb_exists. eauto.
      * intros H. apply not_true_iff_false. intros Hc. apply existsb_exists in Hc as (x & Hx & Hc). specialize (IH x Hx). apply H, IH in Hx. cbn in *. congruence.
    + split; [now constructor|]. now inversion 1.
Qed.

Lemma Forall2_all {I A B} (Q : I -> Prop) (P : I -> A -> B -> Prop) i0 a b : Q i0 ->
  (forall i, Q i -> Forall2 (P i) a b) -> Forall2 (fun x y => forall i, Q i -> P i x y) a b.
Proof.
  intros H0. revert b. induction a as [|x a IH]; intros [|y b] H.
  - constructor.
  - pose proof (H i0 H0) as H1. inversion H1.
  - pose proof (H i0 H0) as H1. inversion H1.
  - constructor; [|apply IH]; intros i Hi; pose proof (H i Hi) as H1; inversion H1; subst; assumption.
Qed.

(** The views of the dictionary refer to the document. *)
Lemma construct_views E buf : forall fuel count s acc l,
  Forall (fun a : view * N => v_buf (fst a) = buf /\ exists b, read_local E (fst a) = Ok b) acc ->
  sm_construct_loop E buf fuel count s acc = Ok l ->
  Forall (fun a : view * N => v_buf (fst a) = buf /\ exists b, read_local E (fst a) = Ok b) l.
Proof.
  induction fuel as [|f IH]; intros count s acc l HF H; cbn [sm_construct_loop] in H; [discriminate|].
  destruct (count =? 0); [injection H as <-; exact HF|].
  apply obind_ok in H as ([kl s1] & _ & H). apply obind_ok in H as (a & _ & H). apply obind_ok in H as ([id s3] & _ & H).
  apply obind_ok in H as (k & Hk & H). apply obind_ok in H as (found & _ & H). apply IH in H; [exact H|].
  destruct found; [exact HF|]. apply Forall_app. split; [exact HF|]. constructor; [|constructor]. cbn. eauto.
Qed.

Lemma init_views c fuel content buf sc m : initFromContent c fuel content buf = Ok sc -> sc_map sc = Some m ->
  sm_re m = None /\ Forall (fun a => v_buf (fst a) = buf /\ exists b, read_local (root_env c content) (fst a) = Ok b) (sm_map m).
Proof.
  intros H Hm. unfold initFromContent in H. destruct (_ <? _); [discriminate|]. apply obind_ok in H as (total & _ & H).
  apply obind_ok in H as (x & Hx & H).
  assert (fst x = Some m) as Hfx.
  { destruct (_ =? 0) in H; [injection H as <-; exact Hm|]. destruct (_ =? 10) in H; [injection H as <-; exact Hm|discriminate]. }
  clear H. destruct (_ =? _) in Hx.
  { apply obind_ok in Hx as (y & _ & Hx). apply obind_ok in Hx as (z & _ & [= <-]). discriminate. }
  destruct (_ =? _) in Hx; [|discriminate].
  apply obind_ok in Hx as (y & Hy & Hx). apply obind_ok in Hx as (sm & Hsm & Hx). apply obind_ok in Hx as (z & _ & Hx). apply obind_ok in Hx as (si & _ & [= <-]).
  injection Hfx as ->. unfold StringMap_Construct in Hsm. apply obind_ok in Hsm as ([cnt s] & _ & Hsm). apply obind_ok in Hsm as (l & Hl & [= <-]).
  split; [reflexivity|]. cbn [sm_map]. apply construct_views in Hl; [|constructor].
  assert (r_content (fst y) = content).
  { unfold secondary_env in Hy. apply obind_ok in Hy as (q & _ & [= <-]). reflexivity. }
  eapply Forall_impl; [|exact Hl]. intros a [H1 H2]. split; [exact H1|]. unfold read_local in *. cbn [r_content root_env]. now rewrite H in H2.
Qed.

Lemma getter_view c fuel content buf sc id v : sane c -> initFromContent c fuel content buf = Ok sc -> getter c (sc_map sc) id = Ok v ->
  v_buf v = buf /\ exists b, read_local (root_env c content) v = Ok b.
Proof.
  intros [_ Hit] Hi Hg. destruct (sc_map sc) as [m|] eqn:Hm; [|discriminate].
  destruct (init_views _ _ _ _ _ _ Hi Hm) as [Hre HF]. cbn [getter] in Hg. unfold GetStr in Hg. rewrite Hre in Hg. unfold buildReMap in Hg.
  pose proof (buildReMap_any (hash_order c (sm_map m)) [] id) as HR.
  destruct (assoc_find N.eqb id _) as [k|]; [|discriminate]. cbn in Hg. injection Hg as ->.
  destruct HR as [HR|[HR _]]; [|discriminate]. apply (Permutation_in _ (Hit _ _ _ _)) in HR.
  rewrite Forall_forall in HF. apply (HF _ HR).
Qed.

(** What the result of an in-place parse shows while the document is in place. *)
Definition shows (content : bytes) (buf : nat) (o : obj) (entries : list (bytes * value)) : Prop :=
  match last_root entries with
  | Some v => forall mem, mem buf = Some content -> denotes mem o (mirror v)
  | None => o = ONull
  end.

Lemma take_root_view content (P : obj -> value -> Prop) items l :
  Forall2 (fun i e => read_view (fun _ => Some content) (fst i) = Ok (fst e) /\ P (snd i) (snd e)) items l ->
  exists o, obind (MapView_take (fun _ => Some content) items root_key) (fun x => Ok (fst x)) = Ok o /\
    match assoc_find bytes_eqb root_key l with Some v => P o v | None => o = ONull end.
Proof.
  induction 1 as [|[v o] [k w] items l [H1 H2] HF (o' & IH & Hm)]; cbn [MapView_take assoc_find].
  - exists ONull. auto.
  - cbn [fst snd] in *. rewrite H1. cbn [obind]. destruct (bytes_eqb_spec k root_key) as [->|Hne].
    + rewrite bytes_eqb_refl. exists o. auto.
    + destruct (bytes_eqb_spec root_key k); [congruence|]. apply obind_ok in IH as ([r l'] & -> & [= <-]). cbn [obind fst]. exists r. auto.
Qed.

Lemma assoc_find_mirror l : assoc_find bytes_eqb root_key (rev (map (fun e => (fst e, mirror (snd e))) l)) =
  match last_root l with Some v => Some (mirror v) | None => None end.
Proof.
  unfold last_root. rewrite <- map_rev. induction (rev l) as [|[k v] w IH]; [reflexivity|]. cbn [map assoc_find fst snd]. destruct (bytes_eqb root_key k); [reflexivity|exact IH].
Qed.

(** The body of a document of the grammar, read in place. *)
Lemma body_ref c fuel content buf p sc D entries body : fits c content -> (length content <= fuel)%nat ->
  sane c -> initFromContent c fuel content buf = Ok sc ->
  (D = None <-> sc_map sc = None) ->
  (forall d id s, D = Some d -> d id = Some s -> exists v, getter c (sc_map sc) id = Ok v /\ read_local (root_env c content) v = Ok s) ->
  lwire (negb (ndebug c)) D (VMap entries) body -> stands content 10 body -> 10 + len body < len content -> sc_total sc = 10 + len body ->
  (~ no_custom (VMap entries) -> Parse c fuel content buf p insitu = Throw ERuntime) /\
  (no_custom (VMap entries) -> exists o, Parse c fuel content buf p insitu = Ok o /\ shows content buf o entries).
Proof.
  intros HL Hfuel Hsane Hi HDm HD Hw Hst Hlen Htot. unfold Parse. rewrite Hi. cbn [obind]. unfold Parse_prog. cbn [po_type po_ref]. unfold NormalParse_prog.
  set (E := doc_env c content buf sc). rewrite run_bind. change {| idx := meta_size; off := meta_size |} with (at_ 10).
  assert (HR : forall mem, mem buf = Some content ->
    if has_custom (VMap entries) then run (getter c (sc_map sc)) (valueParse E p true fuel TMap (at_ 10)) = Throw ERuntime
    else exists o, run (getter c (sc_map sc)) (valueParse E p true fuel TMap (at_ 10)) = Ok (o, at_ (10 + len body)) /\ denotes mem o (mirror (VMap entries))).
  { intros mem Hmem. destruct (values_ref E (getter c (sc_map sc)) D p mem) with (fuel := fuel) as (VC & _ & _); auto.
    - cbn. destruct D, (sc_map sc); try reflexivity; exfalso; destruct HDm as [A B]; [discriminate (B eq_refl)|discriminate (A eq_refl)].
    - intros d id s Hd Hs. destruct (HD d id s Hd Hs) as (v & Hg & Hr). exists v. split; [exact Hg|]. split; [exact Hr|].
      now destruct (getter_view _ _ _ _ _ _ _ Hsane Hi Hg).
    - apply (VC (VMap entries) body 10 Hw Hst Hlen). pose proof (stands_len _ _ _ Hst) as Hl. unfold len in *. lia. }
  split.
  - intros Hc. assert (Hh : has_custom (VMap entries) = true).
    { apply not_false_iff_true. intros H. apply has_custom_no in H. contradiction. }
    specialize (HR (fun _ => Some content) eq_refl). rewrite Hh in HR. rewrite HR. reflexivity.
  - intros Hc. apply has_custom_no in Hc. rewrite Hc in HR. destruct (HR (fun _ => Some content) eq_refl) as (o & Hrun & Hden).
    rewrite Hrun. cbn [obind off at_]. rewrite Htot, N.eqb_refl. cbn [negb]. rewrite run_lift.
    assert (Hall : forall mem, mem buf = Some content -> denotes mem o (mirror (VMap entries))).
    { intros mem Hm. destruct (HR mem Hm) as (o2 & Hrun2 & Hden2). rewrite Hrun in Hrun2. injection Hrun2 as <-. exact Hden2. }
    destruct fuel as [|f]; [cbn in Hrun; discriminate|].
    assert (exists n items, o = OMapView p n items) as (n & items & ->).
    { cbn [valueParse] in Hrun. rewrite run_bind in Hrun. apply obind_ok in Hrun as ([? ?] & _ & Hrun). rewrite run_bind in Hrun. apply obind_ok in Hrun as ([? ?] & _ & Hrun).
      rewrite run_bind in Hrun. apply obind_ok in Hrun as ([? ?] & _ & Hrun). cbn [run] in Hrun. injection Hrun as <- _. eauto. }
    cbn [take_root b_env doc_env E root_env r_content].
    destruct (take_root_view content (fun o v => forall mem, mem buf = Some content -> denotes mem o v) items (rev (map (fun e => (fst e, mirror (snd e))) entries))) as (o & Ho & Hs).
    { cbn [mirror] in Hall. assert (HF : Forall2 (fun i e => forall mem, mem buf = Some content -> read_view mem (fst i) = Ok (fst e) /\ denotes mem (snd i) (snd e)) items
          (rev (map (fun e => (fst e, mirror (snd e))) entries))).
      { apply (Forall2_all (fun mem : memory => mem buf = Some content)
          (fun (mem : memory) (i : view * obj) (e : bytes * value) => read_view mem (fst i) = Ok (fst e) /\ denotes mem (snd i) (snd e)) (fun _ => Some content)); [reflexivity|].
        intros mem Hm. specialize (Hall mem Hm). inversion Hall; subst. assumption. }
      eapply Forall2_impl; [|exact HF]. cbn. intros i e _ _ H. split; [exact (proj1 (H (fun _ => Some content) eq_refl))|]. intros mem Hm. now apply H. }
    exists o. split; [exact Ho|]. unfold shows. rewrite assoc_find_mirror in Hs. destruct (last_root entries); exact Hs.
Qed.

Lemma known_get c content m : forall d id s, known_option c content m = Some d -> d id = Some s ->
  exists v, getter c m id = Ok v /\ read_local (root_env c content) v = Ok s.
Proof.
  intros d id s Hd Hs. unfold known_option in Hd. destruct m as [m|]; [|discriminate]. injection Hd as <-. unfold known_strings in Hs.
  destruct (getter c (Some m) id) as [v| | | |]; try discriminate. exists v. split; [reflexivity|]. destruct (read_local _ v); try discriminate. congruence.
Qed.

(** What was shown is what the copy holds. *)
Lemma shows_same c fuel content buf p entries o' mem : sane c -> fits c content ->
  Parse c fuel content buf p sequential = Ok (meaning p entries) -> shows content buf o' entries ->
  mem buf = Some content -> forall path, api_seen mem o' path = api_seen mem (meaning p entries) path /\ exists s, api_seen mem o' path = Ok s.
Proof.
  intros Hs HL HP Hsh Hm path. apply C16_result_well_formed in HP. unfold shows, meaning in *. destruct (last_root entries) as [v|].
  - destruct HP as [HP|HP]; [destruct (mirror v); discriminate|]. cbn [po_ref] in HP.
    pose proof (tree_denotes mem _ _ _ HP) as Hd. rewrite (api_seen_ok _ _ _ path Hd), (api_seen_ok _ _ _ path (Hsh mem Hm)). eauto.
  - subst o'. split; [reflexivity|]. unfold api_seen. rewrite api_walk_null. cbn. eauto.
Qed.

(** C76.  Whatever bytes the copying parser accepts, the in-place parser accepts
    exactly those of them that hold no custom data, throws on the others, and its
    result shows, through every access path, the same content as the copy - as
    long as the buffer holds the document. *)
Theorem C76_insitu_agrees : forall c fuel content buf p o, sane c -> fits c content -> (length content <= fuel)%nat ->
  Parse c fuel content buf p sequential = Ok o ->
  exists ty D entries rest, lenient_doc (negb (ndebug c)) D ty entries content rest /\ o = meaning p entries /\
    (~ no_custom (VMap entries) -> Parse c fuel content buf p insitu = Throw ERuntime) /\
    (no_custom (VMap entries) -> exists o', Parse c fuel content buf p insitu = Ok o' /\
       forall mem path, mem buf = Some content -> api_seen mem o' path = api_seen mem o path /\ exists s, api_seen mem o' path = Ok s).
Proof.
  intros c fuel content buf p o Hsane HL Hfuel HP. pose proof HP as H. unfold Parse in H. apply obind_ok in H as (sc & Hsc & H).
  unfold Parse_prog in H. cbn [po_type po_ref] in H.
  destruct (body_sound c fuel content buf p sc o Hsane HL Hsc H) as (ty & entries & rest & Hd & ->).
  exists ty, (known_option c content (sc_map sc)), entries, rest. split; [exact Hd|]. split; [reflexivity|].
  destruct (init_header _ _ _ _ _ Hsc) as (size & t & f & rest0 & Hc & Hsz & Htot & _ & _ & Hm).
  inversion Hd as [size' t' f' body rest' A1 A2 A3 A4 A5 A6 A7 A8]. subst rest'.
  assert (size' = size) as ->.
  { rewrite Hc in A7. apply app_inj_len in A7 as [-> A7]; [|unfold len in *; lia]. reflexivity. }
  assert (Hst : stands content 10 body).
  { replace 10 with (len (size ++ [t'] ++ [f'])) by (rewrite !len_app, !len_cons, len_nil; lia). apply stands_app_mid with (Z := rest).
    rewrite <- A7. now rewrite <- !app_assoc. }
  assert (Hlen : len content = 10 + len body + len rest) by (rewrite <- A7; rewrite !len_app, !len_cons, len_nil; lia).
  assert (Hr : 0 < len rest) by (destruct rest; [congruence|rewrite len_cons; lia]).
  rewrite A7 in *.
  destruct (body_ref c fuel content buf p sc (known_option c content (sc_map sc)) entries body HL Hfuel Hsane Hsc) as [B1 B2].
  - unfold known_option. destruct (sc_map sc); split; congruence.
  - apply known_get.
  - exact A5.
  - exact Hst.
  - lia.
  - rewrite Htot. exact A2.
  - split; [exact B1|]. intros Hn. destruct (B2 Hn) as (o' & HP' & Hs). exists o'. split; [exact HP'|]. intros mem path Hm'.
    eapply shows_same; eauto.
Qed.

(** The converse, for input without length fields of 2^63 or more. *)
Lemma insitu_sound c fuel content buf p o' : sane c -> fits c content -> (length content <= fuel)%nat ->
  (forall i, exists j, (j < 9)%nat /\ b2n (nth (i + j) content x00) < 128) ->
  Parse c fuel content buf p insitu = Ok o' ->
  exists ty D entries rest, lenient_doc (negb (ndebug c)) D ty entries content rest /\ no_custom (VMap entries) /\
    Parse c fuel content buf p sequential = Ok (meaning p entries) /\ shows content buf o' entries.
Proof.
  intros Hsane HL Hfuel Hshort HP. pose proof HP as H. unfold Parse in H. apply obind_ok in H as (sc & Hsc & H).
  unfold Parse_prog in H. cbn [po_type po_ref] in H.
  destruct (init_header _ _ _ _ _ Hsc) as (size & t & f & rest0 & Hc & Hsz & Htot & Hlt & Hf & Hm).
  set (E := doc_env c content buf sc) in *. set (D := known_option c content (sc_map sc)).
  unfold NormalParse_prog in H. rewrite run_bind in H. apply obind_ok in H as ([root s] & Hv & H).
  assert (Hmap : ModelParse.b_map E = match D with Some _ => true | None => false end) by (cbn; unfold D, known_option; now destruct (sc_map sc)).
  assert (Hget : forall d id v, D = Some d -> getter c (sc_map sc) id = Ok v -> exists s, read_local (b_env E) v = Ok s /\ d id = Some s).
  { intros d id v Hd Hg. destruct (getter_view _ _ _ _ _ _ _ Hsane Hsc Hg) as (_ & b & Hb). exists b. split; [exact Hb|].
    unfold D, known_option in Hd. destruct (sc_map sc) as [m|]; [|discriminate]. injection Hd as <-.
    unfold known_strings. now rewrite Hg, Hb. }
  assert (H10 : 10 <= len content) by (rewrite Hc; rewrite !len_app, Hsz, !len_cons, len_nil; lia).
  destruct (values_ref_sound E (getter c (sc_map sc)) D p eq_refl eq_refl HL Hmap Hget) with (fuel := fuel) as (VS & _ & _).
  { apply short_tame. exact Hshort. }
  change {| idx := meta_size; off := meta_size |} with (at_ 10) in Hv.
  apply VS in Hv as (v & b & Hty & Hw & Hst & -> & Hl & Hnc); [|exact H10]. clear VS.
  cbn [off at_] in H. destruct (N.eqb_spec (10 + len b) (sc_total sc)) as [Heq|]; [|discriminate]. clear H.
  destruct v as [x|l|entries]; try discriminate Hty. apply has_custom_no in Hnc.
  change (r_cfg (b_env E)) with c in Hw.
  destruct (body_ref c fuel content buf p sc D entries b HL Hfuel Hsane Hsc) as [_ B].
  { unfold D, known_option. destruct (sc_map sc); split; congruence. }
  { apply known_get. }
  { exact Hw. }
  { exact Hst. }
  { lia. }
  { congruence. }
  destruct (B Hnc) as (o & HP' & Hsh). rewrite HP in HP'. injection HP' as <-. clear B.
  destruct Hst as (A & Z & HA & HlA). cbn in HA.
  assert (A = size ++ [t] ++ [f] /\ b ++ Z = rest0) as [-> HZ].
  { rewrite Hc in HA. assert (Hla : length A = length (size ++ [t] ++ [f])).
    { rewrite !app_length. cbn. unfold len in HlA, Hsz. lia. }
    replace (size ++ [t] ++ [f] ++ rest0) with ((size ++ [t] ++ [f]) ++ rest0) in HA by (now rewrite <- !app_assoc).
    apply app_inj_len in HA; [|lia]. destruct HA as [-> ->]. auto. }
  assert (HZne : Z <> []).
  { intros ->. rewrite HA, app_nil_r, !len_app in Hlt. rewrite !len_app in HlA. lia. }
  exists (type_char t), D, entries, Z. split; [|split; [exact Hnc|split; [|exact Hsh]]].
  - assert (Hstr : lwire (negb (ndebug c)) D (VMap entries) b) by exact Hw. clearbody D.
    replace content with (size ++ [t] ++ [f] ++ b ++ Z) by (rewrite HA, <- !app_assoc; reflexivity).
    constructor; auto.
    + rewrite <- Htot. lia.
    + unfold type_char. destruct Hm as [[-> _]|[-> _]]; reflexivity.
  - unfold Parse. rewrite Hsc. cbn [obind]. unfold Parse_prog. cbn [po_type po_ref]. unfold NormalParse_prog.
    fold E. rewrite run_bind. change {| idx := meta_size; off := meta_size |} with (at_ 10).
    destruct (values_complete E (getter c (sc_map sc)) D p) with (fuel := fuel) as (VC & _ & _); auto.
    { intros d id s Hd Hs. apply (known_get c content (sc_map sc) d id s Hd Hs). }
    assert (Hst : stands content 10 b) by (exists (size ++ [t] ++ [f]), Z; auto).
    specialize (VC (VMap entries) b 10 Hw Hst). cbn [type_of r_content b_env E doc_env root_env] in VC. rewrite VC.
    + cbn [obind off at_]. rewrite Heq, N.eqb_refl. cbn [negb]. rewrite run_lift. cbn [mirror tree_of take_root]. now rewrite take_root_meaning.
    + lia.
    + unfold len in *. lia.
Qed.

(** C77.  Nothing that an in-place parse returns refers outside the document ...
    is false: a length field near 2^64 moves the cursor backwards, the document is
    accepted, and the string it returns is longer than the address space.  (The
    value's length is 2^64 - 19, which moves the cursor from 29 back to 10; the
    header announces a body of 0 bytes and the root map itself serves as the block
    table.) *)
Definition evil_view : bytes :=
  hdr 10 0 0 ++ str [1; 0; 4] ++ root_key ++ str [0; 1] ++ str [237; 255; 255; 255; 255; 255; 255; 255; 255; 1] ++ str [0].

Theorem C77_views_inside_refuted : forall c, c = x86_debug \/ c = x86_release ->
  Parse c 100 evil_view 7 p1 insitu = Ok (ODataView 1 (SView {| v_buf := 7; v_off := 29; v_len := 2 ^ 64 - 19 |})) /\
  api_seen (fun _ => Some evil_view) (ODataView 1 (SView {| v_buf := 7; v_off := 29; v_len := 2 ^ 64 - 19 |})) [] = UB.
Proof. intros c [-> | ->]; split; vm_compute; reflexivity. Qed.

(** What holds: without nine consecutive bytes above 127, the in-place parser
    accepts only what the copying parser accepts, and as long as the buffer holds
    the document every access path can be read, with the content of the copy. *)
Theorem C77_views_inside_partial : forall c fuel content buf p o', sane c -> fits c content -> (length content <= fuel)%nat ->
  (forall i, exists j, (j < 9)%nat /\ b2n (nth (i + j) content x00) < 128) ->
  Parse c fuel content buf p insitu = Ok o' ->
  exists o, Parse c fuel content buf p sequential = Ok o /\
    forall mem path, mem buf = Some content -> api_seen mem o' path = api_seen mem o path /\ exists s, api_seen mem o' path = Ok s.
Proof.
  intros c fuel content buf p o' Hsane HL Hfuel Hshort HP.
  destruct (insitu_sound c fuel content buf p o' Hsane HL Hfuel Hshort HP) as (ty & D & entries & rest & Hd & Hnc & HP' & Hsh).
  exists (meaning p entries). split; [exact HP'|]. intros mem path Hm. eapply shows_same; eauto.
Qed.

(** C42, exactly: a serialized document can be read in place by the sequential
    scheduler if and only if it holds no custom data; otherwise Parse throws. *)
Lemma tree_of_inj p v : forall w, tree_of p v = tree_of p w -> v = w.
Proof.
  induction v as [x|l IH|l IH] using value_ind'; intros [y|m|m] H; cbn [tree_of] in H; try discriminate.
  - f_equal. apply store_of_inj. injection H as H1 H2. destruct (store_of x), (store_of y). cbn in *. congruence.
  - injection H as _ H. apply (f_equal (@rev obj)) in H. rewrite !rev_involutive in H. f_equal.
    revert m H. induction l as [|v l IHl]; intros [|w m] H; try discriminate; [reflexivity|].
    inversion IH; subst. cbn in H. injection H as H0 H. f_equal; auto.
  - injection H as _ H. f_equal. revert m H. induction l as [|[k v] l IHl]; intros [|[k' w] m] H; try discriminate; [reflexivity|].
    inversion IH; subst. cbn in H. injection H as -> H0 H. f_equal; auto. f_equal; auto.
Qed.

Theorem C42_insitu_exactly_partial : forall cs cp mem ty p o v content buf fuel p',
  sane cs -> sane cp -> denotes mem o v ->
  Serialize cs mem ty p o = Ok content -> fits cp content -> (length content <= fuel)%nat ->
  (no_custom v -> exists o', Parse cp fuel content buf p' insitu = Ok o' /\ o' <> ONull) /\
  (~ no_custom v -> Parse cp fuel content buf p' insitu = Throw ERuntime).
Proof.
  intros cs cp mem ty p o v content buf fuel p' Hcs Hcp Hd Hs Hf Hfuel. split.
  - intros Hn. exact (C42_insitu_accepts_partial cs cp mem ty p o v content buf fuel p' Normal Hcs Hcp Hd Hn Hs Hf Hfuel).
  - intros Hn.
    pose proof (transport cs cp mem ty p o v content [] buf fuel p' sequential) as H.
    rewrite app_nil_r in H. destruct H as (o' & v' & HP & _ & Hv & Hr & _); auto; [discriminate|].
    specialize (Hv eq_refl). subst v'. cbn in Hr.
    assert (Hden : denotes no_mem o' (mirror v)) by (apply Hr; discriminate).
    destruct (C76_insitu_agrees cp fuel content buf p' o' Hcp Hf Hfuel HP) as (ty' & D & entries & rest & _ & Ho & B & _).
    apply B. intros Hnc. apply Hn. unfold meaning in Ho. destruct (last_root entries) as [w|] eqn:Hl; [|subst o'; inversion Hden].
    apply C16_result_well_formed in HP as [HP|HP]; [rewrite HP in Hden; inversion Hden|]. cbn [po_ref] in HP. rewrite Ho in HP.
    apply (tree_denotes no_mem) in HP. rewrite <- Ho in HP. pose proof (denotes_fun _ _ _ _ HP Hden) as Hw.
    apply (f_equal mirror) in Hw. rewrite !mirror_involutive in Hw. subst w.
    inversion Hnc as [| |l HF]; subst. rewrite Forall_forall in HF. unfold last_root in Hl.
    assert (Hin : In (root_key, v) (rev entries)).
    { revert Hl. clear. induction (rev entries) as [|[k w] l IH]; cbn [assoc_find]; [discriminate|].
      destruct (bytes_eqb_spec root_key k) as [->|]; [intros [= ->]; now left|]. intros H. right. auto. }
    apply in_rev in Hin. now apply HF in Hin.
Qed.

(** ** The hypotheses are met *)
Example C76_met : exists o o',
  Parse x86_release 100 odd_doc 7 p1 sequential = Ok o /\ Parse x86_release 100 odd_doc 7 p1 insitu = Ok o' /\
  api_seen (mem1 7 odd_doc) o' [Idx 0] = Ok (SeenScalar (VStr (str [65]))) /\ o <> o' /\
  (forall i, exists j, (j < 9)%nat /\ b2n (nth (i + j) odd_doc x00) < 128).
Proof.
  do 2 eexists. split; [vm_compute; reflexivity|]. split; [vm_compute; reflexivity|]. split; [vm_compute; reflexivity|]. split; [discriminate|].
  intros i. destruct (le_lt_dec (length odd_doc) i) as [Hi|Hi].
  - exists 0%nat. split; [lia|]. rewrite nth_overflow by lia. vm_compute. reflexivity.
  - assert (G : forallb (fun i => existsb (fun j => b2n (nth (i + j) odd_doc x00) <? 128) [0; 1; 2; 3; 4; 5; 6; 7; 8]%nat) (seq 0 (length odd_doc)) = true) by (vm_compute; reflexivity).
    rewrite forallb_forall in G. specialize (G i). rewrite in_seq in G. specialize (G ltac:(lia)). apply existsb_exists in G as (j & Hj & H).
    exists j. split; [cbn in Hj; lia|]. apply N.ltb_lt. exact H.
Qed.
