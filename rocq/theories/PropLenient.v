(** * Properties C73-C75: the exact language of the sequential parser. *)
From Verif Require Import Base BaseLemmas ModelVarint ModelData ModelSecondary ModelObject
  ModelParse ModelWrapper Spec SpecApi VarintProofs Wire NumProofs SeriProofs SeriProofs2 DocProofs ObjInd ParseLemmas
  NormalProofs SecondaryProofs ValueProofs RoundTrip GeneralProofs ApiProofs Samples PropRoundTrip PropDocument PropHostile FrameProofs PropTamper
  PropContainers PropCanonical Lenient LenientPara LenientProofs LenientTables.
From Coq Require Import ZifyBool ZifyNat ZifyN.

Notation sequential := {| po_type := Normal; po_ref := false |}.

Lemma app_inj_len {A} (a b c d : list A) : a ++ b = c ++ d -> length a = length c -> a = c /\ b = d.
Proof.
  revert c. induction a as [|x a IH]; intros [|y c] H Hl; cbn in *; try lia; [auto|]. injection H as -> H.
  destruct (IH c H) as [-> ->]; [lia|auto].
Qed.

(** The object that a document means. *)
Definition meaning (p : pool) (entries : list (bytes * value)) : obj :=
  match last_root entries with Some v => tree_of p (mirror v) | None => ONull end.

Lemma take_root_meaning p entries :
  fst (Map_take (map (fun e => (fst e, tree_of p (snd e))) (rev (map (fun e => (fst e, mirror (snd e))) entries))) root_key) = meaning p entries.
Proof.
  unfold meaning, last_root. rewrite <- map_rev, map_map. cbn [fst snd]. induction (rev entries) as [|[k v] l IH]; [reflexivity|].
  cbn [map fst snd Map_take assoc_find]. destruct (bytes_eqb_spec k root_key) as [->|Hne].
  - destruct (bytes_eqb_spec root_key root_key); [reflexivity|congruence].
  - destruct (bytes_eqb_spec root_key k); [congruence|]. rewrite <- IH. now destruct (Map_take _ _).
Qed.

Lemma split10 (content : bytes) : 10 <= len content ->
  exists size t f rest, content = size ++ [t] ++ [f] ++ rest /\ len size = 8 /\ firstn 8 content = size /\ nth 8 content x00 = t /\ nth 9 content x00 = f.
Proof.
  intros H. unfold len in H.
  do 10 (destruct content as [|? content]; [cbn in H; lia|]). 
  eexists [_; _; _; _; _; _; _; _], _, _, content. repeat split.
Qed.

(** What reading the header establishes. *)
Lemma init_header c fuel content buf sc : initFromContent c fuel content buf = Ok sc ->
  exists size t f rest, content = size ++ [t] ++ [f] ++ rest /\ len size = 8 /\ sc_total sc = big_endian size /\
    sc_total sc < len content /\ (b2n f = 0 \/ b2n f = 10) /\
    ((b2n t = 0 /\ sc_map sc = None) \/ (b2n t = 1 /\ exists m, sc_map sc = Some m)).
Proof.
  intros H. unfold initFromContent, meta_size in H. destruct (N.ltb_spec (len content) 10) as [|Hl]; [discriminate|].
  destruct (split10 content) as (size & t & f & rest & Hc & Hs & H8 & Ht & Hf); [lia|].
  apply obind_ok in H as (total & Htot & H). unfold ParseTotalSize in Htot. replace (len content <? 8) with false in Htot by lia.
  rewrite H8, num_of_wire_any in Htot by exact Hs. injection Htot as <-. rewrite Ht, Hf in H.
  apply obind_ok in H as (x & Hx & H). exists size, t, f, rest. split; [exact Hc|]. split; [exact Hs|].
  assert (Hlt : big_endian size < len content).
  { assert (G : forall y, secondary_env c content (big_endian size) = Ok y -> big_endian size < len content).
    { intros y Hy. unfold secondary_env, parseLength_str in Hy. destruct (N.leb_spec (len content) (big_endian size)) as [|]; [discriminate|assumption]. }
    destruct (_ =? _); [apply obind_ok in Hx as (y & Hy & _); eauto|]. destruct (_ =? _); [apply obind_ok in Hx as (y & Hy & _); eauto|discriminate]. }
  assert (Hm : (b2n t = 0 /\ fst x = None) \/ (b2n t = 1 /\ exists m, fst x = Some m)).
  { cbn [SeriTypeToChar] in Hx. destruct (N.eqb_spec (b2n t) 0) as [H0|_].
    - left. apply obind_ok in Hx as (y & _ & Hx). apply obind_ok in Hx as (z & _ & [= <-]). auto.
    - destruct (N.eqb_spec (b2n t) 1) as [H1|_]; [|discriminate]. right.
      apply obind_ok in Hx as (y & _ & Hx). apply obind_ok in Hx as (z & _ & Hx). apply obind_ok in Hx as (w & _ & Hx). apply obind_ok in Hx as (si & _ & [= <-]).
      split; [exact H1|]. eexists. reflexivity. }
  destruct (N.eqb_spec (b2n f) 0) as [H0|_]; [injection H as <-; cbn; auto|].
  destruct (N.eqb_spec (b2n f) 10) as [H0|_]; [injection H as <-; cbn; auto|discriminate].
Qed.

(** The strings that the parser gets for ids. *)
Definition known_strings (c : cfg) (content : bytes) (m : string_map view) (id : N) : option bytes :=
  match getter c (Some m) id with
  | Ok v => match read_local (root_env c content) v with Ok s => Some s | _ => None end
  | _ => None
  end.
Definition known_option c content (m : option (string_map view)) : option (N -> option bytes) :=
  match m with Some m => Some (known_strings c content m) | None => None end.

Definition type_char (b : byte) : SeriType := if b2n b =? 0 then NORMAL else REPLACE.

(** The body: the map that the parser builds. *)
Lemma root_sound c fuel content buf p sc root s : sane c -> fits c content ->
  initFromContent c fuel content buf = Ok sc ->
  run (getter c (sc_map sc)) (valueParse (doc_env c content buf sc) p false fuel TMap {| idx := meta_size; off := meta_size |}) = Ok (root, s) ->
  off s = sc_total sc ->
  exists ty entries rest,
    lenient_doc (negb (ndebug c)) (known_option c content (sc_map sc)) ty entries content rest /\ root = tree_of p (mirror (VMap entries)).
Proof.
  intros Hsane HL Hi Hv H. destruct (init_header _ _ _ _ _ Hi) as (size & t & f & rest0 & Hc & Hsz & Htot & Hlt & Hf & Hm).
  set (E := doc_env c content buf sc) in *.
  assert (Hmap : ModelParse.b_map E = match known_option c content (sc_map sc) with Some _ => true | None => false end) by (cbn; now destruct (sc_map sc)).
  assert (Hget : forall d id v s, known_option c content (sc_map sc) = Some d -> getter c (sc_map sc) id = Ok v -> read_local (b_env E) v = Ok s -> d id = Some s).
  { intros d id v s0 Hd Hg Hr. unfold known_option in Hd. destruct (sc_map sc) as [m|]; [|discriminate]. injection Hd as <-.
    unfold known_strings. rewrite Hg. change (b_env E) with (root_env c content) in Hr. rewrite Hr. reflexivity. }
  assert (H10 : 10 <= len content) by (rewrite Hc; rewrite !len_app, Hsz, !len_cons, len_nil; lia).
  destruct (values_sound E (getter c (sc_map sc)) (known_option c content (sc_map sc)) p eq_refl eq_refl HL Hmap Hget fuel) as (VS & _ & _).
  change {| idx := meta_size; off := meta_size |} with (at_ 10) in Hv.
  apply VS in Hv as (v & b & Hty & Hw & Hst & -> & Hl & ->); [|exact H10]. clear VS.
  cbn [off at_] in H. rename H into Heq. destruct v as [x|l|entries]; try discriminate Hty.
  destruct Hst as (A & Z & HA & HlA). cbn in HA.
  assert (A = size ++ [t] ++ [f] /\ b ++ Z = rest0) as [-> HZ].
  { rewrite Hc in HA. assert (Hla : length A = length (size ++ [t] ++ [f])).
    { rewrite !app_length. cbn. unfold len in HlA, Hsz. lia. }
    replace (size ++ [t] ++ [f] ++ rest0) with ((size ++ [t] ++ [f]) ++ rest0) in HA by (now rewrite <- !app_assoc).
    apply app_inj_len in HA; [|lia]. destruct HA as [-> ->]. auto. }
  exists (type_char t), entries, Z. split; [|reflexivity].
  change (r_cfg (b_env E)) with c in Hw. remember (known_option c content (sc_map sc)) as D eqn:HD. clear HD.
  replace content with (size ++ [t] ++ [f] ++ b ++ Z) by (rewrite HA, <- !app_assoc; reflexivity).
  constructor; auto.
  - rewrite <- Htot. lia.
  - unfold type_char. destruct Hm as [[-> _]|[-> _]]; reflexivity.
  - intros ->. rewrite HA, app_nil_r, !len_app in Hlt. rewrite !len_app in HlA. lia.
Qed.

Lemma body_sound c fuel content buf p sc o : sane c -> fits c content ->
  initFromContent c fuel content buf = Ok sc ->
  run (getter c (sc_map sc)) (NormalParse_prog (doc_env c content buf sc) fuel false p (sc_total sc)) = Ok o ->
  exists ty entries rest,
    lenient_doc (negb (ndebug c)) (known_option c content (sc_map sc)) ty entries content rest /\ o = meaning p entries.
Proof.
  intros Hsane HL Hi H. unfold NormalParse_prog in H. rewrite run_bind in H. apply obind_ok in H as ([root s] & Hv & H).
  destruct (N.eqb_spec (off s) (sc_total sc)) as [Heq|]; [|discriminate]. cbn [negb] in H.
  destruct (root_sound c fuel content buf p sc root s Hsane HL Hi Hv Heq) as (ty & entries & rest & Hd & ->).
  exists ty, entries, rest. split; [exact Hd|]. rewrite run_lift in H. cbn [mirror tree_of take_root] in H. rewrite take_root_meaning in H. now injection H.
Qed.

(** C73.  Whatever the sequential owning parser accepts is a document of the
    lenient grammar, and the result is exactly its meaning. *)
Theorem C73_accepted_means : forall c fuel content buf p o, sane c -> fits c content ->
  Parse c fuel content buf p sequential = Ok o ->
  exists ty D entries rest,
    (ty = NORMAL <-> D = None) /\
    lenient_doc (negb (ndebug c)) D ty entries content rest /\ o = meaning p entries.
Proof.
  intros c fuel content buf p o Hsane HL H. unfold Parse in H. apply obind_ok in H as (sc & Hsc & H).
  unfold Parse_prog in H. cbn [po_type po_ref] in H.
  destruct (body_sound c fuel content buf p sc o Hsane HL Hsc H) as (ty & entries & rest & Hd & ->).
  exists ty, (known_option c content (sc_map sc)), entries, rest. split; [|auto].
  destruct (init_header _ _ _ _ _ Hsc) as (size & t & f & rest0 & Hc & Hsz & _ & _ & _ & Hm).
  inversion Hd as [size' t' f' body rest' A1 A2 A3 A4 A5 A6 A7 A8]. subst rest'.
  assert (t' = t).
  { rewrite Hc in A7. apply app_inj_len in A7 as [_ A7]; [|unfold len in *; lia]. now injection A7. }
  subst t'. unfold known_option. destruct Hm as [[Ht ->]|[Ht [m ->]]]; rewrite Ht in A3; destruct ty; try discriminate A3; split; congruence.
Qed.

(** ** The tables *)
Lemma stands_app_mid content A b Z : content = A ++ b ++ Z -> stands content (len A) b.
Proof. intros ->. exists A, Z. auto. Qed.

Lemma secondary_vint c main n table rest : vint (len table) n -> lim c (len (main ++ n ++ table ++ rest)) ->
  secondary_env c (main ++ n ++ table ++ rest) (len main) =
    Ok ({| r_cfg := c; r_content := main ++ n ++ table ++ rest; r_base := len main + len n; r_size := len table |}, len main + len n + len table).
Proof.
  intros (m & Hg & H10 & Hm) HL. pose proof (lim_W32 _ _ HL) as HW. rewrite W32_val, !len_app in HW. pose proof (groups_pos _ _ Hg).
  set (content := main ++ n ++ table ++ rest) in *.
  assert (Hlen : len content = len main + (len n + (len table + len rest))) by (unfold content; now rewrite !len_app).
  unfold secondary_env, parseLength_str. replace (len content <=? len main) with false by lia.
  unfold varint_decode. change 0 with (7 * 0) at 2.
  rewrite (decode_complete c content _ 12 n m); auto.
  - change (7 * 0) with 0. rewrite N.pow_0_r, N.mul_1_r, !N.add_0_l, <- Hm. cbn [obind].
    rewrite u64_small by (rewrite W64_val; lia). replace (len content <? len main + len n) with false by lia. cbn [obind fst snd].
    rewrite !u64_small by (rewrite ?W64_val, ?u64_small by (rewrite W64_val; lia); lia). reflexivity.
  - apply (stands_app_mid content main n (table ++ rest)). reflexivity.
  - unfold len in *. lia.
  - destruct (ndebug c) eqn:Hnd; [now left|right]. unfold lim in HL. rewrite Hnd in HL. change (2 ^ 31) with 2147483648 in HL.
    rewrite sub64_small by (rewrite ?W64_val; lia). rewrite to_int64_small by (change (2 ^ 63) with 9223372036854775808; lia).
    rewrite to_int32_small by lia. lia.
Qed.

(** Looking ids up in the table that was read. *)
Lemma known_reading c content m l : sane c ->
  sm_re m = None -> Forall2 (fun (a : view * N) (e : bytes * N) => read_local (root_env c content) (fst a) = Ok (fst e) /\ snd a = snd e) (sm_map m) (added [] l) ->
  reading l (known_strings c content m) /\
  (forall id s, known_strings c content m id = Some s -> exists v, getter c (Some m) id = Ok v /\ read_local (root_env c content) v = Ok s).
Proof.
  intros [_ Hit] Hre HF. split.
  - intros id. unfold known_strings, getter, GetStr. rewrite Hre. unfold buildReMap.
    pose proof (buildReMap_any (hash_order c (sm_map m)) [] id) as HR.
    destruct (assoc_find N.eqb id _) as [v|] eqn:Ha; cbn [obind fst].
    + destruct HR as [HR|[HR _]]; [|discriminate].
      apply (Permutation_in _ (Hit _ _ _ _)) in HR. apply In_nth_error in HR as (n & Hn).
      destruct (Forall2_nth _ _ _ _ _ HF Hn) as ([k j] & Hk & Hl & Hj). cbn [fst snd] in *. subst j. rewrite Hl.
      apply nth_error_In in Hk. apply id_of_in in Hk; [|apply added_nodup; constructor]. rewrite id_of_added in Hk. exact Hk.
    + destruct HR as [HR _]. intros s Hs. apply HR.
      apply (Permutation_in _ (Permutation_map snd (Permutation_sym (Hit _ _ _ _)))).
      rewrite <- (app_nil_l l), <- id_of_added in Hs. apply id_of_in in Hs; [|apply added_nodup; constructor].
      apply In_nth_error in Hs as (n & Hn). apply Forall2_flip in HF. destruct (Forall2_nth _ _ _ _ _ HF Hn) as ([v j] & Hv & _ & Hj). cbn [snd] in Hj. subst j.
      apply nth_error_In in Hv. apply in_map_iff. exists (v, id). auto.
  - intros id s H. unfold known_strings in H. destruct (getter c (Some m) id) as [v| | | |]; try discriminate. exists v. split; [reflexivity|].
    destruct (read_local _ v); try discriminate. congruence.
Qed.

Lemma stands_prefix content A b Z s : content = A ++ b ++ Z -> stands content (len A) s -> len s <= len b -> exists junk, b = s ++ junk.
Proof.
  intros -> (A' & Z' & H & HA) Hl. assert (A' = A) as ->.
  { apply app_inj_len in H as [<- _]; [reflexivity|unfold len in *; lia]. }
  apply app_inv_head in H. exists (skipn (length s) b).
  apply (f_equal (firstn (length b))) in H. rewrite firstn_app_exact in H by reflexivity. unfold len in Hl.
  rewrite firstn_app in H. rewrite firstn_all2 in H by lia. rewrite H at 1. f_equal.
  assert (H' := f_equal (skipn (length s)) H). rewrite H'. rewrite skipn_app. rewrite skipn_all. cbn.
  rewrite Nat.sub_diag. reflexivity.
Qed.

Lemma lsplit_junk l b junk : lsplit l b -> lsplit l (b ++ junk).
Proof. intros [n cnt chunks j H1 H2 H3 H4]. rewrite <- !app_assoc. econstructor; eauto. Qed.
Lemma ldict_junk l b junk : ldict l b -> ldict l (b ++ junk).
Proof. intros [n cnt chunks j H1 H2 H4]. rewrite <- !app_assoc. econstructor; eauto. Qed.

Lemma firstn8 size t f (rest main R : bytes) : len size = 8 -> size ++ [t] ++ [f] ++ rest = main ++ R -> len main >= 10 -> firstn 8 main = size /\ nth_error main 8 = Some t.
Proof.
  intros Hs H Hm. destruct (split10 main) as (s' & t' & f' & r' & -> & Hs' & H8 & _); [lia|]. rewrite H8.
  rewrite <- !app_assoc in H. apply app_inj_len in H as [-> H]; [|unfold len in *; lia]. cbn in H. injection H as -> _ _.
  split; [reflexivity|]. rewrite nth_error_app2 by (unfold len in *; lia). unfold len in *. replace (8 - length s')%nat with 0%nat by lia. reflexivity.
Qed.

(** The strings of the dictionary that was read. *)
Definition keys_in_table (c : cfg) (content : bytes) (m : string_map view) (rest : bytes) : Prop :=
  sm_re m = None /\ exists n db strs after, rest = n ++ db ++ after /\ vint (len db) n /\ ldict strs db /\
    Forall2 (fun a e => read_local (root_env c content) (fst a) = Ok (fst e) /\ snd a = snd e) (sm_map m) (added [] strs).

Lemma init_ptables_keys c fuel content buf sc : sane c -> fits c content -> announced content ->
  initFromContent c fuel content buf = Ok sc -> forall prefix rest, content = prefix ++ rest -> len prefix = sc_total sc ->
  (exists ty, (ty = NORMAL <-> sc_map sc = None) /\ ptables false ty (known_option c content (sc_map sc)) (si_info (sc_split sc)) rest) /\
  forall m, sc_map sc = Some m -> keys_in_table c content m rest.
Proof.
  intros Hsane HL Han Hi prefix rest Hpr Hlen.
  destruct (init_header _ _ _ _ _ Hi) as (size & t & f & rest0 & Hc & Hsz & Htot & Hlt & Hf & Hm).
  assert (H10 : 10 <= len content) by (rewrite Hc; rewrite !len_app, Hsz, !len_cons, len_nil; lia).
  destruct (split10 content H10) as (size2 & t2 & f2 & rest2 & Hc2 & Hs2 & H8 & Ht & Hff).
  assert (size2 = size /\ t2 = t /\ f2 = f) as (-> & -> & ->).
  { rewrite Hc in Hc2. apply app_inj_len in Hc2 as [-> Hc2]; [|unfold len in *; lia]. cbn in Hc2. injection Hc2 as -> -> _. auto. }
  unfold initFromContent, meta_size in Hi. replace (len content <? 10) with false in Hi by lia.
  apply obind_ok in Hi as (total & Htt & Hi). unfold ParseTotalSize in Htt. replace (len content <? 8) with false in Htt by lia.
  rewrite H8, num_of_wire_any in Htt by exact Hsz. injection Htt as <-. rewrite Ht in Hi.
  apply obind_ok in Hi as (x & Hx & Hi).
  assert (Hmx : sc_map sc = fst x /\ sc_split sc = snd x).
  { destruct (_ =? 0) in Hi; [injection Hi as <-; auto|]. destruct (_ =? 10) in Hi; [injection Hi as <-; auto|discriminate]. }
  destruct Hmx as [Hmx Hsx].
  clear Hi. cbn [SeriTypeToChar] in Hx.
  inversion Han as [main t' n table rst A1 A2 A3 A4 A5 A6|main t' n table n' table' rst A1 A2 A3 A4 A5 A6 A7];
    (destruct (firstn8 size t f rest0 main _ Hsz (eq_trans (eq_sym Hc) (eq_sym ltac:(eassumption))) A1) as [B1 B2]);
    rewrite A2 in B2; injection B2 as ->; rewrite A3 in Hx, Hm; rewrite B1 in A4;
    (assert (main = prefix) as -> by (rewrite Hpr in *; match goal with H : main ++ _ = prefix ++ _ |- _ => apply app_inj_len in H as [-> _]; [reflexivity|unfold len in *; lia] end)).
  - change (0 =? 0) with true in Hx. cbv iota in Hx. apply obind_ok in Hx as ([E q] & HE & Hx). cbn [fst] in Hx. apply obind_ok in Hx as (si & Hsi & [= <-]). cbn [fst] in Hmx. cbn [snd] in Hsx.
    split; [|rewrite Hmx; discriminate]. exists NORMAL. rewrite Hmx, Hsx. split; [tauto|]. assert (rest = n ++ table ++ rst) as ->.
    { rewrite Hpr in A6. apply app_inv_head in A6. now symmetry. }
    rewrite A4, Hpr in HE. assert (HL' : lim c (len (prefix ++ n ++ table ++ rst))) by (rewrite <- Hpr; exact HL).
    rewrite (secondary_vint c prefix n table rst A5 HL') in HE. injection HE as <- <-.
    apply split_sound in Hsi as (l & b & Hl & Hst & Hb & ->); cbn [r_base r_size r_content r_cfg] in *; [|rewrite !len_app; lia|exact HL'].
    replace (len prefix + len n) with (len (prefix ++ n)) in Hst by apply len_app.
    destruct (stands_prefix (prefix ++ n ++ table ++ rst) (prefix ++ n) table rst b) as (junk & ->); [now rewrite <- app_assoc|exact Hst|exact Hb|].
    econstructor; [exact A5|]. apply lsplit_junk. exact Hl.
  - change (1 =? 0) with false in Hx. change (1 =? 1) with true in Hx. cbv iota in Hx.
    apply obind_ok in Hx as ([E q] & HE & Hx). cbn [fst snd] in Hx. apply obind_ok in Hx as (sm & Hsm & Hx).
    apply obind_ok in Hx as ([F q'] & HF & Hx). cbn [fst snd] in Hx. apply obind_ok in Hx as (si & Hsi & [= <-]). cbn [fst] in Hmx. cbn [snd] in Hsx.
    rewrite Hmx, Hsx. assert (rest = n ++ table ++ n' ++ table' ++ rst) as ->.
    { rewrite Hpr in A7. apply app_inv_head in A7. now symmetry. }
    rewrite A4 in HE.
    assert (Hshape1 : content = prefix ++ n ++ table ++ (n' ++ table' ++ rst)) by exact Hpr.
    assert (Hshape2 : content = (prefix ++ n ++ table) ++ n' ++ table' ++ rst) by (rewrite Hpr; now rewrite <- !app_assoc).
    assert (HL1 : lim c (len (prefix ++ n ++ table ++ (n' ++ table' ++ rst)))) by (rewrite <- Hshape1; exact HL).
    assert (HL2 : lim c (len ((prefix ++ n ++ table) ++ n' ++ table' ++ rst))) by (rewrite <- Hshape2; exact HL).
    rewrite Hshape1 in HE at 1. rewrite (secondary_vint c prefix n table _ A5 HL1) in HE. injection HE as <- <-.
    replace (len prefix + len n + len table) with (len (prefix ++ n ++ table)) in HF by (rewrite !len_app; lia).
    rewrite Hshape2 in HF at 1. rewrite (secondary_vint c (prefix ++ n ++ table) n' table' rst A6 HL2) in HF. injection HF as <- <-.
    apply split_sound in Hsi as (l & b & Hl & Hst & Hb & ->); cbn [r_base r_size r_content r_cfg] in *; [|rewrite !len_app; lia|exact HL2].
    replace (len (prefix ++ n ++ table) + len n') with (len ((prefix ++ n ++ table) ++ n')) in Hst by (now rewrite (len_app (prefix ++ n ++ table))).
    destruct (stands_prefix ((prefix ++ n ++ table) ++ n' ++ table' ++ rst) ((prefix ++ n ++ table) ++ n') table' rst b) as (junk & Hj);
      [now rewrite <- !app_assoc|exact Hst|exact Hb|].
    unfold StringMap_Construct in Hsm. apply obind_ok in Hsm as ([cnt s] & Hcnt & Hsm). apply obind_ok in Hsm as (mm & Hmm & [= <-]).
    change {| idx := 0; off := 0 |} with (at_ 0) in Hcnt.
    set (R := {| r_cfg := c; r_content := prefix ++ n ++ table ++ n' ++ table' ++ rst; r_base := len prefix + len n; r_size := len table |}) in *.
    assert (Hin : r_base R + r_size R <= len (r_content R)) by (cbn; rewrite !len_app; lia).
    apply (tparse_sound R Hin HL1) in Hcnt as (cb & Hcv & Hcs & -> & Hcl); [|lia].
    apply (keys_sound R Hin HL1 buf fuel _ _ [] []) in Hmm as (strs & chunks & E1 & E2 & E3 & E4 & E5); [|exact Hcl|constructor].
    rewrite N.add_0_l in *. rewrite N.add_0_r in Hcs. cbn [r_base r_size r_content R] in Hcs, E4, E5.
    destruct (stands_prefix (prefix ++ n ++ table ++ n' ++ table' ++ rst) (prefix ++ n) table (n' ++ table' ++ rst) (cb ++ concat chunks)) as (junk2 & Ht2).
    { now rewrite <- app_assoc. }
    { rewrite len_app. now apply stands_app. }
    { rewrite len_app. lia. }
    assert (HD : ldict strs table) by (rewrite Ht2, <- app_assoc; econstructor; [exact Hcv|symmetry; exact E1|exact E2]).
    assert (HK : Forall2 (fun a e => read_local (root_env c content) (fst a) = Ok (fst e) /\ snd a = snd e) mm (added [] strs)).
    { eapply Forall2_impl; [|exact E3]. intros [v i] [k j]. unfold vref. cbn [fst snd]. unfold read_local. cbn [r_content R root_env].
      now rewrite <- Hshape1. }
    split.
    + exists REPLACE. split; [split; discriminate|].
      eapply pt_replace with (strings := strs); [exact A5|exact HD| |discriminate|exact A6|rewrite Hj; apply lsplit_junk; exact Hl].
      eapply known_reading; [exact Hsane|reflexivity|rewrite <- ?Hshape1; exact HK].
    + intros m [= <-]. split; [reflexivity|]. exists n, table, strs, (n' ++ table' ++ rst). auto.
Qed.

Lemma init_ptables c fuel content buf sc : sane c -> fits c content -> announced content ->
  initFromContent c fuel content buf = Ok sc -> forall prefix rest, content = prefix ++ rest -> len prefix = sc_total sc ->
  exists ty, (ty = NORMAL <-> sc_map sc = None) /\ ptables false ty (known_option c content (sc_map sc)) (si_info (sc_split sc)) rest.
Proof. intros H1 H2 H3 H4 prefix rest H5 H6. now apply (init_ptables_keys c fuel content buf sc H1 H2 H3 H4 prefix rest H5 H6). Qed.

Lemma ptables_ltables clear ty D l rest : ptables clear ty D l rest -> ltables clear ty D rest.
Proof. intros []; econstructor; eauto. Qed.
Lemma ltables_ptables clear ty D rest : ltables clear ty D rest -> exists l, ptables clear ty D l rest.
Proof. intros []; eexists; econstructor; eauto. Qed.

Lemma init_tables c fuel content buf sc : sane c -> fits c content -> announced content ->
  initFromContent c fuel content buf = Ok sc -> forall prefix rest, content = prefix ++ rest -> len prefix = sc_total sc ->
  exists ty, (ty = NORMAL <-> sc_map sc = None) /\ ltables false ty (known_option c content (sc_map sc)) rest.
Proof.
  intros Hsane HL Han Hi prefix rest Hpr Hlen. destruct (init_ptables c fuel content buf sc Hsane HL Han Hi prefix rest Hpr Hlen) as (ty & H1 & H2).
  exists ty. split; [exact H1|]. eapply ptables_ltables; exact H2.
Qed.

(** C73, with the tables: if everything that the sizes announce is present. *)
Theorem C73_accepted_documents : forall c fuel content buf p o, sane c -> fits c content -> announced content ->
  Parse c fuel content buf p sequential = Ok o ->
  exists ty D entries rest,
    lenient_doc (negb (ndebug c)) D ty entries content rest /\ ltables false ty D rest /\ o = meaning p entries.
Proof.
  intros c fuel content buf p o Hsane HL Han H. unfold Parse in H. apply obind_ok in H as (sc & Hsc & H).
  unfold Parse_prog in H. cbn [po_type po_ref] in H.
  destruct (body_sound c fuel content buf p sc o Hsane HL Hsc H) as (ty & entries & rest & Hd & ->).
  exists ty, (known_option c content (sc_map sc)), entries, rest. split; [exact Hd|]. split; [|reflexivity].
  destruct (init_header _ _ _ _ _ Hsc) as (size & t & f & rest0 & Hc & Hsz & Htot & _ & _ & Hm).
  inversion Hd as [size' t' f' body rest' A1 A2 A3 A4 A5 A6 A7 A8]. subst rest'.
  assert (size' = size /\ t' = t) as [-> ->].
  { rewrite Hc in A7. apply app_inj_len in A7 as [-> A7]; [|unfold len in *; lia]. injection A7 as -> _ _. auto. }
  destruct (init_tables c fuel content buf sc Hsane HL Han Hsc (size ++ [t] ++ [f'] ++ body) rest) as (ty' & Hty & HT).
  { rewrite <- A7. now rewrite <- !app_assoc. }
  { rewrite Htot, A2, !len_app, !len_cons, len_nil. lia. }
  replace ty with ty'; [rewrite <- A7 in HT; exact HT|].
  destruct Hm as [[Ht Hmm]|[Ht [m Hmm]]]; rewrite Ht in A3; rewrite Hmm in Hty; destruct ty, ty'; try discriminate A3; try reflexivity;
    exfalso; destruct Hty as [Y1 Y2]; try (now specialize (Y2 eq_refl)); try (now specialize (Y1 eq_refl)).
Qed.

(** Conversely: every document of the grammar is accepted. *)
Lemma init_pcomplete_known c fuel size t f body rest buf ty D splits0 : sane c ->
  let content := size ++ [t] ++ [f] ++ body ++ rest in
  fits c content -> (length content <= fuel)%nat ->
  len size = 8 -> big_endian size = 10 + len body -> b2n t = SeriTypeToChar ty -> (b2n f = 0 \/ b2n f = 10) ->
  ptables true ty D splits0 rest ->
  exists sc, initFromContent c fuel content buf = Ok sc /\ sc_total sc = 10 + len body /\ si_info (sc_split sc) = splits0 /\ sc_need_to_split sc = (b2n f =? 10) /\
    match D with
    | None => sc_map sc = None
    | Some d => exists m, sc_map sc = Some m /\
        (forall id s, d id = Some s -> exists v, getter c (Some m) id = Ok v /\ read_local (root_env c content) v = Ok s) /\
        forall id, known_strings c content m id = d id
    end.
Proof.
  intros Hsane content HL Hfuel Hsz Htot Ht Hf HT. assert (HL' : lim c (len content)) by exact HL.
  assert (Hcd : content = size ++ [t] ++ [f] ++ body ++ rest) by reflexivity. clearbody content.
  assert (Hlen : len content = 10 + len body + len rest) by (rewrite Hcd, !len_app, !len_cons, len_nil; lia).
  set (prefix := size ++ [t] ++ [f] ++ body). assert (Hpr : content = prefix ++ rest) by (unfold prefix; rewrite Hcd; now rewrite <- !app_assoc).
  assert (Hlp : len prefix = 10 + len body) by (unfold prefix; rewrite !len_app, !len_cons, len_nil; lia).
  assert (G : exists m si,
    (if b2n t =? SeriTypeToChar NORMAL then
         obind (secondary_env c content (10 + len body)) (fun x =>
         obind (SplitInfo_Construct (fst x) fuel) (fun si => Ok (None, si)))
       else if b2n t =? SeriTypeToChar REPLACE then
         obind (secondary_env c content (10 + len body)) (fun x =>
         obind (StringMap_Construct (fst x) buf fuel) (fun sm =>
         obind (secondary_env c content (snd x)) (fun y =>
         obind (SplitInfo_Construct (fst y) fuel) (fun si => Ok (Some sm, si)))))
       else Throw ERuntime) = Ok (m, si) /\ si_info si = splits0 /\
    match D with
    | None => m = None
    | Some d => exists m', m = Some m' /\
        (forall id s, d id = Some s -> exists v, getter c (Some m') id = Ok v /\ read_local (root_env c content) v = Ok s) /\
        forall id, known_strings c content m' id = d id
    end).
  { rewrite <- Hlp. destruct HT as [n sb splits junk Hn Hsp|n db strings d n' sb splits junk Hn Hdb Hrd Hun Hn' Hsp]; rewrite Ht; cbn [SeriTypeToChar].
    - change (0 =? 0) with true. cbv iota. rewrite Hpr. rewrite secondary_vint; [|exact Hn|rewrite <- Hpr; exact HL']. cbn [obind fst snd].
      rewrite <- Hpr.
      match goal with |- context [SplitInfo_Construct ?E fuel] => destruct (split_complete E) with (fuel := fuel) (l := splits) (b := sb) as (si & Hsi & Hsl) end; cbn; auto.
      + rewrite Hpr, !len_app. lia.
      + rewrite <- len_app. apply stands_app_mid with (Z := junk). rewrite Hpr. now rewrite <- app_assoc.
      + rewrite Hpr, !app_length in Hfuel. lia.
      + exists None, si. rewrite Hsi. auto.
    - change (1 =? 0) with false. change (1 =? 1) with true. cbv iota.
      assert (Hshape2 : content = (prefix ++ n ++ db) ++ n' ++ sb ++ junk) by (rewrite Hpr; now rewrite <- !app_assoc).
      assert (Hse := secondary_vint c prefix n db (n' ++ sb ++ junk) Hn). rewrite <- Hpr in Hse. rewrite (Hse HL'). clear Hse. cbn [obind fst snd].
      replace (len prefix + len n + len db) with (len (prefix ++ n ++ db)) by (rewrite !len_app; lia).
      set (R := {| r_cfg := c; r_content := content; r_base := len prefix + len n; r_size := len db |}).
      assert (Hin : r_base R + r_size R <= len (r_content R)) by (cbn; rewrite Hpr, !len_app; lia).
      rewrite Hpr, !app_length in Hfuel.
      assert (Hsm : exists m, StringMap_Construct R buf fuel = Ok m /\ sm_re m = None /\ Forall2 (vref R) (sm_map m) (added [] strings)).
      { destruct Hdb as [k cnt chunks jk Hk Hkn HFk].
        assert (Hs : stands content (len prefix + len n) (cnt ++ concat chunks ++ jk)).
        { rewrite <- len_app. apply stands_app_mid with (Z := n' ++ sb ++ junk). rewrite Hpr. now rewrite <- !app_assoc. }
        unfold StringMap_Construct. change {| idx := 0; off := 0 |} with (at_ 0).
        assert (Hsz' : r_size R = len cnt + (len (concat chunks) + len jk)) by (cbn; now rewrite !len_app).
        rewrite !app_length in Hfuel. pose proof (vint_len _ _ Hk).
        rewrite (tparse_complete R Hin HL' 0 k cnt); [|exact Hk|cbn; rewrite N.add_0_r; eapply stands_l; exact Hs|lia]. cbn [obind].
        change (u32 k) with (k mod 2 ^ 32). rewrite Hkn. apply stands_r, stands_l in Hs.
        destruct (keys_complete R Hin HL' buf fuel strings chunks (0 + len cnt) [] []) as (m & -> & Hm).
        - exact HFk.
        - constructor.
        - exact Hs.
        - lia.
        - lia.
        - eexists. split; [reflexivity|]. split; [reflexivity|exact Hm]. }
      destruct Hsm as (m & -> & Hre & HFm). cbn [obind].
      assert (Hse := secondary_vint c (prefix ++ n ++ db) n' sb junk Hn'). rewrite <- Hshape2 in Hse. rewrite (Hse HL'). clear Hse. cbn [obind fst snd].
      match goal with |- context [SplitInfo_Construct ?E fuel] => destruct (split_complete E) with (fuel := fuel) (l := splits) (b := sb) as (si & Hsi & Hsl) end; cbn [r_base r_size r_content r_cfg]; auto.
      + rewrite Hshape2, !len_app. lia.
      + rewrite <- (len_app (prefix ++ n ++ db)). apply stands_app_mid with (Z := junk). rewrite Hshape2. now rewrite <- !app_assoc.
      + lia.
      + exists (Some m), si. rewrite Hsi. split; [reflexivity|]. split; [exact Hsl|]. exists m. split; [reflexivity|].
        destruct (known_reading c content m strings Hsane Hre) as [HR Hk].
        { eapply Forall2_impl; [|exact HFm]. intros [v i] [k j]. unfold vref, read_local. cbn. auto. }
        assert (Heq : forall id, known_strings c content m id = d id).
        { intros id. pose proof (Hrd id) as H1. pose proof (HR id) as H2. destruct (known_strings c content m id) as [s'|], (d id) as [s|]; auto.
          - f_equal. apply (Hun eq_refl s' s id); auto.
          - exfalso. now apply (H1 s').
          - exfalso. now apply (H2 s). }
        split; [|exact Heq]. intros id s Hd. apply Hk. now rewrite Heq. }
  destruct G as (m & si & HG & Hsl & HD). unfold initFromContent, meta_size.
  replace (len content <? 10) with false by lia. unfold ParseTotalSize. replace (len content <? 8) with false by lia.
  assert (firstn 8 content = size) as ->.
  { rewrite Hcd, firstn_app. unfold len in Hsz. rewrite firstn_all2 by lia. replace (8 - length size)%nat with 0%nat by lia. now rewrite firstn_O, app_nil_r. }
  rewrite num_of_wire_any by exact Hsz. cbn [obind]. rewrite Htot.
  assert (nth 8 content x00 = t /\ nth 9 content x00 = f) as [-> ->].
  { rewrite Hcd. unfold len in *. split; rewrite app_nth2 by lia; [replace (8 - length size)%nat with 0%nat by lia|replace (9 - length size)%nat with 1%nat by lia]; reflexivity. }
  rewrite HG. cbn [obind fst snd].
  destruct Hf as [-> | ->]; cbn [N.eqb]; eexists; (split; [reflexivity|]; split; [reflexivity|]; split; [exact Hsl|]; split; [reflexivity|exact HD]).
Qed.

Lemma init_pcomplete c fuel size t f body rest buf ty D splits0 : sane c ->
  let content := size ++ [t] ++ [f] ++ body ++ rest in
  fits c content -> (length content <= fuel)%nat ->
  len size = 8 -> big_endian size = 10 + len body -> b2n t = SeriTypeToChar ty -> (b2n f = 0 \/ b2n f = 10) ->
  ptables true ty D splits0 rest ->
  exists sc, initFromContent c fuel content buf = Ok sc /\ sc_total sc = 10 + len body /\ si_info (sc_split sc) = splits0 /\ sc_need_to_split sc = (b2n f =? 10) /\
    match D with
    | None => sc_map sc = None
    | Some d => exists m, sc_map sc = Some m /\
        forall id s, d id = Some s -> exists v, getter c (Some m) id = Ok v /\ read_local (root_env c content) v = Ok s
    end.
Proof.
  intros Hsane content HL Hfuel Hsz Htot Ht Hf HT.
  destruct (init_pcomplete_known c fuel size t f body rest buf ty D splits0 Hsane HL Hfuel Hsz Htot Ht Hf HT) as (sc & H1 & H2 & H3 & H4 & H5).
  exists sc. repeat (split; [assumption|]). destruct D; [|exact H5]. destruct H5 as (m & Hm & H5 & _). eauto.
Qed.

Lemma init_complete c fuel size t f body rest buf ty D : sane c ->
  let content := size ++ [t] ++ [f] ++ body ++ rest in
  fits c content -> (length content <= fuel)%nat ->
  len size = 8 -> big_endian size = 10 + len body -> b2n t = SeriTypeToChar ty -> (b2n f = 0 \/ b2n f = 10) ->
  ltables true ty D rest ->
  exists sc, initFromContent c fuel content buf = Ok sc /\ sc_total sc = 10 + len body /\
    match D with
    | None => sc_map sc = None
    | Some d => exists m, sc_map sc = Some m /\
        forall id s, d id = Some s -> exists v, getter c (Some m) id = Ok v /\ read_local (root_env c content) v = Ok s
    end.
Proof.
  intros Hsane content HL Hfuel Hsz Htot Ht Hf HT. apply ltables_ptables in HT as (l & HT).
  destruct (init_pcomplete c fuel size t f body rest buf ty D l Hsane HL Hfuel Hsz Htot Ht Hf HT) as (sc & H1 & H2 & _ & _ & H3). eauto.
Qed.

Theorem C73_documents_accepted : forall c fuel content buf p ty D entries rest, sane c -> fits c content ->
  (length content <= fuel)%nat ->
  lenient_doc (negb (ndebug c)) D ty entries content rest -> ltables true ty D rest ->
  Parse c fuel content buf p sequential = Ok (meaning p entries).
Proof.
  intros c fuel content buf p ty D entries rest Hsane HL Hfuel Hd HT.
  destruct Hd as [size t f body rest A1 A2 A3 A4 A5 A6]. set (content := size ++ [t] ++ [f] ++ body ++ rest) in *.
  destruct (init_complete c fuel size t f body rest buf ty D Hsane HL Hfuel A1 A2 A3 A4 HT) as (sc & Hsc & Htot & HD).
  fold content in Hsc, HD. unfold Parse. rewrite Hsc. cbn [obind]. unfold Parse_prog. cbn [po_type po_ref]. unfold NormalParse_prog.
  set (E := doc_env c content buf sc). rewrite run_bind. change {| idx := meta_size; off := meta_size |} with (at_ 10).
  destruct (values_complete E (getter c (sc_map sc)) D p) with (fuel := fuel) as (VC & _ & _); auto.
  { cbn. destruct D as [d|]; [destruct HD as (m & -> & _)|rewrite HD]; reflexivity. }
  { intros d id s -> Hds. destruct HD as (m & -> & HD). apply HD. exact Hds. }
  assert (Hst : stands content 10 body).
  { replace 10 with (len (size ++ [t] ++ [f])) by (rewrite !len_app, !len_cons, len_nil; lia). apply stands_app_mid with (Z := rest).
    unfold content. now rewrite <- !app_assoc. }
  assert (Hlen : len content = 10 + len body + len rest) by (unfold content; rewrite !len_app, !len_cons, len_nil; lia).
  assert (Hr : 0 < len rest) by (destruct rest; [congruence|rewrite len_cons; lia]).
  assert (Hbf : (length body <= fuel)%nat).
  { unfold content in Hfuel. rewrite !app_length in Hfuel. lia. }
  specialize (VC (VMap entries) body 10 A5 Hst). cbn [type_of r_content b_env E doc_env root_env] in VC. rewrite VC; [|lia|exact Hbf].
  cbn [obind off at_]. rewrite Htot, N.eqb_refl. cbn [negb]. rewrite run_lift. cbn [mirror tree_of take_root]. now rewrite take_root_meaning.
Qed.

(** Exactness for plain documents. *)
Theorem C73_plain_documents_exactly : forall c fuel content buf p o, sane c -> fits c content -> (length content <= fuel)%nat ->
  announced content -> b2n (nth 8 content x00) = 0 ->
  Parse c fuel content buf p sequential = Ok o <->
  exists entries rest, lenient_doc (negb (ndebug c)) None NORMAL entries content rest /\ ltables true NORMAL None rest /\ o = meaning p entries.
Proof.
  intros c fuel content buf p o Hsane HL Hfuel Han Hty. split.
  - intros H. destruct (C73_accepted_documents c fuel content buf p o Hsane HL Han H) as (ty & D & entries & rest & Hd & HT & ->).
    assert (ty = NORMAL) as ->.
    { destruct Hd as [size t f body rest A1 A2 A3 A4 A5 A6]. unfold len in A1. rewrite app_nth2 in Hty by lia.
      replace (8 - length size)%nat with 0%nat in Hty by lia. cbn in Hty. rewrite Hty in A3. destruct ty; [reflexivity|discriminate]. }
    inversion HT as [n sb splits junk Hn Hs| ]; subst. exists entries, (n ++ sb ++ junk). split; [exact Hd|]. split; [|reflexivity]. econstructor; eauto.
  - intros (entries & rest & Hd & HT & ->). eapply C73_documents_accepted; eauto.
Qed.

(** ** C74 *)
Lemma lwire_relax D : forall v b strict, lwire strict D v b -> lwire false D v b.
Proof.
  fix IH 4. intros v b strict H. destruct H as [x b Hx|l cnt id i chunks Hc Hi HF|l cnt id i chunks Hc Hi HF].
  - constructor. destruct Hx; constructor; auto. discriminate.
  - econstructor; [exact Hc|exact Hi|]. clear Hc. induction HF as [|v ch vs chs (t & b & Hw & Ht & Hch) HF IHF]; constructor; [|exact IHF].
    exists t, b. split; [exact (IH _ _ _ Hw)|auto].
  - econstructor; [exact Hc|exact Hi|]. clear Hc. induction HF as [|v ch vs chs (kb & t & b & Hk & Hw & Ht & Hch) HF IHF]; constructor; [|exact IHF].
    exists kb, t, b. split; [exact Hk|]. split; [exact (IH _ _ _ Hw)|auto].
Qed.

(** The bytes of a plain document have at most one meaning. *)
Lemma lenient_unique s1 s2 entries1 entries2 content rest1 rest2 p : fits x86_release content ->
  lenient_doc s1 None NORMAL entries1 content rest1 -> lenient_doc s2 None NORMAL entries2 content rest2 ->
  meaning p entries1 = meaning p entries2.
Proof.
  intros HL H1 H2.
  assert (G : forall s entries rest, lenient_doc s None NORMAL entries content rest -> exists body, lwire false None (VMap entries) body /\ stands content 10 body /\
    10 + len body < len content).
  { intros s entries rest H. destruct H as [size t f body rest A1 A2 A3 A4 A5 A6]. exists body. split; [eapply lwire_relax; exact A5|]. split.
    - replace 10 with (len (size ++ [t] ++ [f])) by (rewrite !len_app, !len_cons, len_nil; lia). apply stands_app_mid with (Z := rest). now rewrite <- !app_assoc.
    - rewrite !len_app, !len_cons, len_nil. destruct rest; [congruence|rewrite len_cons; lia]. }
  destruct (G _ _ _ H1) as (b1 & W1 & S1 & L1). destruct (G _ _ _ H2) as (b2 & W2 & S2 & L2).
  set (E := doc_env x86_release content 0 {| sc_map := None; sc_split := si_empty; sc_need_to_split := false; sc_total := 0 |}).
  set (fuel := (length b1 + length b2)%nat).
  destruct (values_complete E (fun _ => UB) None p) with (fuel := fuel) as (VC & _ & _); auto.
  { discriminate. }
  pose proof (VC _ _ 10 W1 S1 L1 ltac:(unfold fuel; lia)) as R1. pose proof (VC _ _ 10 W2 S2 L2 ltac:(unfold fuel; lia)) as R2.
  cbn [type_of] in R1, R2. rewrite R1 in R2. cbn [mirror tree_of] in R2. injection R2 as _ R2 _.
  rewrite <- (take_root_meaning p entries1), <- (take_root_meaning p entries2). now rewrite R2.
Qed.

(** C74.  Two builds (byte order, debug or release, hash order, char signedness)
    that accept the same plain bytes return the same object - hostile bytes included. *)
Theorem C74_platforms_agree : forall c1 c2 fuel1 fuel2 content buf1 buf2 p o1 o2,
  sane c1 -> sane c2 -> fits c1 content -> fits c2 content -> b2n (nth 8 content x00) = 0 ->
  Parse c1 fuel1 content buf1 p sequential = Ok o1 -> Parse c2 fuel2 content buf2 p sequential = Ok o2 -> o1 = o2.
Proof.
  intros c1 c2 fuel1 fuel2 content buf1 buf2 p o1 o2 Hs1 Hs2 HL1 HL2 Hty H1 H2.
  destruct (C73_accepted_means _ _ _ _ _ _ Hs1 HL1 H1) as (ty1 & D1 & e1 & r1 & T1 & Hd1 & ->).
  destruct (C73_accepted_means _ _ _ _ _ _ Hs2 HL2 H2) as (ty2 & D2 & e2 & r2 & T2 & Hd2 & ->).
  assert (G : forall s D ty e r, lenient_doc s D ty e content r -> ty = NORMAL).
  { intros s D ty e r H. destruct H as [size t f body rest A1 A2 A3 A4 A5 A6]. unfold len in A1. rewrite app_nth2 in Hty by lia.
    replace (8 - length size)%nat with 0%nat in Hty by lia. cbn in Hty. rewrite Hty in A3. destruct ty; [reflexivity|discriminate]. }
  pose proof (G _ _ _ _ _ Hd1) as ->. pose proof (G _ _ _ _ _ Hd2) as ->.
  rewrite (proj1 T1 eq_refl) in Hd1. rewrite (proj1 T2 eq_refl) in Hd2.
  eapply lenient_unique; [|exact Hd1|exact Hd2]. unfold fits in *. change (2 ^ 31) with 2147483648 in *. change (2 ^ 32) with 4294967296 in *. cbn. destruct (ndebug c1); lia.
Qed.

(** A release build accepts whatever a debug build accepts (plain documents with
    complete tables). *)
Theorem C74_release_accepts : forall c1 c2 fuel1 fuel2 content buf1 buf2 p o,
  sane c1 -> sane c2 -> fits c1 content -> fits c2 content -> ndebug c2 = true -> announced content -> b2n (nth 8 content x00) = 0 ->
  (length content <= fuel2)%nat ->
  Parse c1 fuel1 content buf1 p sequential = Ok o -> Parse c2 fuel2 content buf2 p sequential = Ok o.
Proof.
  intros c1 c2 fuel1 fuel2 content buf1 buf2 p o Hs1 Hs2 HL1 HL2 Hnd Han Hty Hfuel H.
  destruct (C73_accepted_documents _ _ _ _ _ _ Hs1 HL1 Han H) as (ty & D & entries & rest & Hd & HT & ->).
  assert (ty = NORMAL) as ->.
  { destruct Hd as [size t f body rest A1 A2 A3 A4 A5 A6]. unfold len in A1. rewrite app_nth2 in Hty by lia.
    replace (8 - length size)%nat with 0%nat in Hty by lia. cbn in Hty. rewrite Hty in A3. destruct ty; [reflexivity|discriminate]. }
  inversion HT as [n sb splits junk Hn Hs| ]; subst. apply C73_documents_accepted with (ty := NORMAL) (D := None) (rest := n ++ sb ++ junk); auto.
  - destruct Hd as [size t f body rest A1 A2 A3 A4 A5 A6]. rewrite Hnd. constructor; eauto. eapply lwire_relax; exact A5.
  - econstructor; eauto.
Qed.

(** ** C75 *)
Lemma store_of_inj x y : store_of x = store_of y -> x = y.
Proof. destruct x as [| | |[]], y as [| | |[]]; cbn; intros H; try discriminate; injection H; intros; subst; reflexivity. Qed.

Lemma tree_denotes mem P p v : well_formed P false (tree_of p v) -> denotes mem (tree_of p v) v.
Proof.
  induction v as [x|l IH|l IH] using value_ind'; cbn [tree_of]; intros H; inversion H; subst.
  - match goal with H : data_denotes _ _ ?y |- _ => rename H into Hx; assert (y = x) as -> end.
    { apply data_store in Hx. apply store_of_inj. rewrite <- Hx. now destruct (store_of x). }
    now constructor.
  - constructor; [now rewrite len_rev, len_map|]. rewrite <- map_rev.
    assert (HW : Forall (fun v => well_formed P false (tree_of p v)) (rev l)).
    { match goal with H : Forall _ (rev _) |- _ => rewrite <- map_rev, Forall_map in H; exact H end. }
    apply Forall_rev in IH. revert IH HW. clear. induction (rev l) as [|v w IHw]; cbn; intros IH HW; [constructor|].
    inversion IH; inversion HW; subst. constructor; auto.
  - constructor; [now rewrite len_map|].
    match goal with H : Forall _ (map _ _) |- _ => rewrite Forall_map in H; rename H into HW end. cbn in HW.
    revert IH HW. clear. induction l as [|[k v] w IHw]; cbn; intros IH HW; [constructor|].
    inversion IH; inversion HW; subst. constructor; auto.
Qed.

(** Serialize after a sequential parse, twice. *)
Lemma parsed_again c fuel content buf p o : sane c -> fits c content ->
  Parse c fuel content buf p sequential = Ok o -> o <> ONull ->
  exists w, o = tree_of p w /\ forall mem, denotes mem o w.
Proof.
  intros Hs HL H Hn. destruct (C73_accepted_means _ _ _ _ _ _ Hs HL H) as (ty & D & entries & rest & _ & _ & Ho).
  unfold meaning in Ho. destruct (last_root entries) as [v|]; [|contradiction]. exists (mirror v). split; [exact Ho|].
  intros mem. apply C16_result_well_formed in H as [H|H]; [contradiction|]. cbn [po_ref] in H. rewrite Ho in *. eapply tree_denotes. exact H.
Qed.

(** C75.  Whatever was accepted - padded numbers, wrong marks, duplicate keys and
    all - can be written out again in canonical form, by any build and in either
    format; reading that and writing it again, and reading once more gives back
    the very object that the original bytes gave. *)
Theorem C75_normalisation : forall c fuel content buf p o,
  sane c -> fits c content -> Parse c fuel content buf p sequential = Ok o -> o <> ONull ->
  forall cs1 cs2 cp1 cp2 mem ty1 ty2, sane cs1 -> sane cs2 -> sane cp1 -> sane cp2 ->
  exists content1, Serialize cs1 mem ty1 p o = Ok content1 /\
   (fits cp1 content1 ->
    exists o1, Parse cp1 (length content1) content1 buf p sequential = Ok o1 /\
    exists content2, Serialize cs2 mem ty2 p o1 = Ok content2 /\
    (fits cp2 content2 -> Parse cp2 (length content2) content2 buf p sequential = Ok o)).
Proof.
  intros c fuel content buf p o Hc HL HP Hn cs1 cs2 cp1 cp2 mem ty1 ty2 H1 H2 H3 H4.
  destruct (parsed_again _ _ _ _ _ _ Hc HL HP Hn) as (w & -> & Hd).
  destruct (Serialize_document cs1 mem ty1 p (tree_of p w) w H1 (Hd mem)) as (content1 & Hs1 & _).
  exists content1. split; [exact Hs1|]. intros Hf1.
  destruct (C21_two_round_trips cs1 cp1 cs2 cp2 mem ty1 ty2 p p p (tree_of p w) w content1 buf (length content1) false Normal) as (o1 & HP1 & HH); auto; [discriminate|].
  exists o1. split; [exact HP1|]. destruct (HH mem) as (Hd1 & content2 & Hs2 & HH2); [discriminate|]. exists content2. split; [exact Hs2|]. intros Hf2.
  destruct (HH2 buf (length content2) false Hf2 (le_n _) ltac:(discriminate)) as (o2 & HP2 & Hd2). rewrite HP2. f_equal.
  destruct (parsed_again cp2 _ _ _ _ _ H4 Hf2 HP2) as (w2 & -> & _).
  { intros ->. specialize (Hd2 mem ltac:(discriminate)). inversion Hd2. }
  pose proof (Hd2 mem ltac:(discriminate)) as Hd3. apply C16_result_well_formed in HP2 as [HP2|HP2]; [rewrite HP2 in Hd3; inversion Hd3|].
  f_equal. cbn [po_ref] in HP2. apply (tree_denotes mem) in HP2. eapply denotes_fun; eauto.
Qed.

(** ** The hypotheses are met *)

(** Padded numbers, arbitrary marks and container ids, a number of two bytes, the
    root given twice, and three bytes of junk. *)
Definition odd_body : bytes :=
  str [130; 0] ++ str [5] ++
  concat [ (str [132; 0] ++ root_key) ++ n2b 128 :: (n2b 3 :: str [130; 0] ++ str [1; 2]);
           (str [4] ++ root_key) ++ n2b 2 :: (str [1] ++ str [137; 1] ++ concat [ n2b 0 :: n2b 1 :: str [1] ++ str [65] ]) ].
Definition odd_rest : bytes := str [130; 0] ++ str [0; 7] ++ str [9; 9].
Definition odd_entries : list (bytes * value) :=
  [ (root_key, VScalar (VNum U32 16908288)); (root_key, VArr [VScalar (VStr (str [65]))]) ].
Definition odd_doc : bytes := be_bytes 8 (10 + len odd_body) ++ [n2b 0] ++ [n2b 0] ++ odd_body ++ odd_rest.

Lemma vint1 b : b2n b < 128 -> vint (b2n b) [b].
Proof. intros H. exists (b2n b). split; [now constructor|]. split; [vm_compute; discriminate|]. symmetry. apply N.mod_small. change (2 ^ 64) with 18446744073709551616. lia. Qed.
Lemma vint2 a b : 128 <= b2n a -> b2n b < 128 -> vint (b2n a - 128 + 128 * b2n b) [a; b].
Proof.
  intros H H'. exists (b2n a - 128 + 128 * b2n b). split; [constructor; [exact H|now constructor]|]. split; [vm_compute; discriminate|]. symmetry. apply N.mod_small.
  change (2 ^ 64) with 18446744073709551616. pose proof (b2n_lt a). lia.
Qed.
Ltac vint_tac := match goal with |- vint _ ?l => let l' := eval vm_compute in l in
    match l' with
    | [?b] => exact (vint1 b ltac:(vm_compute; reflexivity))
    | [?a; ?b] => exact (vint2 a b ltac:(vm_compute; discriminate) ltac:(vm_compute; reflexivity))
    end end.

Example C73_met : lenient_doc false None NORMAL odd_entries odd_doc odd_rest /\ ltables true NORMAL None odd_rest /\ announced odd_doc /\
  Parse x86_release 100 odd_doc 7 p1 sequential = Ok (OArray p1 1 [OData 1 (SStr (str [65]))]) /\
  meaning p1 odd_entries = OArray p1 1 [OData 1 (SStr (str [65]))] /\
  (forall o, Parse x86_debug 100 odd_doc 7 p1 sequential <> Ok o).
Proof.
  assert (Hv1 : vint 2 (str [130; 0])) by vint_tac. assert (Hv2 : vint 4 (str [132; 0])) by vint_tac.
  split; [|split; [|split; [|split; [|split]]]].
  - unfold odd_doc. constructor; try reflexivity; [now left| |discriminate].
    apply lw_map with (i := 5); [exact Hv1|vint_tac|]. constructor; [|constructor; [|constructor]].
    + exists (str [132; 0] ++ root_key), (n2b 128), (n2b 3 :: str [130; 0] ++ str [1; 2]). split; [constructor; [reflexivity|exact Hv2]|].
      split; [|split; reflexivity]. constructor. exact (lx_num false None U32 (str [1; 2]) (str [130; 0]) Hv1 ltac:(vm_compute; discriminate) ltac:(discriminate)).
    + eexists (str [4] ++ root_key), (n2b 2), _. split; [constructor; [reflexivity|vint_tac]|]. split; [|split; reflexivity].
      apply lw_arr with (i := 137); [vint_tac|vint_tac|]. constructor; [|constructor]. exists (n2b 0), (n2b 1 :: str [1] ++ str [65]).
      split; [|split; reflexivity]. constructor. apply lx_str. constructor; [reflexivity|vint_tac].
  - eapply (lt_normal true _ _ []); [exact Hv1|]. apply (lsplit_ [] 0 (str [0]) [] (str [7])); [vint_tac|reflexivity|constructor|constructor].
  - eapply (an_normal (be_bytes 8 (10 + len odd_body) ++ [n2b 0] ++ [n2b 0] ++ odd_body) (n2b 0) (str [130; 0]) (str [0; 7]) (str [9; 9]));
      [vm_compute; discriminate|reflexivity|reflexivity|reflexivity|exact Hv1].
  - vm_compute. reflexivity.
  - vm_compute. reflexivity.
  - intros o. vm_compute. discriminate.
Qed.

(** The same, with the number in full: accepted by both builds (C74), and its
    canonical form (C75). *)
Definition odd_doc2 : bytes :=
  hdr 27 0 10 ++ str [129; 0; 5; 132; 0] ++ root_key ++ str [128; 3; 132; 0; 1; 2; 3; 4] ++ str [1; 0; 9].
Example C74_met : announced odd_doc2 /\ b2n (nth 8 odd_doc2 x00) = 0 /\
  Parse x86_debug 100 odd_doc2 7 p1 sequential = Ok (OData 3 (SNum U32 16909060)) /\
  Parse tiny_big_endian 100 odd_doc2 7 p1 sequential = Ok (OData 3 (SNum U32 16909060)).
Proof.
  split; [|vm_compute; auto].
  eapply (an_normal (hdr 27 0 10 ++ str [129; 0; 5; 132; 0] ++ root_key ++ str [128; 3; 132; 0; 1; 2; 3; 4]) (n2b 0) (str [1]) (str [0]) (str [9]));
    [vm_compute; discriminate|reflexivity|reflexivity|reflexivity|vint_tac].
Qed.
