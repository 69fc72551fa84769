(** * C91: which inputs make the sequential copying parser leave its buffers. *)
From Verif Require Import Base BaseLemmas ModelVarint ModelData ModelSecondary ModelObject
  ModelParse ModelWrapper Spec SpecApi VarintProofs Wire Lenient Overrun NumProofs SeriProofs SeriProofs2 DocProofs ObjInd ParseLemmas
  NormalProofs GeneralProofs Samples PropDocument FrameProofs TermProofs LenientProofs LenientTables PropLenient PropInsitu InsituSim InsituBack OverrunProofs PropHostile.
From Coq Require Import ZifyBool ZifyNat ZifyN.

Section Tables.
  Variable R : renv.
  Notation content := (r_content R).
  Notation B := (r_base R).
  Hypothesis Hin : B + r_size R <= len content.
  Hypothesis Hlim : lim (r_cfg R) (len content).
  Hypothesis Hshort : short_numbers content.

  Lemma numbers_defined fuel : forall n s acc, parse_numbers R fuel n s acc <> UB.
  Proof.
    induction fuel as [|f IH]; intros n s acc; cbn [parse_numbers]; [discriminate|]. destruct (n =? 0); [discriminate|].
    intros H. apply obind_ub in H as [H|([v s1] & _ & H)]; [now apply parseLength_defined in H|now apply IH in H].
  Qed.
  Lemma rows_defined fuel : forall n s acc, si_construct_loop R fuel n s acc <> UB.
  Proof.
    induction fuel as [|f IH]; intros n s acc; cbn [si_construct_loop]; [discriminate|]. destruct (n =? 0); [discriminate|].
    intros H. apply obind_ub in H as [H|([v s1] & _ & H)]; [now apply parseLength_defined in H|].
    apply obind_ub in H as [H|([w s2] & _ & H)]; [now apply parseLength_defined in H|].
    apply obind_ub in H as [H|([l s3] & _ & H)]; [now apply numbers_defined in H|].
    destruct (assoc_find _ _ _); [discriminate|now apply IH in H].
  Qed.
  Lemma split_defined fuel : SplitInfo_Construct R fuel <> UB.
  Proof.
    unfold SplitInfo_Construct. intros H. apply obind_ub in H as [H|([v s1] & _ & H)]; [now apply parseLength_defined in H|].
    now apply rows_defined in H.
  Qed.

  Lemma view_find_defined k acc : Forall (fun a : view * N => exists b, read_local R (fst a) = Ok b) acc -> exists r, view_find R k acc = Ok r.
  Proof.
    induction 1 as [|[v i] acc (b & Hb) HF (r & IH)]; cbn [view_find]; [eauto|]. cbn [fst] in Hb. rewrite Hb. cbn [obind].
    destruct (bytes_eqb k b); eauto.
  Qed.

  Lemma keys_defined buf fuel : forall n i acc, i <= r_size R -> Forall (fun a : view * N => exists b, read_local R (fst a) = Ok b) acc ->
    sm_construct_loop R buf fuel n (at_ i) acc <> UB.
  Proof.
    induction fuel as [|f IH]; intros n i acc Hi HA H; cbn [sm_construct_loop] in H; [discriminate|]. destruct (n =? 0); [discriminate|].
    pose proof (tHW R Hlim) as HW.
    apply obind_ub in H as [H|([kl s1] & Ht & H)]; [now apply parseLength_defined in H|].
    assert (Hkl : kl < 2 ^ 63).
    { pose proof (short_tame (r_cfg R) content B (r_size R) Hshort) as HT. apply (HT (at_ i) kl s1). destruct R; exact Ht. }
    apply (tparse_sound R Hin Hlim) in Ht as (b & Hv & Hs & -> & Hl); [|exact Hi].
    apply obind_ub in H as [H|(a & Ha & H)]; [unfold curAddr in H; destruct (_ <=? _); discriminate|].
    unfold curAddr in Ha. cbn [idx at_] in Ha.
    destruct (N.leb_spec (r_size R) (i + len b)) as [|Hlt]; [discriminate|]. injection Ha as <-.
    assert (Hs2 : skip kl (add_off kl (at_ (i + len b))) = at_ (i + len b + kl)).
    { unfold skip, add_off, at_. cbn. rewrite u64_small by (rewrite W64_val; lia). reflexivity. }
    rewrite Hs2 in H.
    apply obind_ub in H as [H|([id s3] & Ht & H)]; [now apply parseLength_defined in H|].
    assert (Hle : i + len b + kl < r_size R).
    { unfold parseLength in Ht. apply obind_ok in Ht as ([] & He & Ht). apply obind_ok in Ht as (a & Ha & _). unfold curAddr in Ha. cbn [idx at_] in Ha.
      destruct (N.leb_spec (r_size R) (i + len b + kl)) as [|]; [discriminate|lia]. }
    apply (tparse_sound R Hin Hlim) in Ht as (b3 & Hv3 & Hs3 & -> & Hl3); [|lia].
    set (v := {| v_buf := buf; v_off := B + (i + len b); v_len := kl |}) in H.
    assert (exists k, read_local R v = Ok k) as (k & Hk).
    { unfold read_local, read_range, v. cbn [v_off v_len]. destruct (_ =? 0); [eauto|]. replace (B + (i + len b) + kl <=? len content + 1) with true by lia. eauto. }
    rewrite Hk in H. cbn [obind] in H. destruct (view_find_defined k acc HA) as (r & Hr). rewrite Hr in H. cbn [obind] in H.
    apply IH in H; [exact H|exact Hl3|]. destruct r; [exact HA|]. apply Forall_app. split; [exact HA|]. constructor; [|constructor]. cbn [fst]. eauto.
  Qed.

  Lemma map_defined buf fuel : StringMap_Construct R buf fuel <> UB.
  Proof.
    unfold StringMap_Construct. change {| idx := 0; off := 0 |} with (at_ 0). intros H. apply obind_ub in H as [H|([v s1] & Ht & H)]; [now apply parseLength_defined in H|].
    apply (tparse_sound R Hin Hlim) in Ht as (b & Hv & Hs & -> & Hl); [|lia].
    apply obind_ub in H as [H|(l & _ & H)]; [|discriminate]. apply keys_defined in H; [exact H|exact Hl|constructor].
  Qed.
End Tables.

(** The tables of a document whose announced parts are there are read without
    leaving the buffer. *)
Lemma init_defined c fuel content buf : fits c content -> announced content -> short_numbers content ->
  initFromContent c fuel content buf <> UB.
Proof.
  intros HL Han Hsh H. assert (HL' : lim c (len content)) by exact HL.
  unfold initFromContent, meta_size in H. destruct (N.ltb_spec (len content) 10) as [|Hl]; [discriminate|].
  destruct (split10 content) as (size & t & f & rest & Hc & Hs & H8 & Ht & Hf); [lia|].
  unfold ParseTotalSize in H. replace (len content <? 8) with false in H by lia. cbn [obind] in H.
  rewrite H8, num_of_wire_any in H by exact Hs. rewrite Ht, Hf in H. cbn [SeriTypeToChar] in H.
  apply obind_ub in H as [H|(x & _ & H)].
  2:{ destruct (_ =? 0) in H; [discriminate|]. destruct (_ =? 10) in H; discriminate. }
  inversion Han as [main t' n table rst A1 A2 A3 A4 A5 A6|main t' n table n' table' rst A1 A2 A3 A4 A5 A6 A7];
    (destruct (firstn8 size t f rest main _ Hs (eq_trans (eq_sym Hc) (eq_sym ltac:(eassumption))) A1) as [B1 B2]);
    rewrite A2 in B2; injection B2 as ->; rewrite A3 in H; rewrite B1 in A4; rewrite A4 in H.
  - change (0 =? 0) with true in H. cbv iota in H. rewrite <- A6 in H, HL', Hsh.
    rewrite (secondary_vint c main n table rst A5 HL') in H. cbn [obind fst] in H.
    apply obind_ub in H as [H|(? & _ & H)]; [|discriminate]. apply split_defined in H; [exact H|cbn; rewrite !len_app; lia|exact Hsh].
  - change (1 =? 0) with false in H. change (1 =? 1) with true in H. cbv iota in H.
    assert (Hshape2 : content = (main ++ n ++ table) ++ n' ++ table' ++ rst) by (rewrite <- A7; now rewrite <- !app_assoc).
    assert (Hse := secondary_vint c main n table (n' ++ table' ++ rst) A5). rewrite A7 in Hse. rewrite (Hse HL') in H. cbn [obind fst snd] in H.
    apply obind_ub in H as [H|(m & _ & H)].
    { apply map_defined in H; [exact H|cbn; rewrite <- A7, !len_app; lia|exact HL'|exact Hsh]. }
    replace (len main + len n + len table) with (len (main ++ n ++ table)) in H by (rewrite !len_app; lia).
    assert (Hse2 := secondary_vint c (main ++ n ++ table) n' table' rst A6). rewrite <- Hshape2 in Hse2. rewrite (Hse2 HL') in H. cbn [obind fst snd] in H.
    apply obind_ub in H as [H|(? & _ & H)]; [|discriminate]. apply split_defined in H; [exact H|cbn; rewrite Hshape2, !len_app; lia|exact Hsh].
Qed.

Notation normal_scheduler r := {| po_type := Normal; po_ref := r |}.

(** What the body needs from the tables. *)
Lemma body_harm h c fuel content buf p sc D r : sane c -> fits c content -> small_numbers content -> (length content <= fuel)%nat ->
  initFromContent c fuel content buf = Ok sc ->
  match sc_map sc, D with
  | None, None => True
  | Some m, Some d => forall id, known_strings c content m id = d id
  | _, _ => False
  end ->
  run (getter c (sc_map sc)) (Parse_prog c fuel content buf p (normal_scheduler r) sc) = out h <-> harms (negb r) (negb (ndebug c)) D content h TMap 10.
Proof.
  intros Hsane HL Hsh Hfuel Hi HD.
  destruct (init_header _ _ _ _ _ Hi) as (size & t & f & rest0 & Hc & Hsz & _).
  assert (H10 : 10 <= len content) by (rewrite Hc; rewrite !len_app, Hsz, !len_cons, len_nil; lia).
  unfold Parse_prog. cbn [po_type po_ref]. unfold NormalParse_prog. set (E := doc_env c content buf sc).
  assert (Hmap : ModelParse.b_map E = match D with Some _ => true | None => false end).
  { cbn. destruct (sc_map sc), D; try contradiction; reflexivity. }
  assert (G1 : forall d id v s, D = Some d -> getter c (sc_map sc) id = Ok v -> read_local (b_env E) v = Ok s -> d id = Some s).
  { intros d id v s -> Hg Hr. destruct (sc_map sc) as [m|]; [|contradiction]. rewrite <- HD. unfold known_strings. rewrite Hg.
    change (b_env E) with (root_env c content) in Hr. now rewrite Hr. }
  assert (G2 : forall d id s, D = Some d -> d id = Some s -> exists v, getter c (sc_map sc) id = Ok v /\ read_local (b_env E) v = Ok s /\ v_buf v = b_buf E).
  { intros d id s -> Hd. assert (exists m, sc_map sc = Some m) as (m & Hm) by (destruct (sc_map sc); [eauto|contradiction]). rewrite Hm in HD.
    rewrite <- HD in Hd. unfold known_strings in Hd. rewrite Hm.
    destruct (getter c (Some m) id) as [v| | | |] eqn:Hg; try discriminate. exists v. split; [reflexivity|]. change (b_env E) with (root_env c content).
    split; [destruct (read_local _ v); try discriminate; congruence|]. rewrite <- Hm in Hg. now destruct (getter_view _ _ _ _ _ _ _ Hsane Hi Hg). }
  assert (G3 : D <> None -> forall id, (forall h', getter c (sc_map sc) id <> out h') /\ forall v, getter c (sc_map sc) id = Ok v -> exists s, read_local (b_env E) v = Ok s).
  { intros HN id. split.
    - destruct (sc_map sc) as [m|]; [|destruct D; [contradiction|congruence]]. cbn [getter]. unfold GetStr. intros [|]; destruct (assoc_find _ _ _); discriminate.
    - intros v Hg. now apply (getter_view _ _ _ _ _ _ _ Hsane Hi) in Hg. }
  rewrite run_bind. change {| idx := meta_size; off := meta_size |} with (at_ 10). split.
  - intros H. apply obind_out in H as [H|([o s] & Hv & H)].
    + destruct (values_out E (getter c (sc_map sc)) D p r eq_refl eq_refl HL Hmap G1 G2 G3 Hsh h fuel) as (VU & _ & _). apply VU in H; [exact H|exact H10].
    + exfalso. destruct (negb (off s =? _)); [now apply throw_out in H|]. rewrite run_lift in H. destruct r.
      * destruct (values_back E (getter c (sc_map sc)) p eq_refl eq_refl HL) with (fuel := fuel) as (VB & _ & _).
        { intros id v Hg. exact (getter_view _ _ _ _ _ _ _ Hsane Hi Hg). }
        { exact (tame_small E eq_refl eq_refl HL Hsh). }
        apply VB in Hv as (oc & j & Hv & He & _); [|exact H10].
        destruct (values_sound E (getter c (sc_map sc)) D p eq_refl eq_refl HL Hmap G1 fuel) as (VS & _ & _).
        apply VS in Hv as (v & b & Hty & _ & _ & _ & _ & ->); [|exact H10]. destruct v; try discriminate Hty.
        cbn [mirror tree_of] in He. inversion He; subst. cbn [take_root] in H. apply obind_out in H as [H|(? & _ & H)]; [|now apply ok_out in H].
        match goal with HF : Forall2 _ _ _ |- _ => clear - HF H; revert H; induction HF as [|[v o] [k w] a b (A1 & A2 & A3) HF IH]; cbn [MapView_take]; [intros H; first [now apply throw_out in H|now apply ok_out in H]|] end.
        cbn [fst snd] in *. intros H. unfold read_view in H. cbn [b_env E doc_env root_env r_content] in *. rewrite A2 in H. cbn [obind] in H.
        destruct (bytes_eqb _ _); [now apply ok_out in H|]. apply obind_out in H as [H|([? ?] & _ & H)]; [now apply IH|now apply ok_out in H].
      * destruct (values_sound E (getter c (sc_map sc)) D p eq_refl eq_refl HL Hmap G1 fuel) as (VS & _ & _).
        apply VS in Hv as (v & b & Hty & _ & _ & _ & _ & ->); [|exact H10]. destruct v; try discriminate Hty; cbn [mirror tree_of take_root] in H; now apply ok_out in H || now apply throw_out in H.
  - intros H. rewrite (harms_out E (getter c (sc_map sc)) D p r eq_refl eq_refl HL Hmap G1 G2 G3 h TMap 10 H); [apply out_bind|].
    change (r_content (b_env E)) with content. lia.
Qed.

Lemma vints_short content : short_numbers content -> small_numbers content.
Proof.
  intros H i n j (b & (m & Hg & _ & ->) & (A & B & Hc & HA) & _).
  assert (Hb : (length b <= 9)%nat).
  { assert (HF : forall x l, b = x ++ l -> l <> [] -> Forall (fun y => 128 <= b2n y) x).
    { clear - Hg. induction Hg as [y Hy|y b m Hy Hg IH]; intros x l E Hl.
      - destruct x as [|? [|]]; [constructor| |]; cbn in E; injection E as -> E; [subst l; congruence|discriminate].
      - destruct x as [|z x]; [constructor|]. cbn in E. injection E as -> E. constructor; [lia|]. eapply IH; eauto. }
    destruct (Nat.le_gt_cases (length b) 9) as [|Hgt]; [assumption|exfalso].
    destruct (H (length A)) as (k & Hk & Hlt). rewrite Hc in Hlt. rewrite app_nth2 in Hlt by lia. replace (length A + k - length A)%nat with k in Hlt by lia.
    rewrite app_nth1 in Hlt by lia.
    specialize (HF (firstn 9 b) (skipn 9 b) (eq_sym (firstn_skipn 9 b))). rewrite Forall_forall in HF.
    assert (Hne : skipn 9 b <> []) by (intros E; apply (f_equal (@length byte)) in E; rewrite skipn_length in E; cbn in E; lia).
    specialize (HF Hne (nth k b x00)). cbn beta in HF. enough (In (nth k b x00) (firstn 9 b)) by (apply HF in H0; lia).
    rewrite <- (firstn_skipn 9 b) at 1. rewrite app_nth1 by (rewrite firstn_length; lia). apply nth_In. rewrite firstn_length. lia. }
  assert (m < 2 ^ (7 * len b)).
  { clear - Hg. induction Hg as [y Hy|y b m Hy Hg IH].
    - rewrite len_cons, len_nil. change (2 ^ (7 * (1 + 0))) with 128. lia.
    - rewrite len_cons. replace (7 * (1 + len b)) with (7 + 7 * len b) by lia. rewrite N.pow_add_r. change (2 ^ 7) with 128. pose proof (b2n_lt y). lia. }
  assert (2 ^ (7 * len b) <= 2 ^ 63) by (apply N.pow_le_mono_r; unfold len; lia). rewrite N.mod_small; [lia|].
  change (2 ^ 63) with 9223372036854775808 in *. change (2 ^ 64) with 18446744073709551616. lia.
Qed.

(** A document with a well-formed header and well-formed tables. *)
Definition framed (content : bytes) (ty : SeriType) (D : option (N -> option bytes)) : Prop :=
  exists size t f body rest, content = size ++ [t] ++ [f] ++ body ++ rest /\
    len size = 8 /\ big_endian size = 10 + len body /\ b2n t = SeriTypeToChar ty /\ (b2n f = 0 \/ b2n f = 10) /\ ltables true ty D rest.

Lemma framed_harm h c fuel content buf p r ty D :
  sane c -> fits c content -> small_numbers content -> (length content <= fuel)%nat -> framed content ty D ->
  Parse c fuel content buf p (normal_scheduler r) = out h <-> harms (negb r) (negb (ndebug c)) D content h TMap 10.
Proof.
  intros Hsane HL Hsh Hfuel (size & t & f & body & rest & -> & Hsz & Htot & Ht & Hf & HT). apply ltables_ptables in HT as (l & HT).
  destruct (init_pcomplete_known c fuel size t f body rest buf ty D l Hsane HL Hfuel Hsz Htot Ht Hf HT) as (sc & H1 & H2 & _ & _ & H3).
  unfold Parse. rewrite H1. cbn [obind]. apply body_harm; auto. destruct D as [d|].
  - destruct H3 as (m & -> & _ & H3). exact H3.
  - rewrite H3. exact I.
Qed.

(** C91.  On a document with a well-formed header and well-formed tables, the
    sequential parser (copying or in place) runs into undefined behaviour exactly if the
    body contains one of the undefined spots. *)
Theorem C91_exactly : forall c fuel content buf p r ty D,
  sane c -> fits c content -> small_numbers content -> (length content <= fuel)%nat -> framed content ty D ->
  Parse c fuel content buf p (normal_scheduler r) = UB <-> harms (negb r) (negb (ndebug c)) D content Undefined TMap 10.
Proof. intros. now apply (framed_harm Undefined c fuel content buf p r ty D). Qed.

(** And on every document whose announced parts are there: no other input does. *)
Theorem C91_only : forall c fuel content buf p r,
  sane c -> fits c content -> announced content -> short_numbers content -> (length content <= fuel)%nat ->
  Parse c fuel content buf p (normal_scheduler r) = UB ->
  exists size t f body rest ty D, content = size ++ [t] ++ [f] ++ body ++ rest /\
    len size = 8 /\ big_endian size = 10 + len body /\ b2n t = SeriTypeToChar ty /\ (b2n f = 0 \/ b2n f = 10) /\ ltables false ty D rest /\
    harms (negb r) (negb (ndebug c)) D content Undefined TMap 10.
Proof.
  intros c fuel content buf p r Hsane HL Han Hsh Hfuel H. unfold Parse in H. apply obind_ub in H as [H|(sc & Hsc & H)]; [now apply init_defined in H|].
  apply (body_harm Undefined c fuel content buf p sc (known_option c content (sc_map sc))) in H; auto using vints_short.
  2:{ unfold known_option. destruct (sc_map sc); auto. }
  destruct (init_header _ _ _ _ _ Hsc) as (size & t & f & rest0 & Hc & Hsz & Htot & Hlt & Hf & Hm).
  assert (Han10 : 10 <= sc_total sc).
  { rewrite Htot. inversion Han as [main t' n table rst A1 A2 A3 A4 A5 A6|main t' n table n' table' rst A1 A2 A3 A4 A5 A6 A7];
    (destruct (firstn8 size t f rest0 main _ Hsz (eq_trans (eq_sym Hc) (eq_sym ltac:(eassumption))) A1) as [B1 B2]); rewrite B1 in A4; lia. }
  set (k := N.to_nat (sc_total sc - 10)).
  assert (Hcl : len content = 10 + len rest0) by (rewrite Hc; rewrite !len_app, Hsz, !len_cons, len_nil; lia).
  assert (Hlb : len (firstn k rest0) = sc_total sc - 10) by (unfold len in *; rewrite firstn_length; unfold k; lia).
  assert (Hsplit : content = size ++ [t] ++ [f] ++ firstn k rest0 ++ skipn k rest0) by (rewrite firstn_skipn; exact Hc).
  destruct (init_tables c fuel content buf sc Hsane HL Han Hsc (size ++ [t] ++ [f] ++ firstn k rest0) (skipn k rest0)) as (ty & Hty & HT).
  { rewrite Hsplit at 1. now rewrite <- !app_assoc. }
  { rewrite !len_app, !len_cons, len_nil. lia. }
  exists size, t, f, (firstn k rest0), (skipn k rest0), ty, (known_option c content (sc_map sc)).
  split; [exact Hsplit|]. split; [exact Hsz|]. split; [rewrite <- Htot; lia|]. split; [|auto].
  destruct Hm as [[Ht Hm]|[Ht (m & Hm)]]; rewrite Ht; rewrite Hm in Hty; destruct ty; try reflexivity; destruct Hty as [T1 T2]; [discriminate (T2 eq_refl)|discriminate (T1 eq_refl)].
Qed.

(** Cases.  A string that claims 127 characters: out of bounds in both builds. *)
Definition long_string_doc : bytes := hdr 20 0 0 ++ (str [1; 0; 4] ++ root_key ++ str [0; 1; 127]) ++ str [1; 0].
(** An array whose second element is a 32-bit number announced with five bytes, all of
    them present: the release build overruns the number, the debug build asserts. *)
Definition wide_number_doc : bytes := hdr 32 0 0 ++ (str [1; 0; 4] ++ root_key ++ str [2; 2; 0; 0; 1; 1; 65; 0; 3; 5; 1; 2; 3; 4; 5]) ++ str [1; 0].

Lemma short_check content : (forallb (fun i => existsb (fun j => b2n (nth (i + j) content x00) <? 128) (seq 0 9)) (seq 0 (length content))) = true ->
  short_numbers content.
Proof.
  intros H i. destruct (Nat.lt_ge_cases i (length content)) as [Hi|Hi].
  - rewrite forallb_forall in H. specialize (H i). rewrite in_seq in H. specialize (H ltac:(lia)). apply existsb_exists in H as (j & Hj & Hb).
    apply in_seq in Hj. exists j. split; [lia|]. apply N.ltb_lt. exact Hb.
  - exists 0%nat. split; [lia|]. rewrite nth_overflow by lia. reflexivity.
Qed.

Ltac found_tac A B := exists A, B; split; reflexivity.

Example C91_met :
  (short_numbers long_string_doc /\ announced long_string_doc /\ framed long_string_doc NORMAL None /\
   (forall strict, harms true strict None long_string_doc Undefined TMap 10) /\ (forall strict, ~ harms false strict None long_string_doc Undefined TMap 10) /\
   Parse x86_debug 100 long_string_doc 7 p1 sequential = UB /\ Parse x86_release 100 long_string_doc 7 p1 sequential = UB) /\
  (short_numbers wide_number_doc /\ announced wide_number_doc /\ framed wide_number_doc NORMAL None /\
   (forall copying, harms copying false None wide_number_doc Undefined TMap 10) /\ (forall copying, ~ harms copying true None wide_number_doc Undefined TMap 10) /\
   Parse x86_release 100 wide_number_doc 7 p1 sequential = UB /\ Parse x86_debug 100 wide_number_doc 7 p1 sequential = Abort).
Proof.
  assert (HT : ltables true NORMAL None (str [1; 0])).
  { change (str [1; 0]) with (str [1] ++ str [0] ++ []). apply (lt_normal true (str [1]) (str [0]) []); [vint_tac|]. change (str [0]) with (str [0] ++ concat [] ++ []).
    apply (lsplit_ [] 0 (str [0]) [] []); [vint_tac|reflexivity|constructor|constructor]. }
  assert (HF : framed long_string_doc NORMAL None).
  { exists (be_bytes 8 20), (n2b 0), (n2b 0), (str [1; 0; 4] ++ root_key ++ str [0; 1; 127]), (str [1; 0]). repeat split; auto. }
  assert (HG : framed wide_number_doc NORMAL None).
  { exists (be_bytes 8 32), (n2b 0), (n2b 0), (str [1; 0; 4] ++ root_key ++ str [2; 2; 0; 0; 1; 1; 65; 0; 3; 5; 1; 2; 3; 4; 5]), (str [1; 0]). repeat split; auto. }
  split.
  - split; [apply short_check; reflexivity|]. split.
    { eapply (an_normal (hdr 20 0 0 ++ (str [1; 0; 4] ++ root_key ++ str [0; 1; 127])) (n2b 0) (str [1]) (str [0]) []); [vm_compute; discriminate|reflexivity|reflexivity|reflexivity|vint_tac]. }
    split; [exact HF|]. split; [|split; [|vm_compute; auto]].
    + intros strict. apply hm_entry with (n := 1) (a := 11) (id := 0) (b := 12) (done := 0) (c := 12) (e := 17) (t := TData).
      * exists (str [1]). split; [vint_tac|]. split; [|reflexivity]. found_tac (firstn 10 long_string_doc) (skipn 11 long_string_doc).
      * exists (str [0]). split; [vint_tac|]. split; [|reflexivity]. found_tac (firstn 11 long_string_doc) (skipn 12 long_string_doc).
      * constructor.
      * lia.
      * exists root_key, (str [4] ++ root_key). split; [constructor; [reflexivity|vint_tac]|]. split; [|reflexivity].
        found_tac (firstn 12 long_string_doc) (skipn 17 long_string_doc).
      * exists (n2b 0). split; [|reflexivity]. found_tac (firstn 17 long_string_doc) (skipn 18 long_string_doc).
      * apply hm_payload. apply bad_blob with (d := BRIDGE_STRING) (n := 127) (a := 20); auto.
        -- found_tac (firstn 18 long_string_doc) (skipn 19 long_string_doc).
        -- exists (str [127]). split; [vint_tac|]. split; [|reflexivity]. found_tac (firstn 19 long_string_doc) (skipn 20 long_string_doc).
        -- reflexivity.
        -- reflexivity.
    + intros strict H.
      assert (Hr : forall c, sane c -> fits c long_string_doc -> Parse c 100 long_string_doc 7 p1 (normal_scheduler true) <> UB -> ~ harms false (negb (ndebug c)) None long_string_doc Undefined TMap 10).
      { intros c Hc Hl HN HO. apply HN.
        apply (C91_exactly c 100 long_string_doc 7 p1 true NORMAL None); auto.
        - apply vints_short, short_check; reflexivity.
        - vm_compute. lia. }
      destruct strict; [apply (Hr x86_debug) in H|apply (Hr x86_release) in H]; auto using x86_debug_sane, x86_release_sane; vm_compute; try reflexivity; discriminate.
  - assert (Hs : short_numbers wide_number_doc) by (apply short_check; reflexivity). split; [exact Hs|]. split.
    { eapply (an_normal (hdr 32 0 0 ++ (str [1; 0; 4] ++ root_key ++ str [2; 2; 0; 0; 1; 1; 65; 0; 3; 5; 1; 2; 3; 4; 5])) (n2b 0) (str [1]) (str [0]) []);
        [vm_compute; discriminate|reflexivity|reflexivity|reflexivity|vint_tac]. }
    split; [exact HG|]. split; [|split; [|vm_compute; auto]].
    + intros copying. apply hm_entry with (n := 1) (a := 11) (id := 0) (b := 12) (done := 0) (c := 12) (e := 17) (t := TArray).
      * exists (str [1]). split; [vint_tac|]. split; [|reflexivity]. found_tac (firstn 10 wide_number_doc) (skipn 11 wide_number_doc).
      * exists (str [0]). split; [vint_tac|]. split; [|reflexivity]. found_tac (firstn 11 wide_number_doc) (skipn 12 wide_number_doc).
      * constructor.
      * lia.
      * exists root_key, (str [4] ++ root_key). split; [constructor; [reflexivity|vint_tac]|]. split; [|reflexivity].
        found_tac (firstn 12 wide_number_doc) (skipn 17 wide_number_doc).
      * exists (n2b 2). split; [|reflexivity]. found_tac (firstn 17 wide_number_doc) (skipn 18 wide_number_doc).
      * apply hm_element with (n := 2) (a := 19) (id := 0) (b := 20) (done := 1) (c := 24) (t := TData).
        -- exists (str [2]). split; [vint_tac|]. split; [|reflexivity]. found_tac (firstn 18 wide_number_doc) (skipn 19 wide_number_doc).
        -- exists (str [0]). split; [vint_tac|]. split; [|reflexivity]. found_tac (firstn 19 wide_number_doc) (skipn 20 wide_number_doc).
        -- apply (el_more copying false None wide_number_doc 0 20 TData 24 24); [| |constructor].
           ++ exists (n2b 0). split; [|reflexivity]. found_tac (firstn 20 wide_number_doc) (skipn 21 wide_number_doc).
           ++ exists (VScalar (VStr (str [65]))), (n2b 1 :: str [1] ++ str [65]). split; [reflexivity|].
              split; [constructor; apply lx_str; constructor; [reflexivity|vint_tac]|]. split; [intros; constructor; discriminate|]. split; [|reflexivity].
              found_tac (firstn 21 wide_number_doc) (skipn 24 wide_number_doc).
        -- lia.
        -- exists (n2b 0). split; [|reflexivity]. found_tac (firstn 24 wide_number_doc) (skipn 25 wide_number_doc).
        -- apply hm_payload. apply bad_number with (t := U32) (n := 5) (a := 27).
           ++ found_tac (firstn 25 wide_number_doc) (skipn 26 wide_number_doc).
           ++ exists (str [5]). split; [vint_tac|]. split; [|reflexivity]. found_tac (firstn 26 wide_number_doc) (skipn 27 wide_number_doc).
           ++ reflexivity.
           ++ discriminate.
           ++ left. reflexivity.
    + intros copying H. rewrite <- (Bool.negb_involutive copying) in H.
      apply (C91_exactly x86_debug 100 wide_number_doc 7 p1 (negb copying) NORMAL None) in H; auto.
      * destruct copying; vm_compute in H; discriminate.
      * apply x86_debug_sane.
      * vm_compute. reflexivity.
      * apply vints_short, Hs.
      * vm_compute. lia.
Qed.
