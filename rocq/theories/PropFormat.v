(** * C95: documents, byte for byte. *)
From Verif Require Import Base BaseLemmas ModelVarint ModelData ModelSecondary ModelObject
  ModelParse ModelWrapper Spec SpecApi VarintProofs Wire Format NumProofs SeriProofs SeriProofs2 DocProofs ObjInd ParseLemmas
  NormalProofs ValueProofs RoundTrip Samples PropDocument.
From Coq Require Import ZifyBool ZifyNat ZifyN.

(** ** Numbers *)
Lemma leb_digits f : forall n, n < 128 ^ N.of_nat f -> f <> O -> digits n (leb f n).
Proof.
  induction f as [|f IH]; intros n Hn Hf; [congruence|]. cbn [leb]. destruct (N.ltb_spec n 128) as [H|H].
  - replace n with (b2n (n2b n)) at 1 by (rewrite b2n_n2b; lia). apply dg_last. rewrite b2n_n2b; lia.
  - assert (n / 128 < 128 ^ N.of_nat f).
    { apply N.div_lt_upper_bound; [lia|]. rewrite <- N.pow_succ_r', <- Nat2N.inj_succ. exact Hn. }
    replace n with (b2n (n2b (n mod 128 + 128)) - 128 + 128 * (n / 128)) at 1.
    + apply dg_more; [rewrite b2n_n2b; lia|lia|]. apply IH; [assumption|]. intros ->. change (128 ^ N.of_nat 0) with 1 in *. lia.
    + rewrite b2n_n2b by lia. lia.
Qed.
Lemma digits_leb n b : digits n b -> forall f, n < 128 ^ N.of_nat f -> f <> O -> b = leb f n.
Proof.
  induction 1 as [b Hb|b n l Hb Hn Hd IH]; intros f Hf Hz; (destruct f as [|f]; [congruence|]); cbn [leb].
  - replace (b2n b <? 128) with true by lia. now rewrite n2b_b2n.
  - pose proof (b2n_lt b). replace (b2n b - 128 + 128 * n <? 128) with false by lia.
    replace ((b2n b - 128 + 128 * n) mod 128) with (b2n b - 128) by lia. replace ((b2n b - 128 + 128 * n) / 128) with n by lia.
    replace (b2n b - 128 + 128) with (b2n b) by lia. rewrite n2b_b2n. f_equal. apply IH.
    + rewrite Nat2N.inj_succ, N.pow_succ_r' in Hf. lia.
    + intros ->. rewrite Nat2N.inj_succ, N.pow_succ_r' in Hf. change (128 ^ N.of_nat 0) with 1 in Hf. lia.
Qed.
Lemma W32_lit : W32 = 4294967296. Proof. reflexivity. Qed.
Lemma small_venc n b : small n b <-> b = venc n /\ n < W32.
Proof.
  rewrite W32_lit. change (128 ^ N.of_nat 10) with 1180591620717411303424 in *. split.
  - intros [Hd Hn]. split; [|exact Hn]. apply digits_leb; [exact Hd|change (128 ^ N.of_nat 10) with 1180591620717411303424; lia|discriminate].
  - intros [-> Hn]. split; [|exact Hn]. apply leb_digits; [change (128 ^ N.of_nat 10) with 1180591620717411303424; lia|discriminate].
Qed.

Lemma network_inj : forall a b, len a = len b -> network a = network b -> a = b.
Proof.
  assert (H : forall a b, len a = len b -> of_le_bytes a = of_le_bytes b -> a = b).
  { induction a as [|x a IH]; intros [|y b] Hl He; rewrite ?len_nil, ?len_cons in Hl; try lia; [reflexivity|]. cbn [of_le_bytes] in He.
    pose proof (b2n_lt x). pose proof (b2n_lt y). assert (b2n x = b2n y /\ of_le_bytes a = of_le_bytes b) as [E1 E2] by lia.
    apply (f_equal n2b) in E1. rewrite !n2b_b2n in E1. f_equal; [exact E1|]. apply IH; [lia|exact E2]. }
  intros a b Hl He. rewrite <- (rev_involutive a), <- (rev_involutive b) in He. change network with of_network in He. rewrite !of_network_rev in He.
  apply H in He; [|now rewrite !len_rev]. apply (f_equal (@rev byte)) in He. now rewrite !rev_involutive in He.
Qed.
Lemma network_bound b : network b < 2 ^ (8 * len b).
Proof.
  assert (H : forall l, of_le_bytes l < 2 ^ (8 * len l)).
  { induction l as [|x l IH]; [reflexivity|]. cbn [of_le_bytes]. rewrite len_cons. replace (8 * (1 + len l)) with (8 + 8 * len l) by lia.
    rewrite N.pow_add_r. change (2 ^ 8) with 256. pose proof (b2n_lt x). lia. }
  specialize (H (rev b)). rewrite <- of_network_rev, rev_involutive, len_rev in H. exact H.
Qed.
Lemma be_network w n b : n < 2 ^ (8 * w) -> (len b = w /\ network b = n <-> b = be_bytes w n).
Proof.
  intros Hn. split.
  - intros [Hl Hb]. apply network_inj; [now rewrite be_bytes_len|]. change network with of_network at 2. now rewrite of_network_be.
  - intros ->. split; [apply be_bytes_len|]. now apply of_network_be.
Qed.

(** ** Nodes *)
Lemma b2n_is x n : n < 256 -> (b2n x = n <-> x = n2b n).
Proof. intros Hn. split; [intros <-; now rewrite n2b_b2n|intros ->; now apply b2n_n2b]. Qed.

Section Nodes.
  Variable ss : option (list bytes).
  Variable info : list (N * list N).
  Variable sz : N.
  Hypothesis Hnd : NoDup (map fst info).
  Notation D := (match ss with None => None | Some l => Some (fun i => nth_error l (N.to_nat i)) end).
  Notation T := (table_of info).

  Lemma text_wire s b : text ss s b <-> str_wire D s b.
  Proof.
    split.
    - intros [l Hs Hl|l i b' Hs Hn Hl]; apply small_venc in Hl as [-> Hl]; rewrite Hs; econstructor; eauto.
    - intros H. destruct ss as [l|]; inversion H; subst.
      + eapply tx_number; eauto. now apply small_venc.
      + apply tx_spelled; auto. now apply small_venc.
  Qed.

  Lemma payload_wire x t b : b2n t = data_code x -> payload ss x b -> scalar_wire D x (t :: b).
  Proof.
    intros Ht Hp. apply b2n_is in Ht; [|destruct x as [| | |[]]; reflexivity]. subst t.
    destruct Hp as [s b Hb|s l Hl|s l Hl|t l b Hty Hl Hb|t l b Hty Hl Hb].
    - constructor. now apply text_wire.
    - apply small_venc in Hl as [-> Hl]. now apply xw_bytes.
    - apply small_venc in Hl as [-> Hl]. now apply xw_custom.
    - apply b2n_is in Hl; [|reflexivity]. subst l. pose proof (network_bound b) as Hn. rewrite Hb in Hn.
      assert (Hw : width t = 4) by (destruct Hty as [->|[->| ->]]; reflexivity).
      assert (E : b = be_bytes 4 (network b)) by now apply be_network. revert Hn E. generalize (network b). intros n Hn ->.
      replace (n2b (data_code (VNum t n)) :: n2b 4 :: be_bytes 4 n) with (n2b (dt_of_num t) :: venc (width t) ++ be_bytes (width t) n)
        by (rewrite Hw; destruct Hty as [->|[->| ->]]; reflexivity).
      apply xw_num. unfold num_ok. now rewrite Hw.
    - apply b2n_is in Hl; [|reflexivity]. subst l. pose proof (network_bound b) as Hn. rewrite Hb in Hn.
      assert (Hw : width t = 8) by (destruct Hty as [->|[->| ->]]; reflexivity).
      assert (E : b = be_bytes 8 (network b)) by now apply be_network. revert Hn E. generalize (network b). intros n Hn ->.
      replace (n2b (data_code (VNum t n)) :: n2b 8 :: be_bytes 8 n) with (n2b (dt_of_num t) :: venc (width t) ++ be_bytes (width t) n)
        by (rewrite Hw; destruct Hty as [->|[->| ->]]; reflexivity).
      apply xw_num. unfold num_ok. now rewrite Hw.
  Qed.
  Lemma wire_payload x b : scalar_wire D x b -> exists t b', b = t :: b' /\ b2n t = data_code x /\ payload ss x b'.
  Proof.
    intros [s b' Hb|s Hl|s Hl|t n Hn]; (eexists; eexists; split; [reflexivity|split; [reflexivity||(destruct t; reflexivity)|]]).
    - constructor. now apply text_wire.
    - constructor. now apply small_venc.
    - constructor. now apply small_venc.
    - unfold num_ok in Hn. destruct (proj2 (be_network (width t) n (be_bytes (width t) n) Hn) eq_refl) as [Hl HN].
      revert Hl HN. generalize (be_bytes (width t) n). intros b' Hl <-.
      destruct t; first [apply (pl_num4 ss _ (n2b 4)); [auto|reflexivity|exact Hl]|apply (pl_num8 ss _ (n2b 8)); [auto|reflexivity|exact Hl]].
  Qed.

  Lemma divided_ok i split chunks : divided info sz i split chunks <-> split_ok T sz i chunks split.
  Proof.
    unfold divided, split_ok, table_of. assert (HT : forall l, In (i, l) info <-> assoc_find N.eqb i info = Some l).
    { intros l. clear - Hnd. induction info as [|[j m] r IH]; cbn [assoc_find In map fst] in *; [split; [tauto|discriminate]|].
      inversion Hnd as [|? ? H1 H2]; subst. destruct (N.eqb_spec i j) as [->|Hne].
      - split; [intros [[= ->]|H]; [reflexivity|exfalso; apply H1; change j with (fst (j, l)); now apply in_map]|intros [= ->]; now left].
      - rewrite <- IH by exact H2. split; [intros [[= E _]|H]; [congruence|exact H]|now right]. }
    destruct split.
    - split; intros (g & H).
      + destruct H as (H1 & H2 & H3 & H4 & H5 & H6). exists g. repeat split; auto. now apply HT.
      + destruct H as (H1 & H2 & H3 & H4 & H5 & H6). exists g. repeat split; auto. now apply HT.
    - split; intros H.
      + destruct (assoc_find N.eqb i info) as [l|] eqn:E; [|reflexivity]. exfalso. apply H. specialize (proj2 (HT l) eq_refl). intros Hin. change i with (fst (i, l)). now apply in_map.
      + intros Hin. apply in_map_iff in Hin as ([j l] & E & Hin). cbn in E. subst j. apply HT in Hin. congruence.
  Qed.

  Lemma node_code_tag v s t : b2n t = node_code v s <-> t = tag v s.
  Proof.
    unfold tag. replace (node_code v s) with (ObjectTypeToChar (type_of v) + (if s then 128 else 0)) by (destruct v; reflexivity).
    apply b2n_is. destruct v, s; reflexivity.
  Qed.

  Lemma node_wire v : forall s b, node ss info sz v s b <-> wire D T sz v s b.
  Proof.
    induction v as [x|l IH|l IH] using value_ind'; intros s b.
    - split; intros H; inversion H; subst.
      + constructor. now apply payload_wire.
      + match goal with H : scalar_wire _ _ _ |- _ => apply wire_payload in H as (t & b' & -> & H1 & H2) end. now constructor.
    - rewrite Forall_forall in IH. split; intros H.
      + inversion H as [|l0 s0 cnt i id el H1 H2 H3 H4|]; subst. apply small_venc in H1 as [-> H1]. apply small_venc in H2 as [-> H2].
        apply w_arr; auto; [|now apply divided_ok]. eapply Forall2_impl; [|exact H3]. cbn. intros v e Hin _ (m & t & b & Hn & Ht & ->).
        apply node_code_tag in Ht. subst t. exists m, b. split; [|reflexivity]. apply IH; [now apply in_rev|exact Hn].
      + inversion H as [|l0 id chunks fl H1 H2 H3 H4|]; subst. apply nd_array with (i := id); try (now apply small_venc); [|now apply divided_ok].
        eapply Forall2_impl; [|exact H3]. cbn. intros v e Hin _ (m & b & Hn & ->). exists m, (tag v m), b. split; [apply IH; [now apply in_rev|exact Hn]|].
        split; [now apply node_code_tag|reflexivity].
    - rewrite Forall_forall in IH. split; intros H.
      + inversion H as [| |l0 s0 cnt i id el H1 H2 H3 H4]; subst. apply small_venc in H1 as [-> H1]. apply small_venc in H2 as [-> H2].
        apply w_map; auto; [|now apply divided_ok]. eapply Forall2_impl; [|exact H3]. cbn. intros v e Hin _ (k & m & t & b & Hk & Hn & Ht & ->).
        apply node_code_tag in Ht. subst t. exists k, m, b. split; [now apply text_wire|]. split; [|reflexivity]. now apply IH.
      + inversion H as [| |l0 id chunks fl H1 H2 H3 H4]; subst. apply nd_map with (i := id); try (now apply small_venc); [|now apply divided_ok].
        eapply Forall2_impl; [|exact H3]. cbn. intros v e Hin _ (k & m & b & Hk & Hn & ->). exists k, m, (tag (snd v) m), b.
        split; [now apply text_wire|]. split; [now apply IH|]. split; [now apply node_code_tag|reflexivity].
  Qed.
End Nodes.

(** ** Tables *)
Lemma number_from_combine l : forall n, number_from n l = combine l (map (fun i => n + N.of_nat i) (seq 0 (length l))).
Proof.
  induction l as [|x l IH]; intros n; [reflexivity|]. cbn [number_from length seq map combine]. f_equal; [f_equal; lia|].
  rewrite IH. f_equal. rewrite <- seq_shift, map_map. apply map_ext. intros. lia.
Qed.
Lemma number_from_0 l : number_from 0 l = combine l (map N.of_nat (seq 0 (length l))).
Proof. rewrite number_from_combine. f_equal. Qed.

Lemma sized_section s : len s < W32 -> sized s (section s).
Proof. intros H. exists (venc (len s)). split; [now apply small_venc|reflexivity]. Qed.
Lemma sized_is s b : sized s b -> b = section s.
Proof. intros (n & Hn & ->). apply small_venc in Hn as [-> _]. reflexivity. Qed.

Lemma rows_ex {A} (R : A -> bytes -> Prop) (f : A -> bytes) l : (forall a, In a l -> R a (f a)) -> Forall2 R l (map f l).
Proof. induction l as [|a l IH]; cbn; constructor; auto with datatypes. Qed.
Lemma rows_is {A} (R : A -> bytes -> Prop) (f : A -> bytes) l rows : (forall a r, R a r -> r = f a) -> Forall2 R l rows -> rows = map f l.
Proof. intros H. induction 1; cbn; [reflexivity|]. f_equal; auto. Qed.

Lemma concat_elem_len {A} (f : A -> bytes) l a : In a l -> len (f a) <= len (concat (map f l)).
Proof. induction l as [|x l IH]; cbn; [tauto|]. rewrite len_app. intros [->|H]; [lia|]. specialize (IH H). lia. Qed.
Lemma concat_count {A} (f : A -> bytes) l : (forall a, 1 <= len (f a)) -> len l <= len (concat (map f l)).
Proof. intros H. induction l as [|x l IH]; cbn [map concat]; [reflexivity|]. rewrite len_app, len_cons. specialize (H x). lia. Qed.

Lemma table_block info b : block_table info b <->
  b = split_bytes info /\ len info < W32 /\ NoDup (map fst info) /\
  Forall (fun e => 1 <= fst e < W32 /\ snd e <> [] /\ Forall (fun b => b < W32) (snd e) /\ len (snd e) < W32) info.
Proof.
  split.
  - intros [cnt rows Hc Hnd HF]. apply small_venc in Hc as [-> Hc]. split; [|split; [exact Hc|split; [exact Hnd|]]].
    + unfold split_bytes. f_equal. f_equal. eapply rows_is; [|exact HF]. cbn. intros [i l] r (a & n & sizes & _ & Ha & _ & Hn & Hs & ->). cbn [fst snd] in *.
      apply small_venc in Ha as [-> _]. apply small_venc in Hn as [-> _]. do 3 f_equal. eapply rows_is; [|exact Hs]. intros x y Hx. now apply small_venc in Hx as [-> _].
    + clear Hc Hnd. induction HF as [|[i l] r info rows (a & n & sizes & H1 & Ha & Hne & Hn & Hs & ->) HF IH]; constructor; auto. cbn [fst snd] in *.
      apply small_venc in Ha as [-> Ha]. apply small_venc in Hn as [-> Hn]. split; [lia|]. split; [exact Hne|]. split; [|exact Hn].
      clear - Hs. induction Hs as [|x y l s Hx Hs IH]; constructor; auto. now apply small_venc in Hx.
  - intros (-> & Hc & Hnd & HF). unfold split_bytes. constructor; [now apply small_venc|exact Hnd|]. apply rows_ex. intros [i l] Hin.
    rewrite Forall_forall in HF. destruct (HF _ Hin) as (H1 & H2 & H3 & H4). cbn [fst snd] in *.
    exists (venc i), (venc (len l)), (map venc l). split; [lia|]. split; [apply small_venc; split; [reflexivity|lia]|]. split; [exact H2|].
    split; [now apply small_venc|]. split; [|reflexivity]. apply rows_ex. intros x Hx. rewrite Forall_forall in H3. apply small_venc. auto.
Qed.

Lemma section_len s : len s < len (section s).
Proof. unfold section. rewrite len_app. pose proof (venc_len_pos (len s)). lia. Qed.

(* SeriType (object.h:1574-1579) as the flag of Format.v. *)
Definition mode_of (ty : SeriType) : bool := match ty with NORMAL => false | REPLACE => true end.

Lemma document_file sz ty v content : len content < W32 -> document sz ty v content -> file sz (mode_of ty) v content.
Proof.
  intros HL HX. revert HL. destruct HX as [body fl ks dl info Hnd Hno Hks HP Hni Hinf Hw]. intros HL.
  rewrite !len_app, be_bytes_len in HL. pose proof (section_len (split_bytes info)) as HS.
  assert (Hinfo : len info < W32).
  { assert (HS0 : len (split_bytes info) < W32) by lia. clear - HS0. unfold split_bytes in HS0. rewrite len_app in HS0. pose proof (concat_count (fun e : N * list N => venc (fst e) ++ venc (len (snd e)) ++ concat (map venc (snd e))) info) as HC.
    enough (forall a : N * list N, 1 <= len (venc (fst a) ++ venc (len (snd a)) ++ concat (map venc (snd a)))) as HX.
    { eapply N.le_lt_trans; [exact (HC HX)|]. eapply N.le_lt_trans; [|exact HS0]. apply N.le_add_l. }
    intros a. rewrite len_app. pose proof (venc_len_pos (fst a)). lia. }
  apply file_ with (split := fl) (strings := ks) (blocks := info) (bt := split_bytes info).
  - apply be_bytes_len.
  - apply of_network_be. change (2 ^ (8 * 8)) with 18446744073709551616. rewrite W32_lit in HL. lia.
  - destruct ty; reflexivity.
  - destruct fl; reflexivity.
  - apply node_wire; [exact Hni|]. destruct ty; cbn [mode_of]; exact Hw.
  - exact Hnd.
  - exact Hks.
  - destruct ty; cbn [mode_of]; [split; [now apply Hno|reflexivity]|]. pose proof (section_len (dict_bytes dl)) as HD.
    exists (dict_bytes dl). split; [|apply sized_section; lia].
    assert (Hlen : len dl = len ks).
    { apply Permutation_length in HP. unfold len. rewrite HP, number_from_0, combine_length, map_length, seq_length. lia. }
    assert (HD0 : len (dict_bytes dl) < W32) by lia. clear HD HS. unfold dict_bytes in HD0 |- *. rewrite len_app in HD0.
    assert (Hdl : len dl < W32).
    { pose proof (concat_count (fun e : bytes * N => venc (len (fst e)) ++ fst e ++ venc (snd e)) dl) as HC.
      enough (forall a : bytes * N, 1 <= len (venc (len (fst a)) ++ fst a ++ venc (snd a))) as HX by (eapply N.le_lt_trans; [exact (HC HX)|]; eapply N.le_lt_trans; [|exact HD0]; apply N.le_add_l).
      intros a. rewrite len_app. pose proof (venc_len_pos (len (fst a))). lia. }
    apply st_ with (entries := dl); [now rewrite <- number_from_0|now apply small_venc|]. apply rows_ex. intros e Hin.
    exists (venc (len (fst e))), (venc (snd e)). split; [|split; [|reflexivity]]; apply small_venc; (split; [reflexivity|]).
    + pose proof (concat_elem_len (fun e : bytes * N => venc (len (fst e)) ++ fst e ++ venc (snd e)) dl e Hin) as HC. cbn beta in HC. rewrite !len_app in HC. eapply N.le_lt_trans; [|exact HD0]. eapply N.le_trans; [|apply N.le_add_l]. eapply N.le_trans; [|exact HC]. rewrite N.add_comm, <- N.add_assoc. apply N.le_add_r.
    + pose proof (number_from_bound 0 ks) as HB. rewrite Forall_forall in HB. specialize (HB e (Permutation_in _ HP Hin)). cbn beta in HB. rewrite N.add_0_l in HB. rewrite Hlen in Hdl. exact (N.lt_trans _ _ _ HB Hdl).
  - apply table_block. auto.
  - apply sized_section. lia.
Qed.

Lemma file_document sz ty v content : len content < W32 -> file sz (mode_of ty) v content -> document sz ty v content.
Proof.
  intros HL HF. inversion HF as [size mode mark split body strings blocks tables bt H1 H2 H3 H4 H5 H6 H7 H8 H9 sbt H10]; subst.
  rewrite !len_app in HL. apply table_block in H9 as (-> & Hb & Hnd & Hinf). apply sized_is in H10. subst sbt.
  assert (Hsize : size = be_bytes 8 (10 + len body)).
  { apply be_network; [change (2 ^ (8 * 8)) with 18446744073709551616; rewrite W32_lit in HL; lia|auto]. }
  assert (Hmode : mode = n2b (SeriTypeToChar ty)) by (apply b2n_is; [destruct ty; reflexivity|destruct ty; exact H3]).
  assert (Hmark : mark = n2b (if split then 10 else 0)) by (apply b2n_is; [destruct split; reflexivity|exact H4]).
  subst size mode mark. apply node_wire in H5; [|exact Hnd].
  destruct ty; cbn [mode_of] in *.
  - destruct H8 as [-> ->]. apply (doc sz NORMAL v body split [] [] blocks); auto.
  - destruct H8 as (st & Hst & Hsz). apply sized_is in Hsz. subst tables. destruct Hst as [entries count rows HP Hc HR].
    apply small_venc in Hc as [-> Hc].
    assert (rows = map (fun e : bytes * N => venc (len (fst e)) ++ fst e ++ venc (snd e)) entries) as ->.
    { eapply rows_is; [|exact HR]. cbn. intros e r (l & i & Hl & Hi & ->). apply small_venc in Hl as [-> _]. apply small_venc in Hi as [-> _]. reflexivity. }
    apply (doc sz REPLACE v body split strings entries blocks); auto; [discriminate|now rewrite number_from_0].
Qed.

(** C95.  Serialize writes exactly the format of Format.v ... *)
Theorem C95_written : forall c mem ty p o v content,
  sane c -> denotes mem o v -> Serialize c mem ty p o = Ok content -> len content < 2 ^ 32 ->
  file (split_block_size c) (match ty with NORMAL => false | REPLACE => true end) v content.
Proof.
  intros c mem ty p o v content Hc Hd Hs HL. destruct (Serialize_document c mem ty p o v Hc Hd) as (content' & Hs' & Hdoc).
  rewrite Hs in Hs'. injection Hs' as <-. apply (document_file (split_block_size c) ty v content HL). now apply Hdoc.
Qed.

(** ... and every scheduler reads it, whoever wrote it. *)
Theorem C95_read : forall c sz dictionary v content buf fuel p po,
  sane c -> file sz dictionary v content -> fits c content -> (length content <= fuel)%nat ->
  (po_ref po = true -> no_custom v) ->
  exists o v', Parse c fuel content buf p po = Ok o /\ same_content v v' /\
    forall mem, (po_ref po = true -> mem buf = Some content) -> denotes mem o v'.
Proof.
  intros c sz dictionary v content buf fuel p po Hc HF HL Hf Hn.
  assert (exists ty, dictionary = mode_of ty) as (ty & ->) by (destruct dictionary; [now exists REPLACE|now exists NORMAL]).
  assert (HL' : lim c (len content)) by exact HL.
  assert (HW : len content < W32) by now apply lim_W32 in HL'.
  pose proof (file_document sz ty v content HW HF) as Hdoc.
  destruct (Parse_document c sz ty v content [] buf fuel p po) as (o & v' & H1 & H2 & _ & H3 & _); rewrite ?app_nil_r in *; auto.
  exists o, v'. auto.
Qed.

(** Cases: the sample of Samples.v, written by the library in both modes; and a document
    nobody serialized, written out by hand. *)
Example C95_met : forall ty, In ty [NORMAL; REPLACE] ->
  file (split_block_size x86_debug) (match ty with NORMAL => false | REPLACE => true end) sample_value (sample_doc x86_debug ty).
Proof.
  intros ty Hty. apply (C95_written x86_debug no_mem ty p0 sample).
  - apply x86_debug_sane.
  - apply sample_denotes.
  - apply sample_serialized. cbn in *; tauto.
  - destruct ty; vm_compute; reflexivity.
Qed.

Definition by_hand : bytes := map n2b [0; 0; 0; 0; 0; 0; 0; 24;  0; 0;  1; 7; 4; 114; 111; 111; 116; 0; 3; 4; 0; 0; 1; 2;  1; 0].
Example C95_met_by_hand : file 1024 false (VScalar (VNum U32 258)) by_hand /\
  exists o, Parse x86_debug 100 by_hand 7 p1 {| po_type := Normal; po_ref := false |} = Ok o /\ o = OData BRIDGE_UINT32 (SNum U32 258).
Proof.
  split; [|eexists; split; vm_compute; reflexivity].
  assert (Hs : forall n, n < 128 -> small n [n2b n]) by (intros n Hn; apply small_venc; split; [unfold venc; cbn [leb]; now replace (n <? 128) with true by lia|rewrite W32_lit; lia]).
  change by_hand with (map n2b [0; 0; 0; 0; 0; 0; 0; 24] ++ [n2b 0] ++ [n2b 0] ++ ([n2b 1] ++ [n2b 7] ++ concat [map n2b [4; 114; 111; 111; 116; 0; 3; 4; 0; 0; 1; 2]]) ++ [] ++ map n2b [1; 0]).
  apply file_ with (split := false) (strings := []) (blocks := []) (bt := [n2b 0] ++ concat []); try reflexivity.
  - apply nd_map with (i := 7).
    + now apply Hs.
    + now apply Hs.
    + constructor; [|constructor]. exists ([n2b 4] ++ root_word), false, (n2b 0), (n2b 3 :: n2b 4 :: map n2b [0; 0; 1; 2]).
      split; [apply tx_spelled; [reflexivity|now apply (Hs 4)]|]. split; [|split; reflexivity].
      apply nd_data; [reflexivity|]. apply (pl_num4 None U32 (n2b 4) (map n2b [0; 0; 1; 2])); auto.
    + intros [].
  - constructor.
  - intros s [].
  - split; reflexivity.
  - constructor; [now apply Hs|constructor|constructor].
  - exists [n2b 1]. split; [now apply (Hs 1)|reflexivity].
Qed.
