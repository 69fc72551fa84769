(** * The sequential copying parser leaves the buffer exactly on the inputs of Overrun.v. *)
From Verif Require Import Base BaseLemmas ModelVarint ModelData ModelSecondary ModelObject
  ModelParse ModelWrapper Spec VarintProofs Wire Lenient Overrun NumProofs SeriProofs ObjInd ParseLemmas NormalProofs
  GeneralProofs DocProofs PropDocument FrameProofs TermProofs LenientProofs LenientRef PropInsitu.
From Coq Require Import ZifyBool ZifyNat ZifyN.

Lemma obind_ub {A B} (x : outcome A) (f : A -> outcome B) : obind x f = UB -> x = UB \/ exists a, x = Ok a /\ f a = UB.
Proof. destruct x; cbn; eauto; discriminate. Qed.

Lemma read_byte_ub content i : i <= len content -> read_byte content i <> UB.
Proof. intros H. unfold read_byte. destruct (N.ltb_spec i (len content)); [discriminate|]. destruct (N.eqb_spec i (len content)); [discriminate|lia]. Qed.

Lemma read_range_ub content a n : a <= len content -> read_range content a n = UB <-> len content + 1 < a + n.
Proof.
  intros Ha. unfold read_range. destruct (N.eqb_spec n 0) as [->|]; [split; [discriminate|lia]|].
  destruct (N.leb_spec (a + n) (len content + 1)); split; try discriminate; try lia; reflexivity.
Qed.

Lemma decode_defined c content bl fuel : forall ptr k r, ptr <= len content -> (k < 9)%nat ->
  (exists j, (j < 9 - k)%nat /\ b2n (nth (N.to_nat ptr + j) content x00) < 128) ->
  varint_decode_loop c fuel content ptr (N.of_nat k) bl (7 * N.of_nat k) r <> UB.
Proof.
  induction fuel as [|f IH]; intros ptr k r Hp Hk Hj; cbn [varint_decode_loop]; [discriminate|].
  destruct (read_byte content ptr) as [b| | | |] eqn:Hb; try discriminate; [|now apply read_byte_ub in Hb]. cbn [obind].
  pose proof (read_byte_nth _ _ _ Hb) as Hn. destruct (N.ltb_spec (7 * N.of_nat k) 64); cbn [negb]; [|lia].
  destruct (N.land (b2n b) 128 =? 0) eqn:Hl; [discriminate|]. destruct (negb _ && negb _); [discriminate|].
  destruct Hj as (j & Hj & Hlt). destruct j as [|j].
  { rewrite Nat.add_0_r, <- Hn in Hlt. apply land128_small in Hlt. apply N.eqb_neq in Hl. congruence. }
  assert (ptr < len content).
  { unfold read_byte in Hb. destruct (N.ltb_spec ptr (len content)); [assumption|]. destruct (N.eqb_spec ptr (len content)); [|discriminate].
    injection Hb as <-. discriminate Hl. }
  replace (N.of_nat k + 1) with (N.of_nat (S k)) by lia. replace (7 * N.of_nat k + 7) with (7 * N.of_nat (S k)) by lia.
  apply IH; [lia|lia|]. exists j. split; [lia|]. replace (N.to_nat (ptr + 1) + j)%nat with (N.to_nat ptr + S j)%nat by lia. exact Hlt.
Qed.

Section Prim.
  Variable R : renv.
  Notation content := (r_content R).
  Hypothesis Hin : r_base R + r_size R <= len content.
  Hypothesis Hshort : short_numbers content.

  Lemma parseLength_defined s : parseLength R s <> UB.
  Proof.
    unfold parseLength, check_empty. destruct (_ <=? 0)%Z; [discriminate|]. cbn [obind]. unfold curAddr.
    destruct (N.leb_spec (r_size R) (idx s)); [discriminate|]. cbn [obind].
    intros H'. apply obind_ub in H' as [H'|([v n] & _ & H')].
    - unfold varint_decode in H'. revert H'. apply (decode_defined _ _ _ 12 _ 0); [lia|lia|]. apply Hshort.
    - apply obind_ub in H' as [H'|(? & _ & H')]; [|discriminate]. unfold check_oor in H'. destruct (_ <? _); discriminate.
  Qed.
  Lemma parseDataType_defined s : parseDataType R s <> UB.
  Proof.
    unfold parseDataType, check_empty. destruct (_ <=? 0)%Z; [discriminate|]. cbn [obind]. unfold curAddr.
    destruct (N.leb_spec (r_size R) (idx s)); [discriminate|]. cbn [obind].
    intros H'. apply obind_ub in H' as [H'|(b & _ & H')]; [apply read_byte_ub in H'; [contradiction|lia]|].
    apply obind_ub in H' as [H'|(? & _ & H')]; [|discriminate]. unfold check_oor in H'. destruct (_ <? _); discriminate.
  Qed.
  Lemma parseObjectType_defined s : parseObjectType R s <> UB.
  Proof.
    unfold parseObjectType, check_empty. destruct (_ <=? 0)%Z; [discriminate|]. cbn [obind]. unfold curAddr.
    destruct (N.leb_spec (r_size R) (idx s)); [discriminate|]. cbn [obind].
    intros H'. apply obind_ub in H' as [H'|(b & _ & H')]; [apply read_byte_ub in H'; [contradiction|lia]|].
    apply obind_ub in H' as [H'|(? & _ & H')]; [unfold check_oor in H'; destruct (_ <? _); discriminate|].
    destruct (CharToObjectType _); discriminate.
  Qed.
End Prim.

Lemma vint_pos1 n b : vint n b -> (1 <= length b)%nat.
Proof. intros (m & Hg & _). apply groups_pos in Hg. unfold len in Hg. lia. Qed.

Lemma tame_any R : short_numbers (r_content R) -> forall s n s', parseLength R s = Ok (n, s') -> n < 2 ^ 63.
Proof. destruct R as [c content base size]. intros H. exact (short_tame c content base size H). Qed.

Section Pos.
  Variable copying strict : bool.
  Variable D : option (N -> option bytes).
  Variable content : bytes.
  Lemma lwire_pos v b : lwire strict D v b -> (1 <= length b)%nat.
  Proof.
    intros Hw. destruct Hw as [x b Hx|l cnt id n chunks Hc _ _|l cnt id n chunks Hc _ _].
    - destruct Hx; cbn; lia.
    - apply vint_pos1 in Hc. rewrite app_length. lia.
    - apply vint_pos1 in Hc. rewrite app_length. lia.
  Qed.
  Lemma number_at_pos i n j : number_at content i n j -> i < j /\ j <= len content.
  Proof. intros (b & Hv & Hs & ->). apply vint_pos1 in Hv. apply stands_len in Hs. unfold len in *. lia. Qed.
  Lemma key_at_pos i j : key_at D content i j -> i < j /\ j <= len content.
  Proof.
    intros (s & b & Hk & Hs & ->). assert (1 <= length b)%nat.
    { destruct Hk as [s l _ Hv|d id s l _ Hv _]; apply vint_pos1 in Hv; rewrite ?app_length; lia. }
    apply stands_len in Hs. unfold len in *. lia.
  Qed.
  Lemma tag_at_pos i t : tag_at content i t -> i < len content.
  Proof. intros (x & Hs & _). apply stands_len in Hs. rewrite len_cons, len_nil in Hs. lia. Qed.
  Lemma elements_pos n i j : elements copying strict D content n i j -> i <= j.
  Proof.
    induction 1 as [|n i t j k Ht (v & b & _ & Hw & _ & Hs & ->) _ IH]; [lia|]. lia.
  Qed.
  Lemma pairs_pos n i j : pairs copying strict D content n i j -> i <= j.
  Proof.
    induction 1 as [|n i e t j k Hk Ht (v & b & _ & Hw & _ & Hs & ->) _ IH]; [lia|]. apply key_at_pos in Hk. lia.
  Qed.
End Pos.

(** What the model shows for a harm. *)
Definition out {A} (h : harm) : outcome A := match h with Undefined => UB | FailedAssert => Abort end.

Lemma obind_out {A B} h (x : outcome A) (f : A -> outcome B) : obind x f = out h -> x = out h \/ exists a, x = Ok a /\ f a = out h.
Proof. destruct x, h; cbn; eauto; discriminate. Qed.
Lemma out_bind {A B} h (f : A -> outcome B) : obind (out h) f = out h.
Proof. destruct h; reflexivity. Qed.
Lemma ok_out {A} h (a : A) : Ok a <> out h.
Proof. destruct h; discriminate. Qed.
Lemma throw_out {A} h e : @Throw A e <> out h.
Proof. destruct h; discriminate. Qed.
Lemma fuel_out {A} h : @Fuel A <> out h.
Proof. destruct h; discriminate. Qed.

Section Fields.
  Variable c : cfg.
  Variable content : bytes.
  Notation strict := (negb (ndebug c)).

  Lemma decode_harm fuel : forall i k r h, i <= len content -> k <= 10 -> continued content i k -> (strict = true -> k = 0 \/ i + k < len content) ->
    varint_decode_loop c fuel content (i + k) k (Z.of_N (len content - i)) (7 * k) r = out h -> bad_field strict content h i.
  Proof.
    induction fuel as [|f IH]; intros i k r h Hi Hk [Hc1 Hc2] Hs H; cbn [varint_decode_loop] in H; [now apply fuel_out in H|].
    apply obind_out in H as [H|(b & Hb & H)].
    { unfold read_byte in H. destruct (N.ltb_spec (i + k) (len content)); [now apply ok_out in H|]. destruct (N.eqb_spec (i + k) (len content)); [now apply ok_out in H|]. lia. }
    pose proof (read_byte_nth _ _ _ Hb) as Hn. pose proof (b2n_lt b) as Hb256.
    destruct (N.ltb_spec (7 * k) 64) as [H64|H64]; cbn [negb] in H.
    - rewrite land128 in H by lia. destruct (N.ltb_spec (b2n b) 128) as [|Hge]; [now apply ok_out in H|].
      assert (Hlt : i + k < len content).
      { unfold read_byte in Hb. destruct (N.ltb_spec (i + k) (len content)); [assumption|]. destruct (_ =? _); [|discriminate]. injection Hb as <-. cbn in Hge. lia. }
      assert (Hc' : continued content i (k + 1)).
      { split; [lia|]. intros j Hj. destruct (N.eq_dec j k) as [->|]; [rewrite <- Hn; exact Hge|apply Hc2; lia]. }
      destruct (strict) eqn:Hst; cbn [andb] in H.
      + destruct (Z.ltb_spec (Z.of_N (k + 1)) (Z.of_N (len content - i))) as [Hlt2|Hge2]; cbn [negb] in H.
        * rewrite <- N.add_assoc in H. replace (7 * k + 7) with (7 * (k + 1)) in H by lia. apply (IH i (k + 1) _ h) in H; [exact H|exact Hi|lia|exact Hc'|]. intros _. right. lia.
        * destruct h; [discriminate|]. apply cut_off with (k := k + 1); auto; lia.
      + rewrite <- N.add_assoc in H. replace (7 * k + 7) with (7 * (k + 1)) in H by lia. apply (IH i (k + 1) _ h) in H; [exact H|exact Hi|lia|exact Hc'|]. discriminate.
    - assert (k = 10) as -> by lia. destruct h; [|discriminate]. apply too_long; [split; assumption|]. intros Hst. destruct (Hs Hst); lia.
  Qed.

  Lemma decode_go m : forall fuel i j r bl, continued content i (j + N.of_nat m) -> j + N.of_nat m <= 10 ->
    (strict = true -> (Z.of_N (j + N.of_nat m) < bl)%Z) ->
    exists r', varint_decode_loop c (m + fuel) content (i + j) j bl (7 * j) r = varint_decode_loop c fuel content (i + j + N.of_nat m) (j + N.of_nat m) bl (7 * (j + N.of_nat m)) r'.
  Proof.
    induction m as [|m IH]; intros fuel i j r bl [Hc1 Hc2] Hj Hs.
    { exists r. rewrite !N.add_0_r. reflexivity. }
    cbn [Nat.add varint_decode_loop]. unfold read_byte. replace (i + j <? len content) with true by lia. cbn [obind].
    set (b := nth _ _ _). assert (Hb : 128 <= b2n b) by (apply Hc2; lia). pose proof (b2n_lt b).
    replace (7 * j <? 64) with true by lia. cbn [negb]. rewrite land128 by lia. replace (b2n b <? 128) with false by lia.
    replace (strict && negb (Z.of_N (j + 1) <? bl)%Z) with false.
    2:{ destruct strict; [|reflexivity]. specialize (Hs eq_refl). cbn [andb]. symmetry. apply Bool.negb_false_iff. apply Z.ltb_lt. lia. }
    destruct (IH fuel i (j + 1) (u64 (r + u64 (N.shiftl (N.land (b2n b) 127) (7 * j)))) bl) as (r' & Hr).
    { replace (j + 1 + N.of_nat m) with (j + N.of_nat (S m)) by lia. split; assumption. }
    { lia. }
    { intros Hst. specialize (Hs Hst). lia. }
    exists r'. replace (7 * j + 7) with (7 * (j + 1)) by lia. rewrite <- N.add_assoc, Hr.
    replace (i + (j + 1) + N.of_nat m) with (i + j + N.of_nat (S m)) by lia. replace (j + 1 + N.of_nat m) with (j + N.of_nat (S m)) by lia. reflexivity.
  Qed.

  Lemma decode_bl bl bl' fuel : ndebug c = true -> forall ptr k bits r,
    varint_decode_loop c fuel content ptr k bl bits r = varint_decode_loop c fuel content ptr k bl' bits r.
  Proof.
    intros Hnd. induction fuel as [|f IH]; intros; cbn [varint_decode_loop]; [reflexivity|]. rewrite Hnd. cbn [negb andb].
    destruct (read_byte _ _); cbn [obind]; auto. destruct (negb _); auto. destruct (_ =? 0); auto.
  Qed.

  Lemma decode_bad h i : bad_field strict content h i -> varint_decode c content i (Z.of_N (len content - i)) = out h.
  Proof.
    intros H. unfold varint_decode. destruct H as [i Hc Hs|i k Hst Hk0 Hk Hc He].
    - destruct (decode_go 10 2 i 0 0 (Z.of_N (len content - i))) as (r' & Hr); [exact Hc|lia| |].
      { intros Hst. specialize (Hs Hst). lia. }
      rewrite !N.add_0_r in Hr. change (7 * 0) with 0 in Hr. change (10 + 2)%nat with 12%nat in Hr. rewrite Hr. cbn [varint_decode_loop]. destruct Hc as [Hc _]. unfold read_byte.
      destruct (N.ltb_spec (i + N.of_nat 10) (len content)); [reflexivity|]. replace (i + N.of_nat 10 =? len content) with true by lia. reflexivity.
    - destruct (decode_go (N.to_nat (k - 1)) (13 - N.to_nat k) i 0 0 (Z.of_N (len content - i))) as (r' & Hr).
      { destruct Hc as [Hc1 Hc2]. split; [lia|]. intros j Hj. apply Hc2. lia. }
      { lia. }
      { intros _. lia. }
      rewrite !N.add_0_r in Hr. change (7 * 0) with 0 in Hr. replace (N.to_nat (k - 1) + (13 - N.to_nat k))%nat with 12%nat in Hr by lia. rewrite Hr.
      rewrite N.add_0_l. replace (N.of_nat (N.to_nat (k - 1))) with (k - 1) by lia.
      destruct (13 - N.to_nat k)%nat as [|f] eqn:Ef; [lia|]. cbn [varint_decode_loop]. unfold read_byte. replace (i + (k - 1) <? len content) with true by lia. cbn [obind].
      destruct Hc as [_ Hc2]. specialize (Hc2 (k - 1) ltac:(lia)). set (b := nth _ _ _) in *. pose proof (b2n_lt b).
      replace (7 * (k - 1) <? 64) with true by lia. cbn [negb]. rewrite land128 by lia. replace (b2n b <? 128) with false by lia.
      rewrite Hst. cbn [andb]. replace (Z.of_N (k - 1 + 1) <? Z.of_N (len content - i))%Z with false; [reflexivity|]. symmetry. apply Z.ltb_ge. lia.
  Qed.
End Fields.

Section Tame.
  Variable E : penv.
  Notation R := (b_env E).
  Notation content := (r_content (b_env E)).
  Notation strict := (negb (ndebug (r_cfg (b_env E)))).
  Hypothesis Hbase : r_base R = 0.
  Hypothesis Hsize : r_size R = len content.
  Hypothesis Hlim : lim (r_cfg R) (len content).
  Lemma Hin : r_base R + r_size R <= len content.
  Proof. rewrite Hbase, Hsize. lia. Qed.
  Lemma field_out h i : i <= len content -> parseLength R (at_ i) = out h -> bad_field strict content h i.
  Proof.
    intros Hi H. unfold parseLength in H. apply obind_out in H as [H|(? & He & H)]; [unfold check_empty in H; destruct (_ <=? _)%Z; [now apply throw_out in H|now apply ok_out in H]|].
    destruct x. apply (nonempty_at E Hbase Hsize Hlim) in He; [|exact Hi].
    rewrite curAddr_at in H by (rewrite Hsize; lia). cbn [obind] in H. rewrite Hbase, N.add_0_l in H.
    apply obind_out in H as [H|([v n] & _ & H)].
    - rewrite remain_at in H by (rewrite Hsize; (exact Hlim || lia)). rewrite Hsize in H.
      unfold varint_decode in H. destruct (Bool.bool_dec (ndebug (r_cfg R)) true) as [Hnd|Hnd]; [|apply Bool.not_true_is_false in Hnd].
      + rewrite (decode_bl (r_cfg R) content _ (Z.of_N (len content - i)) _ Hnd) in H.
        apply (decode_harm (r_cfg R) content 12 i 0 0 h); auto; try lia.
        * split; [lia|]. intros; lia.
        * rewrite N.add_0_r. exact H.
      + rewrite to_int32_small in H. 2:{ pose proof Hlim as HL. unfold lim in HL. rewrite Hnd in HL. change (2 ^ 31) with 2147483648 in HL. lia. }
        apply (decode_harm (r_cfg R) content 12 i 0 0 h); auto; try lia.
        * split; [lia|]. intros; lia.
        * rewrite N.add_0_r. exact H.
    - apply obind_out in H as [H|(? & _ & H)]; [|now apply ok_out in H]. unfold check_oor in H. destruct (_ <? _); [now apply throw_out in H|now apply ok_out in H].
  Qed.
  Lemma field_bad h i : bad_field strict content h i -> parseLength R (at_ i) = out h.
  Proof.
    intros H. assert (Hi : i < len content).
    { destruct H as [i [H _] _|i k _ H1 _ [H2 _] _]; lia. }
    unfold parseLength. rewrite check_empty_at by (rewrite Hsize; (exact Hlim || lia)). cbn [obind].
    rewrite curAddr_at by (rewrite Hsize; lia). cbn [obind]. rewrite Hbase, N.add_0_l.
    rewrite remain_at by (rewrite Hsize; (exact Hlim || lia)). rewrite Hsize.
    pose proof (decode_bad (r_cfg R) content h i H) as HD. destruct (Bool.bool_dec (ndebug (r_cfg R)) true) as [Hnd|Hnd]; [|apply Bool.not_true_is_false in Hnd].
    - unfold varint_decode in *. rewrite (decode_bl (r_cfg R) content _ (Z.of_N (len content - i)) _ Hnd).
      rewrite HD. apply out_bind.
    - rewrite to_int32_small, HD; [apply out_bind|]. pose proof Hlim as HL. unfold lim in HL. rewrite Hnd in HL. change (2 ^ 31) with 2147483648 in HL. lia.
  Qed.
  Lemma datatype_out h s : parseDataType R s <> out h.
  Proof.
    intros H. destruct h; [now apply (parseDataType_defined R Hin) in H|].
    unfold parseDataType, check_empty, curAddr, check_oor, read_byte in H. destruct (_ <=? _)%Z; [discriminate|]. cbn [obind] in H. destruct (_ <=? _); [discriminate|].
    cbn [obind] in H. destruct (_ <? _); cbn [obind] in H; [destruct (_ <? _); discriminate|]. destruct (_ =? _); cbn [obind] in H; [|discriminate]. destruct (_ <? _); discriminate.
  Qed.
  Lemma objecttype_out h s : parseObjectType R s <> out h.
  Proof.
    intros H. destruct h; [now apply (parseObjectType_defined R Hin) in H|].
    unfold parseObjectType, check_empty, curAddr, check_oor, read_byte in H. destruct (_ <=? _)%Z; [discriminate|]. cbn [obind] in H. destruct (_ <=? _); [discriminate|].
    cbn [obind] in H. destruct (_ <? _); cbn [obind] in H.
    - destruct (_ <? _); [discriminate|]. cbn [obind] in H. destruct (CharToObjectType _); discriminate.
    - destruct (_ =? _); cbn [obind] in H; [|discriminate]. destruct (_ <? _); [discriminate|]. cbn [obind] in H. destruct (CharToObjectType _); discriminate.
  Qed.
  Lemma curaddr_out h s : curAddr R s <> out h.
  Proof. unfold curAddr. destruct (_ <=? _); [apply throw_out|apply ok_out]. Qed.
  Lemma oor_out h s : check_oor R s <> out h.
  Proof. unfold check_oor. destruct (_ <? _); [apply throw_out|apply ok_out]. Qed.
  Lemma range_out h a n : a <= len content -> read_range content a n = out h <-> h = Undefined /\ past_buffer content a n.
  Proof.
    intros Ha. split.
    - intros H. destruct h; [split; [reflexivity|]; now apply read_range_ub in H|]. unfold read_range in H. destruct (_ =? 0); [discriminate|]. destruct (_ <=? _); discriminate.
    - intros [-> H]. now apply read_range_ub.
  Qed.
  Lemma num_out h t a n : a < len content -> parse_num (r_cfg R) content t a n = out h <->
    match h with
    | Undefined => (strict = true -> n = sizeof_num t) /\ (sizeof_num t < n \/ past_buffer content a n)
    | FailedAssert => strict = true /\ n <> sizeof_num t
    end.
  Proof.
    intros Ha. unfold parse_num. destruct (strict) eqn:Hs; cbn [andb].
    - destruct (N.eqb_spec (sizeof_num t) n) as [<-|Hne]; cbn [negb].
      + rewrite N.ltb_irrefl. split.
        * intros H. apply obind_out in H as [H|(? & _ & H)]; [|now apply ok_out in H]. apply range_out in H as [-> H]; [|lia]. split; auto.
        * destruct h; [|intros [_ H]; congruence]. intros [_ [H|H]]; [lia|]. apply read_range_ub in H; [|lia]. now rewrite H.
      + destruct h; cbn; split; try discriminate; auto. intros [H _]. specialize (H eq_refl). congruence.
    - destruct (N.ltb_spec (sizeof_num t) n).
      + destruct h; cbn.
        * split; [intros _; split; [discriminate|auto]|reflexivity].
        * split; [discriminate|intros [X _]; discriminate X].
      + split.
        * intros H'. apply obind_out in H' as [H'|(? & _ & H')]; [|now apply ok_out in H']. apply range_out in H' as [-> H']; [|lia]. split; [discriminate|auto].
        * destruct h; [|intros [? ?]; discriminate]. intros [_ [H'|H']]; [lia|]. apply read_range_ub in H'; [|lia]. now rewrite H'.
  Qed.
End Tame.

Section Overrun.
  Variable E : penv.
  Variable get : N -> outcome view.
  Variable D : option (N -> option bytes).
  Variable p : pool.
  Variable pr : bool.
  Notation R := (b_env E).
  Notation content := (r_content (b_env E)).
  Notation strict := (negb (ndebug (r_cfg (b_env E)))).
  Notation copying := (negb pr).
  Hypothesis Hbase : r_base R = 0.
  Hypothesis Hsize : r_size R = len content.
  Hypothesis Hlim : lim (r_cfg R) (len content).
  Hypothesis Hmap : b_map E = match D with Some _ => true | None => false end.
  Hypothesis Hsound : forall d id v s, D = Some d -> get id = Ok v -> read_local R v = Ok s -> d id = Some s.
  Hypothesis Hcomplete : forall d id s, D = Some d -> d id = Some s -> exists v, get id = Ok v /\ read_local R v = Ok s /\ v_buf v = b_buf E.
  Hypothesis Hsafe : D <> None -> forall id, (forall h, get id <> out h) /\ forall v, get id = Ok v -> exists s, read_local R v = Ok s.
  Hypothesis Hsmall : small_numbers content.

  Notation elements := (elements copying strict D content).
  Notation pairs := (pairs copying strict D content).
  Notation harms := (harms copying strict D content).
  Notation value_at := (value_at copying strict D content).
  Notation tag_at := (tag_at content).
  Notation key_at := (key_at D content).
  Notation bad_field := (bad_field strict content).
  Notation bad_payload := (bad_payload copying strict D content).

  Ltac ostep H := rewrite run_bind, ?run_lift in H; apply obind_out in H as [H|(? & ? & H)].
  Ltac absurd_out H := first [now apply ok_out in H|now apply throw_out in H|now apply fuel_out in H
    |now apply (curaddr_out E) in H|now apply (oor_out E) in H|now apply (datatype_out E Hbase Hsize) in H|now apply (objecttype_out E Hbase Hsize) in H].

  Lemma tame_small : forall s n s', parseLength R s = Ok (n, s') -> n < 2 ^ 63.
  Proof using Hbase Hsize Hlim Hsmall.
    clear Hsound Hcomplete Hsafe Hmap get. intros s n s' H. assert (H' : exists s2, parseLength R (at_ (idx s)) = Ok (n, s2)).
    { unfold parseLength in *. change (check_empty R (at_ (idx s))) with (check_empty R s). destruct (check_empty R s); try discriminate. cbn [obind] in *.
      change (curAddr R (at_ (idx s))) with (curAddr R s). destruct (curAddr R s); try discriminate. cbn [obind] in *.
      change (remain R (at_ (idx s))) with (remain R s). destruct (varint_decode _ _ _ _) as [[v k]| | | |]; try discriminate. cbn [obind] in *.
      change (check_oor R (skip k (at_ (idx s)))) with (check_oor R (skip k s)). destruct (check_oor R (skip k s)); try discriminate. cbn [obind] in *.
      injection H as <- <-. eauto. }
    destruct H' as (s2 & H'). assert (Hi : idx s <= len content).
    { unfold parseLength in H. apply obind_ok in H as (? & _ & H). apply obind_ok in H as (? & H & _). unfold curAddr in H. rewrite Hsize in H.
      destruct (N.leb_spec (len content) (idx s)); [discriminate|lia]. }
    destruct (parseLength_sound E Hbase Hsize Hlim _ _ _ Hi H') as (b & Hv & Hs & _). apply (Hsmall (idx s) n (idx s + len b)). exists b. auto.
  Qed.

  (** Whole values, in either mode. *)
  Lemma value_at_sound fuel t i o s : i <= len content -> run get (valueParse E p pr fuel t (at_ i)) = Ok (o, s) ->
    exists j, value_at t i j /\ s = at_ j /\ j <= len content.
  Proof.
    intros Hi H. destruct pr eqn:Hpr.
    - destruct (values_ref_sound E get D p Hbase Hsize Hlim Hmap) with (fuel := fuel) as (VS & _ & _).
      { intros d id v HD Hg. destruct (Hsafe ltac:(congruence) id) as [_ G]. destruct (G v Hg) as (sx & Hsx). eauto. }
      { exact tame_small. }
      apply VS in H as (v & b & Hty & Hw & Hs & -> & Hl & Hc); [|exact Hi]. exists (i + len b). split; [|auto].
      exists v, b. split; [exact Hty|]. split; [exact Hw|]. split; [|auto]. intros _. now apply has_custom_no.
    - destruct (values_sound E get D p Hbase Hsize Hlim Hmap Hsound fuel) as (VS & _ & _).
      apply VS in H as (v & b & Hty & Hw & Hs & -> & Hl & Ho); [|exact Hi]. exists (i + len b). split; [|auto].
      exists v, b. split; [exact Hty|]. split; [exact Hw|]. split; [discriminate|auto].
  Qed.

  Lemma value_at_complete fuel t i j : value_at t i j -> j < len content -> (N.to_nat (j - i) <= fuel)%nat ->
    exists o, run get (valueParse E p pr fuel t (at_ i)) = Ok (o, at_ j).
  Proof.
    intros (v & b & <- & Hw & Hc & Hs & ->) Hj Hf. destruct pr eqn:Hpr.
    - destruct (values_ref E get D p (fun _ => Some content)) with (fuel := fuel) as (VC & _ & _); auto.
      specialize (VC v b i Hw Hs Hj ltac:(unfold len in *; lia)). specialize (Hc eq_refl). apply has_custom_no in Hc. rewrite Hc in VC.
      destruct VC as (o & Ho & _). eauto.
    - destruct (values_complete E get D p Hbase Hsize Hlim Hmap) with (fuel := fuel) as (VC & _ & _).
      { intros d id s HD Hd. destruct (Hcomplete d id s HD Hd) as (w & G1 & G2 & _). eauto. }
      eexists. apply VC; auto. unfold len in *; lia.
  Qed.

  Lemma key_at_complete i j : key_at i j -> j < len content ->
    exists kv s, run get (parse_key E (at_ i)) = Ok (kv, at_ j) /\ read_local R kv = Ok s.
  Proof.
    intros (s & kb & Hk & Hs & ->) Hj. destruct (key_complete E get D Hbase Hsize Hlim Hmap) with (i := i) (k := s) (kb := kb) as (kv & K1 & K2); auto.
    { intros d id s' HD Hd. destruct (Hcomplete d id s' HD Hd) as (w & G1 & G2 & _). eauto. }
    eauto.
  Qed.

  Lemma valid_tag d : valid_data_type d = true <-> data_tag d.
  Proof.
    split.
    - intros H. apply valid_cases in H as [H|[H|[H|(t & _ & H)]]]; unfold data_tag; eauto 6.
    - intros [->|[->|[->|(t & ->)]]]; try reflexivity. now destruct t.
  Qed.

  Lemma data_out h i : i <= len content -> run get (Data_valueParse E pr (at_ i)) = out h -> bad_payload h i.
  Proof.
    intros Hi H. unfold Data_valueParse in H. ostep H; [absurd_out H|]. destruct x as [dt s1].
    destruct (parseDataType_sound E Hbase Hsize Hlim i dt s1 Hi H0) as (x & Hx & -> & -> & Hi1). clear H0.
    destruct (valid_data_type (b2n x)) eqn:Hv; cbn [negb] in H; [|absurd_out H].
    assert (Hnx : n2b (b2n x) = x) by apply n2b_b2n.
    assert (HF : bad_field h (i + 1) -> bad_payload h i).
    { intros Hb. apply bad_length with (d := b2n x); [now apply valid_tag|rewrite Hnx; exact Hx|exact Hb]. }
    destruct ((b2n x =? BRIDGE_STRING) && b_map E) eqn:Hd.
    - apply andb_true_iff in Hd as [Hd Hm]. rewrite Hmap in Hm.
      ostep H; [apply (field_out E Hbase Hsize Hlim) in H; auto|]. destruct x0 as [id s2]. cbn [run] in H.
      destruct (Hsafe ltac:(destruct D; discriminate) (u32 id)) as [G1 G2]. apply obind_out in H as [H|(v & Hgv & H)]; [now apply G1 in H|].
      destruct pr; [absurd_out H|].
      destruct (G2 v Hgv) as (s & Hs). ostep H; [rewrite Hs in H; absurd_out H|]. absurd_out H.
    - ostep H; [apply (field_out E Hbase Hsize Hlim) in H; auto|]. destruct x0 as [n s2].
      destruct (parseLength_sound E Hbase Hsize Hlim _ _ _ Hi1 H0) as (b & Hvb & Hsb & -> & Hb). clear H0.
      ostep H; [absurd_out H|]. apply (curAddr_inv E Hbase Hsize Hlim) in H0 as [-> Hlt].
      assert (Hnum : number_at content (i + 1) n (i + 1 + len b)) by (exists b; auto).
      ostep H.
      2:{ ostep H; [absurd_out H|]. destruct pr; absurd_out H. }
      assert (HN : forall t, b2n x = dt_of_num t -> parse_num (r_cfg R) content t (i + 1 + len b) n = out h -> bad_payload h i).
      { intros t Hc HU. apply (num_out E Hbase Hsize) in HU; [|exact Hlt]. destruct h.
        - destruct HU as [N1 N2]. apply bad_number with (t := t) (n := n) (a := i + 1 + len b); auto. rewrite <- Hc, Hnx. exact Hx.
        - destruct HU as [N1 N2]. apply wrong_size with (t := t) (n := n) (a := i + 1 + len b); auto. rewrite <- Hc, Hnx. exact Hx. }
      destruct pr eqn:Hpr.
      + unfold parseData_view in H. destruct (valid_cases _ Hv) as [Hc|[Hc|[Hc|(t & Ht & Hc)]]].
        * rewrite Hc in H. absurd_out H.
        * rewrite Hc in H. absurd_out H.
        * rewrite Hc in H. absurd_out H.
        * destruct (dt_of_num_not_blob t) as (E1 & E2 & E3 & E4 & E5 & E6). rewrite Hc, E1, E3 in H. cbn [orb] in H. rewrite <- Hc, Ht in H. eauto.
      + unfold parseData in H. destruct (valid_cases _ Hv) as [Hc|[Hc|[Hc|(t & Ht & Hc)]]].
        * rewrite Hc in H. cbn [N.eqb BRIDGE_BYTES BRIDGE_CUSTOM orb] in H. unfold omap in H. apply obind_out in H as [H|(? & _ & H)]; [|absurd_out H].
          apply (range_out E) in H as [-> H]; [|lia]. apply bad_blob with (d := BRIDGE_BYTES) (n := n) (a := i + 1 + len b); auto. rewrite <- Hc, Hnx. exact Hx.
        * rewrite Hc in H, Hd. cbn in H. unfold omap in H. apply obind_out in H as [H|(? & _ & H)]; [|absurd_out H].
          apply (range_out E) in H as [-> H]; [|lia]. apply bad_blob with (d := BRIDGE_STRING) (n := n) (a := i + 1 + len b); auto.
          -- right. right. split; [reflexivity|]. cbn in Hd. rewrite Hmap in Hd. now destruct D.
          -- rewrite <- Hc, Hnx. exact Hx.
        * rewrite Hc in H. cbn in H. unfold omap in H. apply obind_out in H as [H|(? & _ & H)]; [|absurd_out H].
          apply (range_out E) in H as [-> H]; [|lia]. apply bad_blob with (d := BRIDGE_CUSTOM) (n := n) (a := i + 1 + len b); auto. rewrite <- Hc, Hnx. exact Hx.
        * destruct (dt_of_num_not_blob t) as (E1 & E2 & E3 & E4 & E5 & E6). rewrite Hc, E1, E2, E3 in H. cbn [orb] in H.
          rewrite <- Hc, Ht in H. eauto.
  Qed.

  Lemma data_out_complete h i : bad_payload h i -> run get (Data_valueParse E pr (at_ i)) = out h.
  Proof.
    assert (Hpay : forall h d n a, found content i [n2b d] -> number_at content (i + 1) n a -> a < len content -> d < 256 ->
      valid_data_type d = true -> ((d =? BRIDGE_STRING) && b_map E = false) ->
      (if pr then parseData_view (r_cfg R) content (b_buf E) d a n else parseData (r_cfg R) content d a n) = out h ->
      run get (Data_valueParse E pr (at_ i)) = out h).
    { intros h' d n a Hf (b & Hvb & Hsb & ->) Ha Hd Hv Hm HP. unfold Data_valueParse. rewrite run_bind, run_lift.
      rewrite (parseDataType_complete E Hbase Hsize Hlim i (n2b d)) by exact Hf. cbn [obind].
      rewrite b2n_n2b by exact Hd. rewrite Hv, Hm. cbn [negb]. rewrite run_bind, run_lift.
      rewrite (parseLength_complete E Hbase Hsize Hlim (i + 1) n b) by auto. cbn [obind].
      rewrite run_bind, run_lift. rewrite curAddr_at by (rewrite Hsize; lia). cbn [obind]. rewrite Hbase, N.add_0_l.
      rewrite run_bind, run_lift, HP. apply out_bind. }
    assert (Hnum : forall h t n a, found content i [n2b (dt_of_num t)] -> number_at content (i + 1) n a -> a < len content ->
      parse_num (r_cfg R) content t a n = out h -> run get (Data_valueParse E pr (at_ i)) = out h).
    { intros h' t n a Hf Hn Ha HU. destruct (dt_of_num_not_blob t) as (E1 & E2 & E3 & E4 & E5 & E6). apply (Hpay h' _ n a Hf Hn Ha).
      + destruct t; reflexivity.
      + destruct t; reflexivity.
      + now rewrite E3.
      + unfold parseData, parseData_view. rewrite E1, E2, E3, E4. cbn [orb]. now destruct pr. }
    intros H. destruct H as [h i d Hd Hf Hb|i d n a Hcp Hd Hf Hn Ha Hp|i t n a Hf Hn Ha Hst Hp|i t n a Hst Hf Hn Ha Hp].
    - unfold Data_valueParse. rewrite run_bind, run_lift. rewrite (parseDataType_complete E Hbase Hsize Hlim i (n2b d)) by exact Hf. cbn [obind].
      assert (Hd' : d < 256) by (destruct Hd as [->|[->|[->|(t & ->)]]]; try reflexivity; now destruct t).
      rewrite b2n_n2b by exact Hd'. apply valid_tag in Hd. rewrite Hd. cbn [negb].
      destruct (_ && _); rewrite run_bind, run_lift, (field_bad E Hbase Hsize Hlim h (i + 1) Hb); apply out_bind.
    - destruct pr; [discriminate|]. apply read_range_ub in Hp; [|lia]. destruct Hd as [->|[->|[-> HD]]]; apply (Hpay Undefined _ n a Hf Hn Ha); try reflexivity.
      + unfold parseData. cbn. now rewrite Hp.
      + unfold parseData. cbn. now rewrite Hp.
      + now rewrite Hmap, HD.
      + unfold parseData. cbn. now rewrite Hp.
    - apply (Hnum Undefined t n a); auto. apply (num_out E Hbase Hsize); auto.
    - apply (Hnum FailedAssert t n a); auto. apply (num_out E Hbase Hsize); auto.
  Qed.

  Lemma key_at_sound i kv s1 : i <= len content -> run get (parse_key E (at_ i)) = Ok (kv, s1) ->
    exists j, key_at i j /\ s1 = at_ j /\ j <= len content /\ exists s, read_local R kv = Ok s.
  Proof.
    intros Hi H. assert (exists s, read_local R kv = Ok s) as (s & Hs).
    { unfold parse_key in H. rewrite Hmap in H. destruct D as [d|] eqn:HD.
      - rewrite run_bind, run_lift in H. apply obind_ok in H as ([id s2] & _ & H). cbn [run] in H. apply obind_ok in H as (v & Hgv & [= <- <-]).
        now apply (Hsafe ltac:(discriminate) (u32 id)).
      - rewrite run_bind, run_lift in H. apply obind_ok in H as ([n s2] & H0 & H). pose proof (tame_small _ _ _ H0) as Ht.
        destruct (parseLength_sound E Hbase Hsize Hlim _ _ _ Hi H0) as (b & Hvb & Hsb & -> & Hb).
        rewrite run_bind, run_lift in H. apply obind_ok in H as (a & Ha & H). apply (curAddr_inv E Hbase Hsize Hlim) in Ha as [-> Hlt].
        rewrite run_bind, run_lift in H. apply obind_ok in H as (u & Hu & H). cbn [run] in H. injection H as <- <-.
        pose proof (HW E Hlim) as HW.
        unfold check_oor in Hu. cbn [skip idx at_] in Hu. rewrite u64_small in Hu by (rewrite W64_val; lia). rewrite Hsize in Hu.
        destruct (N.ltb_spec (len content) (i + len b + n)); [discriminate|].
        unfold read_local. cbn [v_off v_len]. unfold read_range. destruct (_ =? 0); [eauto|].
        replace (i + len b + n <=? len content + 1) with true by lia. eauto. }
    destruct (key_sound E get D Hbase Hsize Hlim Hmap Hsound i kv s1 s Hi H Hs) as (kb & K1 & K2 & K3 & K4).
    exists (i + len kb). split; [exists s, kb; auto|]. split; [exact K3|]. split; [exact K4|eauto].
  Qed.

  Lemma key_out h i : i <= len content -> run get (parse_key E (at_ i)) = out h -> bad_field h i.
  Proof.
    intros Hi H. unfold parse_key in H. rewrite Hmap in H. destruct D as [d|] eqn:HD.
    - ostep H; [now apply (field_out E Hbase Hsize Hlim) in H|]. destruct x as [id s2]. cbn [run] in H.
      apply obind_out in H as [H|(v & _ & H)]; [now apply (Hsafe ltac:(discriminate)) in H|absurd_out H].
    - ostep H; [now apply (field_out E Hbase Hsize Hlim) in H|]. destruct x as [n s2].
      ostep H; [absurd_out H|]. ostep H; [absurd_out H|absurd_out H].
  Qed.
  Lemma key_bad h i : bad_field h i -> run get (parse_key E (at_ i)) = out h.
  Proof.
    intros H. unfold parse_key. destruct (ModelParse.b_map E); rewrite run_bind, run_lift, (field_bad E Hbase Hsize Hlim h i H); apply out_bind.
  Qed.

  Definition entry_harms (h : harm) (n i : N) : Prop := exists done c, pairs done i c /\ done < n /\
    (bad_field h c \/ exists e t, key_at c e /\ tag_at e t /\ harms h t (e + 1)).

  Lemma values_out h fuel :
    (forall t i, i <= len content -> run get (valueParse E p pr fuel t (at_ i)) = out h -> harms h t i) /\
    (forall n i acc, i <= len content -> run get (array_loop E p pr fuel n (at_ i) acc) = out h ->
       exists done c t, elements done i c /\ done < n /\ tag_at c t /\ harms h t (c + 1)) /\
    (forall n i acc, i <= len content -> run get (map_loop E p pr fuel n (at_ i) acc) = out h -> entry_harms h n i) /\
    (forall n i acc, i <= len content -> run get (mapview_loop E p pr fuel n (at_ i) acc) = out h -> entry_harms h n i).
  Proof.
    induction fuel as [|f (IHv & IHa & IHm & IHw)].
    { split; [|split; [|split]]; intros; match goal with H : _ = out h |- _ => now apply fuel_out in H end. }
    pose proof (value_at_sound f) as VS.
    assert (HN : forall t i, t <> TData -> bad_field h i -> harms h t i) by (intros; now apply hm_count).
    split; [|split; [|split]].
    - intros t i Hi H. cbn [valueParse] in H. destruct t.
      + apply hm_payload. now apply data_out.
      + ostep H; [apply (field_out E Hbase Hsize Hlim) in H; [apply HN; [discriminate|exact H]|exact Hi]|]. destruct x as [n s1].
        destruct (parseLength_sound E Hbase Hsize Hlim _ _ _ Hi H0) as (cnt & Hvc & Hsc & -> & Hc). clear H0.
        ostep H; [apply (field_out E Hbase Hsize Hlim) in H; [apply hm_id with (n := n) (a := i + len cnt); [discriminate|eexists; eauto|exact H]|exact Hc]|].
        destruct x as [id s2]. destruct (parseLength_sound E Hbase Hsize Hlim _ _ _ Hc H0) as (idb & Hvi & Hsi & -> & Hib). clear H0.
        assert (HE : entry_harms h n (i + len cnt + len idb)).
        { destruct pr eqn:Hpr.
          - ostep H; [now apply IHw in H|]. destruct x. absurd_out H.
          - ostep H; [absurd_out H|]. ostep H; [now apply IHm in H|]. destruct x0. absurd_out H. }
        destruct HE as (done & c & H1 & H2 & [H3|(e & t & H3 & H4 & H5)]).
        * apply hm_key with (n := n) (a := i + len cnt) (id := id) (b := i + len cnt + len idb) (done := done) (c := c); auto; eexists; eauto.
        * apply hm_entry with (n := n) (a := i + len cnt) (id := id) (b := i + len cnt + len idb) (done := done) (c := c) (e := e) (t := t); auto; eexists; eauto.
      + ostep H; [apply (field_out E Hbase Hsize Hlim) in H; [apply HN; [discriminate|exact H]|exact Hi]|]. destruct x as [n s1].
        destruct (parseLength_sound E Hbase Hsize Hlim _ _ _ Hi H0) as (cnt & Hvc & Hsc & -> & Hc). clear H0.
        ostep H; [apply (field_out E Hbase Hsize Hlim) in H; [apply hm_id with (n := n) (a := i + len cnt); [discriminate|eexists; eauto|exact H]|exact Hc]|].
        destruct x as [id s2]. destruct (parseLength_sound E Hbase Hsize Hlim _ _ _ Hc H0) as (idb & Hvi & Hsi & -> & Hib). clear H0.
        ostep H. 2:{ destruct x. absurd_out H. }
        apply IHa in H as (done & c & t & H1 & H2 & H3 & H4); [|exact Hib].
        apply hm_element with (n := n) (a := i + len cnt) (id := id) (b := i + len cnt + len idb) (done := done) (c := c) (t := t); auto; eexists; eauto.
    - intros n i acc Hi H. cbn [array_loop] in H. destruct (N.eqb_spec n 0) as [->|Hn]; [absurd_out H|].
      ostep H; [absurd_out H|]. destruct x as [t s1].
      destruct (parseObjectType_sound E Hbase Hsize Hlim _ _ _ Hi H0) as (tg & Htg & Ht & -> & Hi1). clear H0.
      assert (Htag : tag_at i t) by (exists tg; auto).
      rewrite run_bind in H. apply obind_out in H as [H|([o s2] & Hv & H)].
      + apply IHv in H; [|exact Hi1]. exists 0, i, t. split; [constructor|]. split; [lia|]. auto.
      + apply VS in Hv as (j & Hv & -> & Hl); [|exact Hi1].
        apply IHa in H as (done & c & t' & H1 & H2 & H3 & H4); [|exact Hl].
        exists (1 + done), c, t'. split; [|split; [lia|auto]]. apply el_more with (t := t) (j := j); auto.
    - intros n i acc Hi H. cbn [map_loop] in H. destruct (N.eqb_spec n 0) as [->|Hn]; [absurd_out H|].
      rewrite run_bind in H. apply obind_out in H as [H|([kv s1] & Hk & H)].
      { apply key_out in H; [|exact Hi]. exists 0, i. split; [constructor|]. split; [lia|]. auto. }
      destruct (key_at_sound i kv s1 Hi Hk) as (j & Hkey & -> & Hj & s & Hs).
      ostep H; [absurd_out H|]. destruct x as [t s2].
      destruct (parseObjectType_sound E Hbase Hsize Hlim _ _ _ Hj H0) as (tg & Htg & Ht & -> & Hi1). clear H0.
      assert (Htag : tag_at j t) by (exists tg; auto).
      rewrite run_bind in H. apply obind_out in H as [H|([o s3] & Hv & H)].
      + apply IHv in H; [|exact Hi1]. exists 0, i. split; [constructor|]. split; [lia|]. right. exists j, t. auto.
      + apply VS in Hv as (j2 & Hv & -> & Hl); [|exact Hi1].
        ostep H; [rewrite Hs in H; absurd_out H|].
        apply IHm in H as (done & c & H1 & H2 & H3); [|exact Hl].
        exists (1 + done), c. split; [|split; [lia|auto]]. apply en_more with (e := j) (t := t) (j := j2); auto.
    - intros n i acc Hi H. cbn [mapview_loop] in H. destruct (N.eqb_spec n 0) as [->|Hn]; [absurd_out H|].
      rewrite run_bind in H. apply obind_out in H as [H|([kv s1] & Hk & H)].
      { apply key_out in H; [|exact Hi]. exists 0, i. split; [constructor|]. split; [lia|]. auto. }
      destruct (key_at_sound i kv s1 Hi Hk) as (j & Hkey & -> & Hj & s & Hs).
      ostep H; [absurd_out H|]. destruct x as [t s2].
      destruct (parseObjectType_sound E Hbase Hsize Hlim _ _ _ Hj H0) as (tg & Htg & Ht & -> & Hi1). clear H0.
      assert (Htag : tag_at j t) by (exists tg; auto).
      rewrite run_bind in H. apply obind_out in H as [H|([o s3] & Hv & H)].
      + apply IHv in H; [|exact Hi1]. exists 0, i. split; [constructor|]. split; [lia|]. right. exists j, t. auto.
      + apply VS in Hv as (j2 & Hv & -> & Hl); [|exact Hi1].
        apply IHw in H as (done & c & H1 & H2 & H3); [|exact Hl].
        exists (1 + done), c. split; [|split; [lia|auto]]. apply en_more with (e := j) (t := t) (j := j2); auto.
  Qed.

  Lemma value_at_pos t i j : value_at t i j -> i < j.
  Proof. intros (v & b & _ & Hw & _ & _ & ->). apply lwire_pos in Hw. unfold len. lia. Qed.

  Lemma elements_out h t : forall done j c, elements done j c -> forall n f acc, done < n -> (length content + 1 < f + N.to_nat j)%nat -> tag_at c t ->
    (forall fuel, (length content < fuel + N.to_nat (c + 1))%nat -> run get (valueParse E p pr fuel t (at_ (c + 1))) = out h) ->
    run get (array_loop E p pr f n (at_ j) acc) = out h.
  Proof.
    induction 1 as [j|m j t' k c Ht' Hv Hel IH]; intros n f acc Hn Hf Ht HU; pose proof (tag_at_pos _ _ _ Ht).
    - destruct f as [|f]; [unfold len in *; lia|]. cbn [array_loop]. replace (n =? 0) with false by lia. destruct Ht as (x & Hx & Hxt).
      rewrite run_bind, run_lift, (parseObjectType_complete E Hbase Hsize Hlim j x t) by auto. cbn [obind]. rewrite run_bind, HU by lia. apply out_bind.
    - pose proof (tag_at_pos _ _ _ Ht'). pose proof (elements_pos _ _ _ _ _ _ _ Hel). pose proof (value_at_pos _ _ _ Hv).
      destruct f as [|f]; [unfold len in *; lia|]. cbn [array_loop]. replace (n =? 0) with false by lia. destruct Ht' as (x & Hx & Hxt).
      rewrite run_bind, run_lift, (parseObjectType_complete E Hbase Hsize Hlim j x t') by auto. cbn [obind]. rewrite run_bind.
      destruct (value_at_complete f t' (j + 1) k Hv) as (o & Ho); [lia|unfold len in *; lia|]. rewrite Ho. cbn [obind].
      apply IH; auto; unfold len in *; lia.
  Qed.

  (** What stands behind the complete entries. *)
  Definition stops (h : harm) (c : N) : Prop :=
    bad_field h c \/ exists e t, key_at c e /\ tag_at e t /\
      forall fuel, (length content < fuel + N.to_nat (e + 1))%nat -> run get (valueParse E p pr fuel t (at_ (e + 1))) = out h.
  Lemma stops_pos h c : stops h c -> c < len content.
  Proof.
    intros [H|(e & t & Hk & Ht & _)].
    - destruct H as [i [H _] _|i k _ H1 _ [H2 _] _]; lia.
    - apply key_at_pos in Hk. apply tag_at_pos in Ht. lia.
  Qed.

  Lemma pairs_out h : forall done j c, pairs done j c -> forall n f acc, done < n -> (length content + 1 < f + N.to_nat j)%nat -> stops h c ->
    run get (map_loop E p pr f n (at_ j) acc) = out h.
  Proof.
    induction 1 as [j|m j e' t' k c Hk' Ht' Hv Hel IH]; intros n f acc Hn Hf HU; pose proof (stops_pos _ _ HU).
    - destruct f as [|f]; [unfold len in *; lia|]. cbn [map_loop]. replace (n =? 0) with false by lia. destruct HU as [HU|(e & t & Hk & Ht & HU)].
      { rewrite run_bind, key_bad with (h := h) by exact HU. apply out_bind. }
      pose proof (key_at_pos _ _ _ _ Hk); pose proof (tag_at_pos _ _ _ Ht).
      destruct (key_at_complete _ _ Hk) as (kv & s & K1 & K2); [lia|]. rewrite run_bind, K1. cbn [obind]. destruct Ht as (x & Hx & Hxt).
      rewrite run_bind, run_lift, (parseObjectType_complete E Hbase Hsize Hlim _ x t) by auto. cbn [obind]. rewrite run_bind, HU by lia. apply out_bind.
    - pose proof (key_at_pos _ _ _ _ Hk'). pose proof (tag_at_pos _ _ _ Ht'). pose proof (pairs_pos _ _ _ _ _ _ _ Hel). pose proof (value_at_pos _ _ _ Hv).
      destruct f as [|f]; [unfold len in *; lia|]. cbn [map_loop]. replace (n =? 0) with false by lia.
      destruct (key_at_complete _ _ Hk') as (kv & s & K1 & K2); [lia|]. rewrite run_bind, K1. cbn [obind]. destruct Ht' as (x & Hx & Hxt).
      rewrite run_bind, run_lift, (parseObjectType_complete E Hbase Hsize Hlim _ x t') by auto. cbn [obind]. rewrite run_bind.
      destruct (value_at_complete f t' (e' + 1) k Hv) as (o & Ho); [lia|unfold len in *; lia|]. rewrite Ho. cbn [obind]. rewrite run_bind, run_lift, K2. cbn [obind].
      apply IH; auto; unfold len in *; lia.
  Qed.

  Lemma wpairs_out h : forall done j c, pairs done j c -> forall n f acc, done < n -> (length content + 1 < f + N.to_nat j)%nat -> stops h c ->
    run get (mapview_loop E p pr f n (at_ j) acc) = out h.
  Proof.
    induction 1 as [j|m j e' t' k c Hk' Ht' Hv Hel IH]; intros n f acc Hn Hf HU; pose proof (stops_pos _ _ HU).
    - destruct f as [|f]; [unfold len in *; lia|]. cbn [mapview_loop]. replace (n =? 0) with false by lia. destruct HU as [HU|(e & t & Hk & Ht & HU)].
      { rewrite run_bind, key_bad with (h := h) by exact HU. apply out_bind. }
      pose proof (key_at_pos _ _ _ _ Hk); pose proof (tag_at_pos _ _ _ Ht).
      destruct (key_at_complete _ _ Hk) as (kv & s & K1 & K2); [lia|]. rewrite run_bind, K1. cbn [obind]. destruct Ht as (x & Hx & Hxt).
      rewrite run_bind, run_lift, (parseObjectType_complete E Hbase Hsize Hlim _ x t) by auto. cbn [obind]. rewrite run_bind, HU by lia. apply out_bind.
    - pose proof (key_at_pos _ _ _ _ Hk'). pose proof (tag_at_pos _ _ _ Ht'). pose proof (pairs_pos _ _ _ _ _ _ _ Hel). pose proof (value_at_pos _ _ _ Hv).
      destruct f as [|f]; [unfold len in *; lia|]. cbn [mapview_loop]. replace (n =? 0) with false by lia.
      destruct (key_at_complete _ _ Hk') as (kv & s & K1 & K2); [lia|]. rewrite run_bind, K1. cbn [obind]. destruct Ht' as (x & Hx & Hxt).
      rewrite run_bind, run_lift, (parseObjectType_complete E Hbase Hsize Hlim _ x t') by auto. cbn [obind]. rewrite run_bind.
      destruct (value_at_complete f t' (e' + 1) k Hv) as (o & Ho); [lia|unfold len in *; lia|]. rewrite Ho. cbn [obind].
      apply IH; auto; unfold len in *; lia.
  Qed.

  Lemma bad_field_pos h i : bad_field h i -> i < len content.
  Proof. intros [j [H _] _|j k _ H1 _ [H2 _] _]; lia. Qed.

  Lemma harms_out h : forall t i, harms h t i -> forall fuel, (length content < fuel + N.to_nat i)%nat ->
    run get (valueParse E p pr fuel t (at_ i)) = out h.
  Proof.
    assert (HM : forall i n a id b done c, number_at content i n a -> number_at content a id b -> pairs done b c -> done < n -> stops h c ->
      forall fuel, (length content < fuel + N.to_nat i)%nat -> run get (valueParse E p pr fuel TMap (at_ i)) = out h).
    { intros i n a id b done c Ha Hb Hel Hn HS fuel Hfuel. pose proof (number_at_pos _ _ _ _ Ha). pose proof (number_at_pos _ _ _ _ Hb).
      destruct fuel as [|f]; [unfold len in *; lia|]. cbn [valueParse].
      destruct Ha as (ba & Hva & Hsa & ->). destruct Hb as (bb & Hvb & Hsb & ->).
      rewrite run_bind, run_lift, (parseLength_complete E Hbase Hsize Hlim i n ba) by auto. cbn [obind].
      rewrite run_bind, run_lift, (parseLength_complete E Hbase Hsize Hlim _ id bb) by auto. cbn [obind].
      assert (HW : run get (mapview_loop E p pr f n (at_ (i + len ba + len bb)) []) = out h) by (apply (wpairs_out h _ _ _ Hel); auto; lia).
      assert (HM : run get (map_loop E p pr f n (at_ (i + len ba + len bb)) []) = out h) by (apply (pairs_out h _ _ _ Hel); auto; lia).
      destruct pr.
      + rewrite run_bind, HW. apply out_bind.
      + rewrite run_bind, run_lift. rewrite ParseLemmas.check_oor_ok by (cbn; rewrite Hsize; lia). cbn [obind]. rewrite run_bind, HM. apply out_bind. }
    induction 1 as [i Hb|i t Ht Hb|i t n a Ht Ha Hb|i n a id b done c t Ha Hb Hel Hn Ht Hov IH|i n a id b done c Ha Hb Hel Hn Hbad|i n a id b done c e t Ha Hb Hel Hn Hk Ht Hov IH]; intros fuel Hfuel.
    - assert (i < len content).
      { destruct Hb as [h' i' d _ Hf _|i' d n a _ _ Hf _ _ _|i' t n a Hf _ _ _ _|i' t n a _ Hf _ _ _]; apply stands_len in Hf; rewrite len_cons in Hf; lia. }
      destruct fuel as [|f]; [unfold len in *; lia|]. cbn [valueParse]. now apply data_out_complete.
    - pose proof (bad_field_pos _ _ Hb). destruct fuel as [|f]; [unfold len in *; lia|]. cbn [valueParse].
      destruct t; [congruence| |]; rewrite run_bind, run_lift, (field_bad E Hbase Hsize Hlim h i Hb); apply out_bind.
    - pose proof (number_at_pos _ _ _ _ Ha). pose proof (bad_field_pos _ _ Hb). destruct fuel as [|f]; [unfold len in *; lia|]. cbn [valueParse].
      destruct Ha as (ba & Hva & Hsa & ->).
      destruct t; [congruence| |]; rewrite run_bind, run_lift, (parseLength_complete E Hbase Hsize Hlim i n ba) by auto; cbn [obind];
        rewrite run_bind, run_lift, (field_bad E Hbase Hsize Hlim h _ Hb); apply out_bind.
    - pose proof (number_at_pos _ _ _ _ Ha). pose proof (number_at_pos _ _ _ _ Hb).
      destruct fuel as [|f]; [unfold len in *; lia|]. cbn [valueParse].
      destruct Ha as (ba & Hva & Hsa & ->). destruct Hb as (bb & Hvb & Hsb & ->).
      rewrite run_bind, run_lift, (parseLength_complete E Hbase Hsize Hlim i n ba) by auto. cbn [obind].
      rewrite run_bind, run_lift, (parseLength_complete E Hbase Hsize Hlim _ id bb) by auto. cbn [obind].
      rewrite run_bind. rewrite (elements_out h t _ _ _ Hel) by (auto; lia). apply out_bind.
    - eapply HM; eauto. now left.
    - eapply HM; eauto. right. exists e, t. auto.
  Qed.
End Overrun.
