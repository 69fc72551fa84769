(** * The sequential owning parser accepts exactly the language of Lenient.v. *)
From Verif Require Import Base BaseLemmas ModelVarint ModelData ModelSecondary ModelObject
  ModelParse ModelWrapper Spec VarintProofs Wire Lenient NumProofs SeriProofs ObjInd ParseLemmas NormalProofs
  GeneralProofs DocProofs PropDocument FrameProofs.
From Coq Require Import ZifyBool ZifyNat ZifyN.

(** [b] stands at position [i] of the content. *)
Definition stands (content : bytes) (i : N) (b : bytes) : Prop :=
  exists A B, content = A ++ b ++ B /\ len A = i.

Lemma stands_app content i a b : stands content i a -> stands content (i + len a) b -> stands content i (a ++ b).
Proof.
  intros (A & B & H & HA) (A' & B' & H' & HA'). exists A, B'. split; [|exact HA].
  assert (Hl : length (A ++ a) = length A') by (rewrite app_length; unfold len in *; lia).
  assert (A ++ a = A') as <-.
  { rewrite H in H'. rewrite app_assoc in H'. apply (f_equal (firstn (length A'))) in H'.
    rewrite <- Hl in H' at 1. rewrite (firstn_app_exact (A ++ a)), (firstn_app_exact A') in H' by reflexivity. exact H'. }
  rewrite H'. now rewrite <- !app_assoc.
Qed.

Lemma stands_l content i a b : stands content i (a ++ b) -> stands content i a.
Proof. intros (A & B & -> & HA). exists A, (b ++ B). rewrite <- app_assoc. auto. Qed.
Lemma stands_r content i a b : stands content i (a ++ b) -> stands content (i + len a) b.
Proof. intros (A & B & -> & HA). exists (A ++ a), B. rewrite len_app, <- !app_assoc. split; [reflexivity|lia]. Qed.
Lemma stands_nil content i : i <= len content -> stands content i [].
Proof.
  intros H. exists (firstn (N.to_nat i) content), (skipn (N.to_nat i) content). cbn. split; [symmetry; apply firstn_skipn|].
  unfold len in *. rewrite firstn_length. lia.
Qed.
Lemma stands_len content i b : stands content i b -> i + len b <= len content.
Proof. intros (A & B & -> & <-). rewrite !len_app. lia. Qed.
Lemma stands_cons content i x b : stands content i [x] -> stands content (i + 1) b -> stands content i (x :: b).
Proof. intros. change (x :: b) with ([x] ++ b). now apply stands_app. Qed.

Lemma read_byte_stands content i b : i < len content -> read_byte content i = Ok b <-> stands content i [b].
Proof.
  intros Hi. unfold read_byte. replace (i <? len content) with true by lia. split.
  - intros [= <-]. exists (firstn (N.to_nat i) content), (skipn (S (N.to_nat i)) content). unfold len in *. split.
    + cbn [app]. rewrite <- (firstn_skipn (N.to_nat i) content) at 1. f_equal.
      assert (H : (N.to_nat i < length content)%nat) by lia. clear Hi.
      revert H. generalize (N.to_nat i). clear i. induction content as [|x l IH]; cbn; [lia|]. intros [|n] H; [reflexivity|].
      cbn. apply IH. lia.
    + rewrite firstn_length. lia.
  - intros (A & B & -> & <-). f_equal. unfold len. rewrite app_nth2 by lia.
    replace (N.to_nat (N.of_nat (length A)) - length A)%nat with 0%nat by lia. reflexivity.
Qed.

Lemma read_range_stands content i s : stands content i s -> read_range content i (len s) = Ok s.
Proof. intros (A & B & -> & <-). apply read_range_mid. Qed.

Lemma stands_read content i n s : read_range content i n = Ok s -> i + n <= len content -> stands content i s /\ len s = n.
Proof.
  unfold read_range. destruct (N.eqb_spec n 0) as [->|Hn].
  - intros [= <-] H. split; [apply stands_nil; lia|reflexivity].
  - destruct (_ <=? _); [|discriminate]. intros [= <-] H. unfold slice.
    assert (E : firstn (N.to_nat n) (skipn (N.to_nat i) (content ++ [x00])) = firstn (N.to_nat n) (skipn (N.to_nat i) content)).
    { rewrite skipn_app, firstn_app. unfold len in H.
      replace (N.to_nat n - length (skipn (N.to_nat i) content))%nat with 0%nat by (rewrite skipn_length; lia).
      now rewrite firstn_O, app_nil_r. }
    rewrite E. unfold len in *. split; [|rewrite firstn_length, skipn_length; lia].
    exists (firstn (N.to_nat i) content), (skipn (N.to_nat n) (skipn (N.to_nat i) content)). split; [|unfold len; rewrite firstn_length; lia].
    rewrite !firstn_skipn. reflexivity.
Qed.

(** ** Varints *)
Lemma land127 n : n < 256 -> N.land n 127 = n mod 128.
Proof. intros _. change 127 with (N.ones 7). now rewrite N.land_ones. Qed.
Lemma land128 n : n < 256 -> (N.land n 128 =? 0) = (n <? 128).
Proof.
  intros H. destruct (N.ltb_spec n 128) as [Hl|Hl].
  - apply N.eqb_eq. apply N.bits_inj. intros j. rewrite N.land_spec, N.bits_0.
    destruct (N.eq_dec j 7) as [->|Hj].
    + rewrite N.bits_above_log2; [reflexivity|]. destruct (N.eq_dec n 0) as [->|]; [reflexivity|]. apply N.log2_lt_pow2; lia.
    + change 128 with (2 ^ 7). now rewrite N.pow2_bits_false, andb_false_r by congruence.
  - apply N.eqb_neq. intros Hc. assert (Ht : N.testbit (N.land n 128) 7 = true).
    { rewrite N.land_spec. change 128 with (2 ^ 7). rewrite N.pow2_bits_true, andb_true_r.
      rewrite N.testbit_eqb. change (2 ^ 7) with 128. assert (n / 128 = 1) as ->.
      { symmetry. apply N.div_unique with (n - 128); lia. } reflexivity. }
    rewrite Hc in Ht. discriminate.
Qed.

Lemma groups_pos b m : groups b m -> 1 <= len b.
Proof. destruct 1; rewrite len_cons; lia. Qed.

(** One step of the accumulator. *)
Lemma acc_step r x k n : x < 128 ->
  (u64 (r + u64 (N.shiftl x (7 * k))) + n * 2 ^ (7 * (k + 1))) mod 2 ^ 64 = (r + (x + 128 * n) * 2 ^ (7 * k)) mod 2 ^ 64.
Proof.
  intros _. unfold u64. rewrite W64_val. change 18446744073709551616 with (2 ^ 64). rewrite N.shiftl_mul_pow2.
  rewrite N.add_mod_idemp_r by discriminate. rewrite N.add_mod_idemp_l by discriminate. f_equal.
  replace (7 * (k + 1)) with (7 + 7 * k) by lia. rewrite N.pow_add_r. change (2 ^ 7) with 128. lia.
Qed.

Lemma decode_sound c content bl : forall fuel ptr k r v n, k + N.of_nat fuel < 256 ->
  varint_decode_loop c fuel content ptr k bl (7 * k) r = Ok (v, n) -> ptr + n <= len content + k ->
  exists b m, groups b m /\ stands content ptr b /\ n = k + len b /\ n <= 10 /\ v = (r + m * 2 ^ (7 * k)) mod 2 ^ 64.
Proof.
  induction fuel as [|f IH]; intros ptr k r v n Hk; cbn [varint_decode_loop]; [discriminate|].
  intros H Hn. apply obind_ok in H as (x & Hx & H). pose proof (b2n_lt x) as Hx256.
  destruct (negb (7 * k <? 64)) eqn:Hbits; [discriminate|]. rewrite land128 in H by lia. rewrite land127 in H by lia.
  destruct (N.ltb_spec (b2n x) 128) as [Hl|Hl].
  - injection H as <- <-. rewrite N.mod_small in Hn by lia. exists [x], (b2n x).
    split; [now constructor|]. split; [apply read_byte_stands; [lia|exact Hx]|]. rewrite (N.mod_small _ 256) by lia. rewrite len_cons, len_nil.
    split; [lia|]. split; [lia|]. rewrite (N.mod_small (b2n x)) by lia. pose proof (acc_step r (b2n x) k 0 Hl) as HA.
    rewrite !N.mul_0_l, N.add_0_r, N.mul_0_r, N.add_0_r in HA. rewrite <- HA. symmetry. apply N.mod_small.
    unfold u64. rewrite W64_val. apply N.mod_lt. discriminate.
  - destruct (_ && _); [discriminate|]. replace (7 * k + 7) with (7 * (k + 1)) in H by lia.
    apply IH in H as (b & m & Hg & Hs & -> & Hn10 & ->); [|lia|lia].
    exists (x :: b), (b2n x - 128 + 128 * m). pose proof (groups_pos _ _ Hg).
    split; [now constructor|]. split; [apply stands_cons; [apply read_byte_stands; [lia|exact Hx]|exact Hs]|].
    rewrite len_cons. split; [lia|]. split; [lia|].
    assert (b2n x mod 128 = b2n x - 128) as -> by (symmetry; apply N.mod_unique with 1; lia).
    apply acc_step. lia.
Qed.

Lemma decode_complete c content bl : forall fuel b m ptr k r, groups b m -> stands content ptr b ->
  k + len b <= 10 -> (length b <= fuel)%nat -> (ndebug c = true \/ (Z.of_N (k + len b) <= bl)%Z) ->
  varint_decode_loop c fuel content ptr k bl (7 * k) r = Ok ((r + m * 2 ^ (7 * k)) mod 2 ^ 64, k + len b).
Proof.
  induction fuel as [|f IH]; intros b m ptr k r Hg Hs Hk Hf Hbl.
  { apply groups_pos in Hg. unfold len in Hg. lia. }
  cbn [varint_decode_loop]. pose proof (stands_len _ _ _ Hs) as Hlen.
  destruct Hg as [x Hx|x b n Hx Hg]; rewrite len_cons, ?len_nil in *.
  - assert (read_byte content ptr = Ok x) as -> by (apply read_byte_stands; [lia|exact Hs]). cbn [obind].
    replace (negb (7 * k <? 64)) with false by lia. rewrite land128, land127 by (pose proof (b2n_lt x); lia).
    replace (b2n x <? 128) with true by lia. rewrite (N.mod_small (b2n x)) by lia.
    rewrite (N.mod_small (k + 1)) by lia. f_equal. f_equal.
    pose proof (acc_step r (b2n x) k 0 Hx) as HA.
    rewrite !N.mul_0_l, N.add_0_r, N.mul_0_r, N.add_0_r in HA. rewrite <- HA. symmetry. apply N.mod_small.
    unfold u64. rewrite W64_val. apply N.mod_lt. discriminate.
  - assert (read_byte content ptr = Ok x) as ->.
    { apply read_byte_stands; [lia|]. change (x :: b) with ([x] ++ b) in Hs. now apply stands_l in Hs. }
    cbn [obind]. pose proof (groups_pos _ _ Hg).
    replace (negb (7 * k <? 64)) with false by lia. rewrite land128, land127 by (pose proof (b2n_lt x); lia).
    replace (b2n x <? 128) with false by lia.
    replace (negb (ndebug c) && negb (Z.of_N (k + 1) <? bl)%Z) with false.
    2:{ destruct (ndebug c); [reflexivity|]. destruct Hbl as [Hbl|Hbl]; [discriminate Hbl|]. cbn. lia. }
    replace (7 * k + 7) with (7 * (k + 1)) by lia. rewrite (IH b n).
    + assert (b2n x mod 128 = b2n x - 128) as -> by (pose proof (b2n_lt x); symmetry; apply N.mod_unique with 1; lia).
      rewrite acc_step by (pose proof (b2n_lt x); lia). f_equal. f_equal. lia.
    + exact Hg.
    + change (x :: b) with ([x] ++ b) in Hs. apply stands_r in Hs. exact Hs.
    + lia.
    + cbn in Hf. lia.
    + destruct Hbl; [now left|right; lia].
Qed.

(** ** The reading primitives *)
Section Read.
  Variable E : penv.
  Notation R := (b_env E).
  Notation content := (r_content (b_env E)).
  Notation strict := (negb (ndebug (r_cfg (b_env E)))).
  Hypothesis Hbase : r_base R = 0.
  Hypothesis Hsize : r_size R = len content.
  Hypothesis Hlim : lim (r_cfg R) (len content).

  Lemma Hlim' : lim (r_cfg R) (r_size R).
  Proof. now rewrite Hsize. Qed.
  Lemma HW : len content < 4294967296.
  Proof. pose proof (lim_W32 _ _ Hlim) as H. rewrite W32_val in H. exact H. Qed.

  Lemma nonempty_at i : i <= len content -> check_empty R (at_ i) = Ok tt -> i < len content.
  Proof.
    intros Hi H. unfold check_empty in H. destruct (Z.leb_spec (remain R (at_ i)) 0) as [|Hr]; [discriminate|].
    rewrite remain_at in Hr by (try exact Hlim'; rewrite ?Hsize; lia). rewrite Hsize in Hr. lia.
  Qed.

  Lemma parseLength_sound i n s : i <= len content -> parseLength R (at_ i) = Ok (n, s) ->
    exists b, vint n b /\ stands content i b /\ s = at_ (i + len b) /\ i + len b <= len content.
  Proof.
    intros Hi H. pose proof HW as HW. unfold parseLength in H. apply obind_ok in H as ([] & He & H). apply nonempty_at in He; [|exact Hi].
    rewrite curAddr_at in H by (rewrite Hsize; lia). cbn [obind] in H. rewrite Hbase, N.add_0_l in H.
    apply obind_ok in H as ([v k] & Hd & H). pose proof (decode_small _ _ _ _ _ _ Hd) as Hk.
    apply obind_ok in H as ([] & Ho & H). unfold check_oor in Ho. cbn [skip idx at_] in Ho. rewrite u64_small in Ho by (rewrite W64_val; lia).
    rewrite Hsize in Ho. destruct (N.ltb_spec (len content) (i + k)) as [|Hik]; [discriminate|].
    unfold varint_decode in Hd. change 0 with (7 * 0) in Hd at 3.
    apply decode_sound in Hd as (b & m & Hg & Hs & -> & H10 & ->); [|lia|lia]. rewrite N.add_0_l in *.
    injection H as <- <-. exists b. split.
    - exists m. split; [exact Hg|]. split; [lia|]. change (7 * 0) with 0. now rewrite N.pow_0_r, N.mul_1_r.
    - split; [exact Hs|]. rewrite (skip_at R) by (try exact Hlim'; rewrite ?Hsize; lia).
      rewrite (add_off_at R) by (try exact Hlim'; rewrite ?Hsize; lia). auto.
  Qed.

  Lemma parseLength_complete i n b : vint n b -> stands content i b -> parseLength R (at_ i) = Ok (n, at_ (i + len b)).
  Proof.
    intros (m & Hg & H10 & ->) Hs. pose proof (groups_pos _ _ Hg). pose proof (stands_len _ _ _ Hs) as Hl.
    unfold parseLength. rewrite check_empty_at by (try exact Hlim'; rewrite ?Hsize; lia). cbn [obind].
    rewrite curAddr_at by (rewrite Hsize; lia). cbn [obind]. rewrite Hbase, N.add_0_l.
    rewrite remain_at by (try exact Hlim'; rewrite ?Hsize; lia). unfold varint_decode. change 0 with (7 * 0) at 2.
    rewrite (decode_complete _ _ _ _ b m); auto; try lia; [| |].
    - change (7 * 0) with 0. rewrite N.pow_0_r, N.mul_1_r, !N.add_0_l. cbn [obind].
      rewrite (skip_at R) by (try exact Hlim'; rewrite ?Hsize; lia). rewrite ParseLemmas.check_oor_ok by (cbn; rewrite Hsize; lia). cbn [obind].
      rewrite (add_off_at R) by (try exact Hlim'; rewrite ?Hsize; lia). reflexivity.
    - unfold len in *. lia.
    - destruct (ndebug (r_cfg R)) eqn:Hnd; [now left|right]. pose proof Hlim as HL. unfold lim in HL. rewrite Hnd in HL.
      change (2 ^ 31) with 2147483648 in HL. rewrite Hsize. rewrite to_int32_small by lia. lia.
  Qed.

  (** One byte, as parseDataType and parseObjectType read it. *)
  Lemma parseDataType_sound i d s : i <= len content -> parseDataType R (at_ i) = Ok (d, s) ->
    exists x, stands content i [x] /\ d = b2n x /\ s = at_ (i + 1) /\ i + 1 <= len content.
  Proof.
    intros Hi H. unfold parseDataType in H. apply obind_ok in H as ([] & He & H). apply nonempty_at in He; [|exact Hi].
    rewrite curAddr_at in H by (rewrite Hsize; lia). cbn [obind] in H. rewrite Hbase, N.add_0_l in H.
    apply obind_ok in H as (x & Hx & H). rewrite (skip_at R) in H by (try exact Hlim'; rewrite ?Hsize; lia).
    rewrite ParseLemmas.check_oor_ok in H by (cbn; rewrite Hsize; lia). cbn [obind] in H.
    rewrite (add_off_at R) in H by (try exact Hlim'; rewrite ?Hsize; lia). injection H as <- <-.
    exists x. split; [now apply read_byte_stands|]. repeat split. lia.
  Qed.

  Lemma CharToObjectType_inv n t : CharToObjectType n = Some t <-> n = ObjectTypeToChar t.
  Proof.
    unfold CharToObjectType. destruct (N.eqb_spec n (ObjectTypeToChar TData)) as [->|H1]; [|destruct (N.eqb_spec n (ObjectTypeToChar TMap)) as [->|H2];
      [|destruct (N.eqb_spec n (ObjectTypeToChar TArray)) as [->|H3]]]; split; try (intros [= <-]; reflexivity); try discriminate;
      destruct t; intros H; try reflexivity; try discriminate; try congruence; contradiction.
  Qed.

  Lemma parseObjectType_sound i t s : i <= len content -> parseObjectType R (at_ i) = Ok (t, s) ->
    exists x, stands content i [x] /\ b2n x mod 128 = ObjectTypeToChar t /\ s = at_ (i + 1) /\ i + 1 <= len content.
  Proof.
    intros Hi H. unfold parseObjectType in H. apply obind_ok in H as ([] & He & H). apply nonempty_at in He; [|exact Hi].
    rewrite curAddr_at in H by (rewrite Hsize; lia). cbn [obind] in H. rewrite Hbase, N.add_0_l in H.
    apply obind_ok in H as (x & Hx & H). rewrite (skip_at R) in H by (try exact Hlim'; rewrite ?Hsize; lia).
    rewrite ParseLemmas.check_oor_ok in H by (cbn; rewrite Hsize; lia). cbn [obind] in H.
    rewrite (add_off_at R) in H by (try exact Hlim'; rewrite ?Hsize; lia). rewrite land127 in H by apply b2n_lt.
    destruct (CharToObjectType (b2n x mod 128)) as [t'|] eqn:Ht; [|discriminate]. injection H as <- <-.
    apply CharToObjectType_inv in Ht.
    exists x. split; [now apply read_byte_stands|]. repeat split; [exact Ht|lia].
  Qed.

  Lemma parseDataType_complete i x : stands content i [x] -> parseDataType R (at_ i) = Ok (b2n x, at_ (i + 1)).
  Proof.
    intros (A & B & HC & HA). apply (parseDataType_ok R A x B); auto.
    - rewrite Hbase; lia.
    - rewrite Hsize, HC, !len_app, len_cons, len_nil. lia.
    - exact Hlim'.
  Qed.

  Lemma parseObjectType_complete i x t : stands content i [x] -> b2n x mod 128 = ObjectTypeToChar t ->
    parseObjectType R (at_ i) = Ok (t, at_ (i + 1)).
  Proof.
    intros Hs Ht. pose proof (stands_len _ _ _ Hs) as Hl. rewrite len_cons, len_nil in Hl. unfold parseObjectType.
    rewrite check_empty_at by (try exact Hlim'; rewrite ?Hsize; lia). cbn [obind].
    rewrite curAddr_at by (rewrite Hsize; lia). cbn [obind]. rewrite Hbase, N.add_0_l.
    assert (read_byte content i = Ok x) as -> by (apply read_byte_stands; [lia|exact Hs]). cbn [obind].
    rewrite (skip_at R) by (try exact Hlim'; rewrite ?Hsize; lia). rewrite ParseLemmas.check_oor_ok by (cbn; rewrite Hsize; lia). cbn [obind].
    rewrite (add_off_at R) by (try exact Hlim'; rewrite ?Hsize; lia). rewrite land127 by apply b2n_lt.
    apply CharToObjectType_inv in Ht. now rewrite Ht.
  Qed.
  (** A payload that could be read does not make the cursor wrap. *)
  Lemma payload i n s' sx : i < len content -> read_range content i n = Ok sx -> n < 2 ^ 64 ->
    check_oor R (skip n (at_ i)) = Ok s' ->
    stands content i sx /\ len sx = n /\ add_off n (skip n (at_ i)) = at_ (i + n) /\ i + n <= len content.
  Proof using Hbase Hsize Hlim.
    intros Hi Hr Hn Ho. pose proof HW as HW. apply read_range_bound in Hr as Hb.
    unfold check_oor in Ho. cbn [skip idx at_] in Ho. rewrite u64_small in Ho by (rewrite W64_val; lia).
    rewrite Hsize in Ho. destruct (N.ltb_spec (len content) (i + n)) as [|Hl]; [discriminate|].
    destruct (stands_read _ _ _ _ Hr Hl) as [Hs Hln]. split; [exact Hs|]. split; [exact Hln|]. split; [|exact Hl].
    rewrite (skip_at R) by (rewrite ?Hsize; auto). rewrite (add_off_at R) by (rewrite ?Hsize; auto). reflexivity.
  Qed.

  Lemma vint_bound n b : vint n b -> n < 2 ^ 64.
  Proof using. intros (m & _ & _ & ->). apply N.mod_lt. discriminate. Qed.

  Lemma curAddr_inv i a : curAddr R (at_ i) = Ok a -> a = i /\ i < len content.
  Proof using Hbase Hsize Hlim.
    unfold curAddr. rewrite Hsize. cbn [idx at_]. destruct (N.leb_spec (len content) i); [discriminate|].
    intros [= <-]. rewrite Hbase. lia.
  Qed.

End Read.

(** ** Numbers *)
Lemma big_endian_network b : big_endian b = of_network b.
Proof. reflexivity. Qed.

Lemma num_of_wire_any c w b : len b = w -> num_of_wire c w b = big_endian b.
Proof.
  intros Hb. assert (E : b = be_bytes w (of_network b)).
  { unfold be_bytes. replace (of_network b) with (of_le_bytes (rev b)) by (rewrite <- of_network_rev; now rewrite rev_involutive).
    rewrite le_of_le' by (rewrite rev_length; unfold len in Hb; lia). now rewrite rev_involutive. }
  rewrite big_endian_network. rewrite E at 1. apply num_of_wire_be.
  replace (of_network b) with (of_le_bytes (rev b)) by (rewrite <- of_network_rev; now rewrite rev_involutive).
  pose proof (of_le_bytes_bound (rev b)) as H. rewrite len_rev, Hb in H. now rewrite <- pow256.
Qed.

Lemma big_endian_bound b : big_endian b < 2 ^ (8 * len b).
Proof.
  rewrite big_endian_network. replace (of_network b) with (of_le_bytes (rev b)) by (rewrite <- of_network_rev; now rewrite rev_involutive).
  pose proof (of_le_bytes_bound (rev b)) as H. rewrite len_rev in H. now rewrite <- pow256.
Qed.

(** ** Values *)
Section Sound.
  Variable E : penv.
  Variable get : N -> outcome view.
  Variable D : option (N -> option bytes).
  Variable p : pool.
  Notation R := (b_env E).
  Notation content := (r_content (b_env E)).
  Notation strict := (negb (ndebug (r_cfg (b_env E)))).
  Hypothesis Hbase : r_base R = 0.
  Hypothesis Hsize : r_size R = len content.
  Hypothesis Hlim : lim (r_cfg R) (len content).
  Hypothesis Hmap : b_map E = match D with Some _ => true | None => false end.
  Hypothesis Hget : forall d id v s, D = Some d -> get id = Ok v -> read_local R v = Ok s -> d id = Some s.

  Ltac step H := rewrite run_bind, ?run_lift in H; apply obind_ok in H as (? & ? & H).

  Lemma valid_cases d : valid_data_type d = true ->
    d = BRIDGE_BYTES \/ d = BRIDGE_STRING \/ d = BRIDGE_CUSTOM \/ exists t, num_of_dt d = Some t /\ d = dt_of_num t.
  Proof.
    unfold valid_data_type. rewrite !orb_true_iff, !N.eqb_eq.
    intros [[[[[[[[->| ->]| ->]| ->]| ->]| ->]| ->]| ->]| ->]; auto; right; right; right;
      [exists I32|exists U32|exists I64|exists U64|exists F32|exists F64]; split; reflexivity.
  Qed.

  Lemma data_sound i o s : i <= len content -> run get (Data_valueParse E false (at_ i)) = Ok (o, s) ->
    exists x b, lscalar strict D x b /\ stands content i b /\ s = at_ (i + len b) /\ i + len b <= len content /\
      o = tree_of p (VScalar x).
  Proof.
    intros Hi H. unfold Data_valueParse in H. step H. destruct x as [dt s1].
    destruct (parseDataType_sound E Hbase Hsize Hlim i dt s1 Hi H0) as (x & Hx & -> & -> & Hi1). clear H0.
    destruct (valid_data_type (b2n x)) eqn:Hv; cbn [negb] in H; [|discriminate].
    assert (Hnx : n2b (b2n x) = x) by apply n2b_b2n.
    destruct ((b2n x =? BRIDGE_STRING) && b_map E) eqn:Hd.
    - apply andb_true_iff in Hd as [Hd Hm]. apply N.eqb_eq in Hd. rewrite Hmap in Hm. destruct D as [d|] eqn:HD; [|discriminate].
      step H. destruct x0 as [id s2]. destruct (parseLength_sound E Hbase Hsize Hlim _ _ _ Hi1 H0) as (b & Hvb & Hsb & -> & Hb). clear H0.
      cbn [run] in H. apply obind_ok in H as (v & Hgv & H). step H. cbn [run] in H. injection H as <- <-.
      exists (VStr x0), (x :: b). split.
      + replace x with (n2b BRIDGE_STRING) by congruence. constructor. apply ls_dict with (d := d) (id := id); auto. eapply Hget; eauto.
      + split; [apply stands_cons; [exact Hx|exact Hsb]|]. rewrite len_cons.
        split; [f_equal; lia|]. split; [lia|]. cbn. now rewrite Hd.
    - step H. destruct x0 as [size s2]. destruct (parseLength_sound E Hbase Hsize Hlim _ _ _ Hi1 H0) as (b & Hvb & Hsb & -> & Hb). clear H0.
      step H. apply (curAddr_inv E Hbase Hsize Hlim) in H0 as [-> Hlt]. step H. step H. cbn [run] in H.
      pose proof (vint_bound _ _ Hvb) as Hsz64.
      assert (Hres : forall sx, read_range content (i + 1 + len b) size = Ok sx ->
        (len sx = size -> lscalar strict D (VBytes sx) (n2b BRIDGE_BYTES :: b ++ sx) ->
         exists y, lscalar strict D y (x :: b ++ sx) /\ OData (b2n x) x0 = tree_of p (VScalar y)) ->
        exists y bb, lscalar strict D y bb /\ stands content i bb /\ s = at_ (i + len bb) /\ i + len bb <= len content /\ o = tree_of p (VScalar y)).
      { intros sx Hr Hy. destruct (payload E Hbase Hsize Hlim _ _ _ _ Hlt Hr Hsz64 H1) as (P1 & P2 & P3 & P4). rewrite P3 in H. injection H as <- <-.
        destruct Hy as (y & Hy1 & Hy2); [exact P2|constructor; rewrite P2; exact Hvb|].
        exists y, (x :: b ++ sx). split; [exact Hy1|].
        split. { apply stands_cons; [exact Hx|]. apply stands_app; [exact Hsb|exact P1]. }
        rewrite len_cons, len_app, P2. split; [f_equal; lia|]. split; [lia|exact Hy2]. }
      unfold parseData in H0.
      destruct (valid_cases _ Hv) as [Hc|[Hc|[Hc|(t & Ht & Hc)]]].
      + rewrite Hc in H0. cbn [N.eqb BRIDGE_BYTES BRIDGE_CUSTOM orb] in H0. unfold omap in H0. apply obind_ok in H0 as (sx & Hr & [= <-]).
        apply (Hres sx Hr). intros Hl Hb'. exists (VBytes sx). split; [replace x with (n2b BRIDGE_BYTES) by congruence; exact Hb'|cbn; now rewrite Hc].
      + rewrite Hc in H0. cbn in H0. unfold omap in H0. apply obind_ok in H0 as (sx & Hr & [= <-]).
        apply (Hres sx Hr). intros Hl Hb'. exists (VStr sx). split; [|cbn; now rewrite Hc]. replace x with (n2b BRIDGE_STRING) by congruence.
        constructor. rewrite Hc in Hd. cbn in Hd. rewrite Hmap in Hd. destruct D; [discriminate|]. constructor; [reflexivity|].
        rewrite Hl. exact Hvb.
      + rewrite Hc in H0. cbn in H0. unfold omap in H0. apply obind_ok in H0 as (sx & Hr & [= <-]).
        apply (Hres sx Hr). intros Hl Hb'. exists (VCustom sx). split; [|cbn; now rewrite Hc]. replace x with (n2b BRIDGE_CUSTOM) by congruence.
        constructor. rewrite Hl. exact Hvb.
      + assert (Hx0 : parse_num (r_cfg R) content t (i + 1 + len b) size = Ok x0).
        { destruct (dt_of_num_not_blob t) as (E1 & E2 & E3 & E4 & E5 & E6). rewrite Hc, E1, E2, E3 in H0. cbn [orb] in H0.
          rewrite <- Hc, Ht in H0. exact H0. }
        clear H0. unfold parse_num in Hx0. destruct (strict && _) eqn:Hst; [discriminate|].
        destruct (N.ltb_spec (sizeof_num t) size) as [|Hle]; [discriminate|]. apply obind_ok in Hx0 as (m & Hr & [= <-]).
        apply (Hres m Hr). intros Hl _. eexists (VNum t _). split.
        * replace x with (n2b (dt_of_num t)) by congruence. apply (lx_num strict D t m b); change width with sizeof_num; [rewrite Hl; exact Hvb|lia|].
          intros Hs'. rewrite Hs' in Hst. cbn in Hst. lia.
        * cbn. rewrite Hc, Hl. f_equal. f_equal. rewrite num_of_wire_any; [reflexivity|].
          rewrite len_app. unfold len at 2. rewrite repeat_length. lia.
  Qed.

  Definition lelem v ch := exists t b, lwire strict D v b /\ tagged v t /\ ch = t :: b.
  Definition lentry (e : bytes * value) ch :=
    exists kb t b, lstr D (fst e) kb /\ lwire strict D (snd e) b /\ tagged (snd e) t /\ ch = kb ++ t :: b.

  (** The key: the view is only read after the child has been parsed. *)
  Lemma key_sound i kv s1 key : i <= len content -> run get (parse_key E (at_ i)) = Ok (kv, s1) ->
    read_local R kv = Ok key ->
    exists kb, lstr D key kb /\ stands content i kb /\ s1 = at_ (i + len kb) /\ i + len kb <= len content.
  Proof.
    intros Hi H Hr. unfold parse_key in H. rewrite Hmap in H. destruct D as [d|] eqn:HD.
    - step H. destruct x as [id s2]. destruct (parseLength_sound E Hbase Hsize Hlim _ _ _ Hi H0) as (b & Hvb & Hsb & -> & Hb).
      cbn [run] in H. apply obind_ok in H as (v & Hgv & [= <- <-]). exists b. split; [|auto].
      apply ls_dict with (d := d) (id := id); auto. eapply Hget; eauto.
    - step H. destruct x as [n s2]. destruct (parseLength_sound E Hbase Hsize Hlim _ _ _ Hi H0) as (b & Hvb & Hsb & -> & Hb).
      step H. apply (curAddr_inv E Hbase Hsize Hlim) in H1 as [-> Hlt]. step H. cbn [run] in H. injection H as <- <-.
      unfold read_local in Hr. cbn [v_off v_len] in Hr.
      destruct (payload E Hbase Hsize Hlim _ _ _ _ Hlt Hr (vint_bound _ _ Hvb) H1) as (P1 & P2 & P3 & P4).
      exists (b ++ key). split; [constructor; [reflexivity|rewrite P2; exact Hvb]|].
      split; [now apply stands_app|]. rewrite P3, len_app, P2. split; [f_equal; lia|lia].
  Qed.

  Lemma values_sound fuel :
    (forall t i o s, i <= len content -> run get (valueParse E p false fuel t (at_ i)) = Ok (o, s) ->
       exists v b, type_of v = t /\ lwire strict D v b /\ stands content i b /\ s = at_ (i + len b) /\ i + len b <= len content /\
         o = tree_of p (mirror v)) /\
    (forall n i acc os s, i <= len content -> run get (array_loop E p false fuel n (at_ i) acc) = Ok (os, s) ->
       exists vs chunks, len vs = n /\ Forall2 lelem vs chunks /\ stands content i (concat chunks) /\ s = at_ (i + len (concat chunks)) /\
         i + len (concat chunks) <= len content /\ os = rev (map (fun v => tree_of p (mirror v)) vs) ++ acc) /\
    (forall n i acc os s, i <= len content -> run get (map_loop E p false fuel n (at_ i) acc) = Ok (os, s) ->
       exists vs chunks, len vs = n /\ Forall2 lentry vs chunks /\ stands content i (concat chunks) /\ s = at_ (i + len (concat chunks)) /\
         i + len (concat chunks) <= len content /\ os = rev (map (fun e => (fst e, tree_of p (mirror (snd e)))) vs) ++ acc).
  Proof.
    induction fuel as [|f (IHv & IHa & IHm)]; [split; [|split]; intros; discriminate|].
    split; [|split].
    - intros t i o s Hi H. cbn [valueParse] in H. destruct t.
      + destruct (data_sound i o s Hi H) as (x & b & Hx & Hs & -> & Hl & ->). exists (VScalar x), b.
        split; [reflexivity|]. split; [now constructor|]. auto.
      + step H. destruct x as [n s1]. destruct (parseLength_sound E Hbase Hsize Hlim _ _ _ Hi H0) as (cnt & Hvc & Hsc & -> & Hc). clear H0.
        step H. destruct x as [id s2]. destruct (parseLength_sound E Hbase Hsize Hlim _ _ _ Hc H0) as (idb & Hvi & Hsi & -> & Hib). clear H0.
        step H. step H. destruct x0 as [items s3]. cbn [run] in H. injection H as <- <-.
        apply IHm in H1 as (vs & chunks & Hn & HF & Hst & -> & Hl & ->); [|exact Hib].
        exists (VMap vs), (cnt ++ idb ++ concat chunks). split; [reflexivity|]. split.
        { apply lw_map with (i := id); [rewrite Hn; exact Hvc|exact Hvi|exact HF]. }
        split; [apply stands_app; [exact Hsc|apply stands_app; [exact Hsi|exact Hst]]|].
        rewrite !len_app. split; [f_equal; lia|]. split; [lia|].
        cbn [mirror tree_of]. rewrite len_rev, len_map, Hn, app_nil_r. f_equal. rewrite map_rev, map_map. reflexivity.
      + step H. destruct x as [n s1]. destruct (parseLength_sound E Hbase Hsize Hlim _ _ _ Hi H0) as (cnt & Hvc & Hsc & -> & Hc). clear H0.
        step H. destruct x as [id s2]. destruct (parseLength_sound E Hbase Hsize Hlim _ _ _ Hc H0) as (idb & Hvi & Hsi & -> & Hib). clear H0.
        step H. destruct x as [items s3]. cbn [run] in H. injection H as <- <-.
        apply IHa in H0 as (vs & chunks & Hn & HF & Hst & -> & Hl & ->); [|exact Hib].
        exists (VArr (rev vs)), (cnt ++ idb ++ concat chunks). split; [reflexivity|]. split.
        { apply lw_arr with (i := id); [rewrite len_rev, Hn; exact Hvc|exact Hvi|rewrite rev_involutive; exact HF]. }
        split; [apply stands_app; [exact Hsc|apply stands_app; [exact Hsi|exact Hst]]|].
        rewrite !len_app. split; [f_equal; lia|]. split; [lia|].
        cbn [mirror tree_of]. rewrite len_map, len_rev, Hn, app_nil_r. f_equal. rewrite rev_involutive.
        now rewrite map_map, map_rev, rev_involutive.
    - intros n i acc os s Hi H. cbn [array_loop] in H. destruct (N.eqb_spec n 0) as [->|Hn].
      + cbn [run] in H. injection H as <- <-. exists [], []. split; [reflexivity|]. split; [constructor|].
        split; [now apply stands_nil|]. cbn. rewrite N.add_0_r. auto.
      + step H. destruct x as [t s1]. destruct (parseObjectType_sound E Hbase Hsize Hlim _ _ _ Hi H0) as (tg & Htg & Ht & -> & Hi1). clear H0.
        rewrite run_bind in H. apply obind_ok in H as ([o s2] & Hv & H).
        apply IHv in Hv as (v & b & Hty & Hw & Hs & -> & Hl & ->); [|exact Hi1].
        apply IHa in H as (vs & chunks & Hn' & HF & Hst & -> & Hl' & ->); [|exact Hl].
        exists (v :: vs), ((tg :: b) :: chunks). split; [rewrite len_cons; lia|]. split.
        { constructor; [|exact HF]. exists tg, b. split; [exact Hw|]. split; [|reflexivity]. unfold tagged. now rewrite Hty. }
        assert (Hsb : stands content i (tg :: b)) by (now apply stands_cons).
        cbn [concat]. split; [apply stands_app; [exact Hsb|rewrite len_cons; replace (i + (1 + len b)) with (i + 1 + len b) by lia; exact Hst]|].
        rewrite len_app, len_cons. split; [f_equal; lia|]. split; [lia|]. cbn [map rev]. now rewrite <- app_assoc.
    - intros n i acc os s Hi H. cbn [map_loop] in H. destruct (N.eqb_spec n 0) as [->|Hn].
      + cbn [run] in H. injection H as <- <-. exists [], []. split; [reflexivity|]. split; [constructor|].
        split; [now apply stands_nil|]. cbn. rewrite N.add_0_r. auto.
      + rewrite run_bind in H. apply obind_ok in H as ([kv s1] & Hk & H).
        step H. destruct x as [t s2]. rewrite run_bind in H. apply obind_ok in H as ([o s3] & Hv & H). step H.
        destruct (key_sound i kv s1 x Hi Hk H1) as (kb & Hkb & Hks & -> & Hkl).
        destruct (parseObjectType_sound E Hbase Hsize Hlim _ _ _ Hkl H0) as (tg & Htg & Ht & -> & Hi1). clear H0.
        apply IHv in Hv as (v & b & Hty & Hw & Hs & -> & Hl & ->); [|exact Hi1].
        apply IHm in H as (vs & chunks & Hn' & HF & Hst & -> & Hl' & ->); [|exact Hl].
        exists ((x, v) :: vs), ((kb ++ tg :: b) :: chunks). split; [rewrite len_cons; lia|]. split.
        { constructor; [|exact HF]. exists kb, tg, b. split; [exact Hkb|]. split; [exact Hw|]. split; [|reflexivity]. unfold tagged. cbn. now rewrite Hty. }
        assert (Hsb : stands content i (kb ++ tg :: b)) by (apply stands_app; [exact Hks|now apply stands_cons]).
        cbn [concat]. split; [apply stands_app; [exact Hsb|rewrite len_app, len_cons; replace (i + (len kb + (1 + len b))) with (i + len kb + 1 + len b) by lia; exact Hst]|].
        rewrite !len_app, len_cons. split; [f_equal; lia|]. split; [lia|]. cbn [map rev fst snd]. now rewrite <- app_assoc.
  Qed.
End Sound.

Section Complete.
  Variable E : penv.
  Variable get : N -> outcome view.
  Variable D : option (N -> option bytes).
  Variable p : pool.
  Notation R := (b_env E).
  Notation content := (r_content (b_env E)).
  Notation strict := (negb (ndebug (r_cfg (b_env E)))).
  Hypothesis Hbase : r_base R = 0.
  Hypothesis Hsize : r_size R = len content.
  Hypothesis Hlim : lim (r_cfg R) (len content).
  Hypothesis Hmap : b_map E = match D with Some _ => true | None => false end.
  Hypothesis Hget : forall d id s, D = Some d -> d id = Some s -> exists v, get id = Ok v /\ read_local R v = Ok s.

  Lemma check_skip i n : i + n <= len content ->
    check_oor R (skip n (at_ i)) = Ok tt /\ add_off n (skip n (at_ i)) = at_ (i + n).
  Proof.
    intros H. rewrite (skip_at R) by (rewrite ?Hsize; auto). rewrite ParseLemmas.check_oor_ok by (cbn; rewrite Hsize; lia).
    rewrite (add_off_at R) by (rewrite ?Hsize; auto). auto.
  Qed.

  Lemma dt_b2n t : b2n (n2b (dt_of_num t)) = dt_of_num t.
  Proof. destruct t; reflexivity. Qed.

  Lemma data_complete i x b : lscalar strict D x b -> stands content i b -> i + len b < len content ->
    run get (Data_valueParse E false (at_ i)) = Ok (tree_of p (VScalar x), at_ (i + len b)).
  Proof.
    intros Hx Hs Hl.
    (* a spelled-out payload *)
    assert (Hpay : forall d l s q, b = n2b d :: l ++ s -> d < 256 -> valid_data_type d = true -> ((d =? BRIDGE_STRING) && b_map E = false) ->
      vint (len s) l -> (forall a, read_range content a (len s) = Ok s -> parseData (r_cfg R) content d a (len s) = Ok q) ->
      tree_of p (VScalar x) = OData d q ->
      run get (Data_valueParse E false (at_ i)) = Ok (tree_of p (VScalar x), at_ (i + len b))).
    { intros d l s q -> Hd Hv Hm Hvl Hp ->. change (n2b d :: l ++ s) with ([n2b d] ++ l ++ s) in Hs.
      rewrite len_cons, len_app in Hl.
      unfold Data_valueParse. rewrite run_bind, run_lift.
      rewrite (parseDataType_complete E Hbase Hsize Hlim i (n2b d)) by (eapply stands_l; exact Hs). cbn [obind].
      rewrite b2n_n2b by exact Hd. rewrite Hv, Hm. cbn [negb]. rewrite run_bind, run_lift.
      pose proof (stands_r _ _ _ _ Hs) as Hs1. rewrite len_cons, len_nil in Hs1. replace (i + (1 + 0)) with (i + 1) in Hs1 by lia.
      rewrite (parseLength_complete E Hbase Hsize Hlim (i + 1) (len s) l) by (auto; eapply stands_l; exact Hs1). cbn [obind].
      rewrite run_bind, run_lift. rewrite curAddr_at by (rewrite Hsize; lia). cbn [obind]. rewrite Hbase, N.add_0_l.
      apply stands_r in Hs1. rewrite run_bind, run_lift, (Hp _ (read_range_stands _ _ _ Hs1)). cbn [obind].
      rewrite run_bind, run_lift. destruct (check_skip (i + 1 + len l) (len s)) as [C1 C2]; [lia|]. rewrite C1. cbn [obind run]. rewrite C2.
      rewrite len_cons, len_app. do 3 f_equal. lia. }
    destruct Hx as [s b Hb|s l Hv|s l Hv|t m l Hv Hm Hst].
    - destruct Hb as [s l HD Hv|d id s l HD Hv Hd].
      + apply (Hpay BRIDGE_STRING l s (SStr s)); auto; try reflexivity.
        * now rewrite Hmap, HD.
        * intros a Ha. unfold parseData. cbn. now rewrite Ha.
      + change (n2b BRIDGE_STRING :: l) with ([n2b BRIDGE_STRING] ++ l) in Hs. rewrite len_cons in Hl.
        unfold Data_valueParse. rewrite run_bind, run_lift.
        rewrite (parseDataType_complete E Hbase Hsize Hlim i (n2b BRIDGE_STRING)) by (eapply stands_l; exact Hs). cbn [obind].
        change (b2n (n2b BRIDGE_STRING)) with BRIDGE_STRING. rewrite Hmap, HD.
        change (negb (valid_data_type BRIDGE_STRING)) with false. change ((BRIDGE_STRING =? BRIDGE_STRING) && true) with true. cbv iota.
        rewrite run_bind, run_lift. apply stands_r in Hs. change (len [n2b BRIDGE_STRING]) with 1 in Hs.
        rewrite (parseLength_complete E Hbase Hsize Hlim (i + 1) id l) by auto. cbn [obind run].
        destruct (Hget d (id mod 2 ^ 32) s HD Hd) as (v & G1 & G2). change (u32 id) with (id mod 2 ^ 32). rewrite G1. cbn [obind].
        rewrite run_bind, run_lift, G2. cbn [obind run tree_of store_of fst snd]. rewrite len_cons. do 3 f_equal. lia.
    - apply (Hpay BRIDGE_BYTES l s (SVec s)); auto; try reflexivity.
      intros a Ha. unfold parseData. cbn. now rewrite Ha.
    - apply (Hpay BRIDGE_CUSTOM l s (SVec s)); auto; try reflexivity.
      intros a Ha. unfold parseData. cbn. now rewrite Ha.
    - change width with sizeof_num in *. destruct (dt_of_num_not_blob t) as (E1 & E2 & E3 & E4 & E5 & E6).
      apply (Hpay (dt_of_num t) l m (SNum t (big_endian (m ++ repeat x00 (N.to_nat (sizeof_num t - len m)))))); auto.
      + destruct t; reflexivity.
      + now rewrite E3.
      + intros a Ha. unfold parseData. rewrite E1, E2, E3, E4. cbn [orb]. unfold parse_num.
        replace (strict && negb (sizeof_num t =? len m)) with false.
        2:{ destruct (ndebug (r_cfg R)); [reflexivity|]. cbn. rewrite (Hst eq_refl), N.eqb_refl. reflexivity. }
        replace (sizeof_num t <? len m) with false by lia. rewrite Ha. cbn [obind]. rewrite num_of_wire_any; [reflexivity|].
        rewrite len_app. unfold len at 2. rewrite repeat_length. lia.
  Qed.

  Lemma key_complete i k kb : lstr D k kb -> stands content i kb -> i + len kb < len content ->
    exists kv, run get (parse_key E (at_ i)) = Ok (kv, at_ (i + len kb)) /\ read_local R kv = Ok k.
  Proof.
    intros Hk Hs Hl. unfold parse_key. rewrite Hmap. destruct Hk as [s l HD Hv|d id s l HD Hv Hd]; rewrite HD.
    - rewrite len_app in Hl. rewrite run_bind, run_lift.
      rewrite (parseLength_complete E Hbase Hsize Hlim i (len s) l) by (auto; eapply stands_l; exact Hs). cbn [obind].
      rewrite run_bind, run_lift. rewrite curAddr_at by (rewrite Hsize; lia). cbn [obind]. rewrite Hbase, N.add_0_l.
      apply stands_r in Hs. rewrite run_bind, run_lift. destruct (check_skip (i + len l) (len s)) as [C1 C2]; [lia|]. rewrite C1. cbn [obind run]. rewrite C2.
      eexists. rewrite len_app, N.add_assoc. split; [reflexivity|]. unfold read_local. cbn. now apply read_range_stands.
    - rewrite run_bind, run_lift. rewrite (parseLength_complete E Hbase Hsize Hlim i id l) by auto. cbn [obind run].
      destruct (Hget d (id mod 2 ^ 32) s HD Hd) as (v & G1 & G2). change (u32 id) with (id mod 2 ^ 32). rewrite G1. cbn [obind run].
      exists v. auto.
  Qed.

  Lemma vint_pos n b : vint n b -> (1 <= length b)%nat.
  Proof. intros (m & Hg & _). apply groups_pos in Hg. unfold len in Hg. lia. Qed.

  Notation lelem := (lelem E D).
  Notation lentry := (lentry E D).

  Lemma values_complete fuel :
    (forall v b i, lwire strict D v b -> stands content i b -> i + len b < len content -> (length b <= fuel)%nat ->
       run get (valueParse E p false fuel (type_of v) (at_ i)) = Ok (tree_of p (mirror v), at_ (i + len b))) /\
    (forall vs chunks i acc, Forall2 lelem vs chunks -> stands content i (concat chunks) -> i + len (concat chunks) < len content ->
       (length (concat chunks) + 1 <= fuel)%nat ->
       run get (array_loop E p false fuel (len vs) (at_ i) acc) =
         Ok (rev (map (fun v => tree_of p (mirror v)) vs) ++ acc, at_ (i + len (concat chunks)))) /\
    (forall vs chunks i acc, Forall2 lentry vs chunks -> stands content i (concat chunks) -> i + len (concat chunks) < len content ->
       (length (concat chunks) + 1 <= fuel)%nat ->
       run get (map_loop E p false fuel (len vs) (at_ i) acc) =
         Ok (rev (map (fun e => (fst e, tree_of p (mirror (snd e)))) vs) ++ acc, at_ (i + len (concat chunks)))).
  Proof.
    induction fuel as [|f (IHv & IHa & IHm)].
    { split; [|split; intros; lia]. intros v b i Hw _ _ Hf. exfalso. destruct Hw as [x b Hx|l cnt id n chunks Hc _ _|l cnt id n chunks Hc _ _].
      - destruct Hx; cbn in Hf; lia.
      - apply vint_pos in Hc. rewrite app_length in Hf. lia.
      - apply vint_pos in Hc. rewrite app_length in Hf. lia. }
    split; [|split].
    - intros v b i Hw Hs Hl Hf. destruct Hw as [x b Hx|l cnt id n chunks Hc Hi HF|l cnt id n chunks Hc Hi HF]; cbn [type_of valueParse].
      + now apply data_complete.
      + rewrite !len_app in Hl. rewrite !app_length in Hf. pose proof (vint_pos _ _ Hc). pose proof (vint_pos _ _ Hi).
        rewrite run_bind, run_lift. rewrite (parseLength_complete E Hbase Hsize Hlim i (len l) cnt) by (auto; eapply stands_l; exact Hs). cbn [obind].
        apply stands_r in Hs. rewrite run_bind, run_lift. rewrite (parseLength_complete E Hbase Hsize Hlim _ n id) by (auto; eapply stands_l; exact Hs). cbn [obind].
        apply stands_r in Hs. rewrite run_bind. rewrite <- (len_rev l). rewrite (IHa (rev l) chunks) by (auto; lia). cbn [obind run].
        rewrite !len_app. cbn [mirror tree_of]. rewrite len_rev, app_nil_r, len_map, rev_involutive, map_rev, map_map.
        do 3 f_equal. lia.
      + rewrite !len_app in Hl. rewrite !app_length in Hf. pose proof (vint_pos _ _ Hc). pose proof (vint_pos _ _ Hi).
        rewrite run_bind, run_lift. rewrite (parseLength_complete E Hbase Hsize Hlim i (len l) cnt) by (auto; eapply stands_l; exact Hs). cbn [obind].
        apply stands_r in Hs. rewrite run_bind, run_lift. rewrite (parseLength_complete E Hbase Hsize Hlim _ n id) by (auto; eapply stands_l; exact Hs). cbn [obind].
        apply stands_r in Hs. rewrite run_bind, run_lift. rewrite ParseLemmas.check_oor_ok by (cbn; rewrite Hsize; lia). cbn [obind].
        rewrite run_bind. rewrite (IHm l chunks) by (auto; lia). cbn [obind run].
        rewrite !len_app. cbn [mirror tree_of]. rewrite len_rev, app_nil_r, len_map, map_rev, map_map.
        do 3 f_equal. lia.
    - intros vs chunks i acc HF Hs Hl Hf. cbn [array_loop]. destruct HF as [|v ch vs chunks (t & b & Hw & Ht & ->) HF].
      { cbn. now rewrite N.add_0_r. }
      rewrite len_cons. replace (1 + len vs =? 0) with false by lia. cbn [concat] in *. rewrite len_app, len_cons in Hl.
      rewrite app_length in Hf. cbn [length] in Hf. change (t :: b) with ([t] ++ b) in Hs. rewrite <- app_assoc in Hs.
      rewrite run_bind, run_lift. rewrite (parseObjectType_complete E Hbase Hsize Hlim i t (type_of v)) by (auto; eapply stands_l; exact Hs). cbn [obind].
      apply stands_r in Hs. change (len [t]) with 1 in Hs.
      rewrite run_bind. rewrite (IHv v b) by (auto; try lia; eapply stands_l; exact Hs). cbn [obind].
      apply stands_r in Hs. replace (1 + len vs - 1) with (len vs) by lia. rewrite (IHa vs chunks) by (auto; lia).
      rewrite len_app, len_cons. cbn [map rev]. rewrite <- app_assoc. cbn [app]. do 3 f_equal. lia.
    - intros vs chunks i acc HF Hs Hl Hf. cbn [map_loop]. destruct HF as [|[k v] ch vs chunks (kb & t & b & Hk & Hw & Ht & ->) HF].
      { cbn. now rewrite N.add_0_r. }
      cbn [fst snd] in *. rewrite len_cons. replace (1 + len vs =? 0) with false by lia. cbn [concat] in *. rewrite !len_app, len_cons in Hl.
      rewrite !app_length in Hf. cbn [length] in Hf. change (t :: b) with ([t] ++ b) in Hs. rewrite <- !app_assoc in Hs.
      rewrite run_bind. destruct (key_complete i k kb Hk) as (kv & K1 & K2); [eapply stands_l; exact Hs|lia|]. rewrite K1. cbn [obind].
      apply stands_r in Hs. rewrite run_bind, run_lift.
      rewrite (parseObjectType_complete E Hbase Hsize Hlim _ t (type_of v)) by (auto; eapply stands_l; exact Hs). cbn [obind].
      apply stands_r in Hs. change (len [t]) with 1 in Hs.
      rewrite run_bind. rewrite (IHv v b) by (auto; try lia; eapply stands_l; exact Hs). cbn [obind].
      rewrite run_bind, run_lift, K2. cbn [obind].
      apply stands_r in Hs. replace (1 + len vs - 1) with (len vs) by lia. rewrite (IHm vs chunks) by (auto; lia).
      rewrite !len_app, len_cons. cbn [map rev fst snd]. rewrite <- app_assoc. cbn [app]. do 3 f_equal. lia.
  Qed.
End Complete.
