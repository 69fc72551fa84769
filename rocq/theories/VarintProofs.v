(** * The varint codec (varint.h): round trip, length, prefix freeness, minimality. *)
From Verif Require Import Base BaseLemmas ModelVarint.
From Coq Require Import ZifyBool ZifyNat ZifyN.

(** LEB128: base-128 digits, least significant first, continuation bit on all but
    the last. *)
Fixpoint leb (fuel : nat) (n : N) : bytes :=
  match fuel with
  | O => []
  | S f => if n <? 128 then [n2b n] else n2b (n mod 128 + 128) :: leb f (n / 128)
  end.
Definition venc (n : N) : bytes := leb 10 n.
Arguments venc : simpl never.

(** ** Bit facts *)
Lemma land_127 n : N.land n 127 = n mod 128.
Proof. change 127 with (N.ones 7). rewrite N.land_ones. reflexivity. Qed.

Lemma shiftr_7 n : N.shiftr n 7 = n / 128.
Proof. rewrite N.shiftr_div_pow2. reflexivity. Qed.

Lemma land_128_small n : n < 128 -> N.land n 128 = 0.
Proof.
  intros H. change 128 with (2 ^ 7) in *. apply N.bits_inj_0. intros k.
  rewrite N.land_spec, N.pow2_bits_eqb.
  destruct (N.eqb_spec 7 k) as [<-|Hk]; [|apply andb_false_r].
  rewrite andb_true_r. destruct (N.eq_dec n 0) as [->|Hn]; [reflexivity|].
  apply N.bits_above_log2. apply N.log2_lt_pow2; lia.
Qed.

Lemma land_msball n : n < W64 -> (N.land n (W64 - 128) =? 0) = (n <? 128).
Proof.
  intros H.
  destruct (N.ltb_spec n 128) as [Hn|Hn].
  - apply N.eqb_eq. replace (W64 - 128) with (N.shiftl (N.ones 57) 7) by reflexivity.
    apply N.bits_inj_0. intros k. rewrite N.land_spec.
    destruct (N.ltb_spec k 7) as [Hk|Hk].
    + rewrite N.shiftl_spec_low by exact Hk. apply andb_false_r.
    + destruct (N.eq_dec n 0) as [->|Hn0]; [reflexivity|].
      rewrite N.bits_above_log2; [reflexivity|].
      apply N.lt_le_trans with 7; [|exact Hk]. apply N.log2_lt_pow2; [lia|exact Hn].
  - apply N.eqb_neq. intros H0.
    assert (Hl : N.testbit (N.land n (W64 - 128)) (N.log2 n) = true).
    { rewrite N.land_spec, N.bit_log2 by lia.
      replace (W64 - 128) with (N.shiftl (N.ones 57) 7) by reflexivity.
      assert (7 <= N.log2 n) by (apply N.log2_le_pow2; [lia|exact Hn]).
      assert (N.log2 n < 64) by (apply N.log2_lt_pow2; [lia|exact H]).
      rewrite N.shiftl_spec_high' by assumption.
      rewrite N.ones_spec_low by lia. reflexivity. }
    rewrite H0, N.bits_0 in Hl. discriminate.
Qed.

Lemma lor_128 a : a < 256 -> N.lor a 128 = a mod 128 + 128.
Proof.
  intros H.
  assert (Hs : forallb (fun k => N.lor (N.of_nat k) 128 =? N.of_nat k mod 128 + 128)
                 (seq 0 256) = true) by (vm_compute; reflexivity).
  rewrite forallb_forall in Hs. specialize (Hs (N.to_nat a)).
  rewrite N2Nat.id in Hs. apply N.eqb_eq, Hs. apply in_seq. lia.
Qed.

Lemma land_255 n : N.land n 255 = n mod 256.
Proof. change 255 with (N.ones 8). rewrite N.land_ones. reflexivity. Qed.

Lemma mod256_mod128 n : (n mod 256) mod 128 = n mod 128.
Proof.
  change 256 with (128 * 2). rewrite N.mod_mul_r by lia.
  rewrite N.mul_comm, N.mod_add by lia. apply N.mod_mod; lia.
Qed.

Lemma land_128_set a : a < 256 -> (N.land a 128 =? 0) = (a <? 128).
Proof.
  intros H.
  assert (Hs : forallb (fun k => Bool.eqb (N.land (N.of_nat k) 128 =? 0) (N.of_nat k <? 128))
                 (seq 0 256) = true) by (vm_compute; reflexivity).
  rewrite forallb_forall in Hs. specialize (Hs (N.to_nat a)).
  rewrite N2Nat.id in Hs. apply eqb_prop, Hs. apply in_seq. lia.
Qed.

Lemma encode_byte n : n2b (N.lor (N.land n 255) 128) = n2b (n mod 128 + 128).
Proof.
  rewrite land_255, lor_128 by (apply N.mod_lt; lia). now rewrite mod256_mod128.
Qed.

(** ** Encoding *)
Lemma div128_lt n k : n < 2 ^ (7 * (k + 1)) -> n / 128 < 2 ^ (7 * k).
Proof.
  intros H. apply N.div_lt_upper_bound; [lia|].
  replace (128 * 2 ^ (7 * k)) with (2 ^ (7 * (k + 1))); [exact H|].
  replace (7 * (k + 1)) with (7 + 7 * k) by lia. rewrite N.pow_add_r. reflexivity.
Qed.

Lemma encode_loop_ok c f n k bl :
  char_signed c = true -> n < W64 -> (0 < f)%nat -> n < 2 ^ (7 * N.of_nat f) ->
  k + N.of_nat f <= bl ->
  varint_encode_loop c f n k bl = Ok (leb f n).
Proof.
  intros Hc; revert n k; induction f as [|f IH]; intros n k HW Hf Hn Hk; [lia|].
  cbn [varint_encode_loop leb].
  unfold MSBALL at 1. rewrite Hc, land_msball by exact HW.
  destruct (N.ltb_spec n 128) as [Hs|Hs]; [reflexivity|].
  rewrite encode_byte, shiftr_7.
  assert (Hf0 : (0 < f)%nat).
  { destruct f; [|lia]. change (2 ^ (7 * N.of_nat 1)) with 128 in Hn. lia. }
  replace (k + 1 <? bl) with true by lia. rewrite andb_false_r.
  rewrite IH; [reflexivity| | exact Hf0| |lia].
  - assert (n / 128 <= n) by (apply N.div_le_upper_bound; lia). lia.
  - apply div128_lt. replace (N.of_nat f + 1) with (N.of_nat (S f)) by lia. exact Hn.
Qed.

Lemma encode_loop_more c f g n k bl b :
  (f <= g)%nat -> varint_encode_loop c f n k bl = Ok b -> varint_encode_loop c g n k bl = Ok b.
Proof.
  revert g n k b; induction f as [|f IH]; intros [|g] n k b Hg H; try lia; try discriminate.
  cbn [varint_encode_loop] in *. destruct (_ =? 0); [exact H|].
  destruct (_ && _); [discriminate|].
  apply obind_ok in H as (r & Hr & H). rewrite (IH g _ _ r); [exact H|lia|exact Hr].
Qed.

Lemma W64_le_70 n : n < W64 -> n < 2 ^ (7 * N.of_nat 10).
Proof. rewrite W64_val. change (2 ^ (7 * N.of_nat 10)) with 1180591620717411303424. lia. Qed.

Theorem varint_encode_ok c n bl :
  char_signed c = true -> n < W64 -> 10 <= bl -> varint_encode c n bl = Ok (venc n).
Proof.
  intros Hc Hn Hb. unfold varint_encode, venc.
  apply encode_loop_more with 10%nat; [lia|].
  apply encode_loop_ok; try assumption; [lia|now apply W64_le_70].
Qed.

(** ** Length *)
Lemma leb_len f n : n < 2 ^ (7 * N.of_nat f) -> len (leb f n) <= N.of_nat f.
Proof.
  revert n; induction f as [|f IH]; intros n Hn; cbn [leb]; [rewrite len_nil; lia|].
  destruct (n <? 128); rewrite len_cons, ?len_nil; [lia|].
  specialize (IH (n / 128)). enough (len (leb f (n / 128)) <= N.of_nat f) by lia.
  apply IH, div128_lt. replace (N.of_nat f + 1) with (N.of_nat (S f)) by lia. exact Hn.
Qed.

Lemma venc_len_le n : len (venc n) <= 10.
Proof.
  unfold venc. assert (H : forall f m, len (leb f m) <= N.of_nat f).
  { induction f as [|f IH]; intros m; cbn [leb]; [rewrite len_nil; lia|].
    destruct (m <? 128); rewrite len_cons, ?len_nil; [lia|]. specialize (IH (m / 128)); lia. }
  apply (H 10%nat).
Qed.

Lemma venc_len_pos n : 1 <= len (venc n).
Proof. unfold venc; cbn [leb]. destruct (n <? 128); rewrite len_cons; lia. Qed.

Lemma venc_nonempty n : venc n <> [].
Proof. intros H; pose proof (venc_len_pos n) as H1; rewrite H, len_nil in H1; lia. Qed.

(** Digits needed. *)
Lemma leb_len_lower f n k :
  N.of_nat k <= N.of_nat f -> (k = 0%nat \/ 2 ^ (7 * N.of_nat k) <= n) -> (0 < f)%nat ->
  N.of_nat k < N.of_nat f -> N.of_nat k + 1 <= len (leb f n).
Proof.
  revert n k; induction f as [|f IH]; intros n k Hk Hn Hf Hlt; [lia|].
  cbn [leb]. destruct (N.ltb_spec n 128) as [Hs|Hs].
  - rewrite len_cons, len_nil. destruct k as [|k]; [lia|].
    destruct Hn as [Hn|Hn]; [lia|].
    assert (2 ^ 7 <= 2 ^ (7 * N.of_nat (S k))) by (apply N.pow_le_mono_r; lia).
    change (2 ^ 7) with 128 in *. lia.
  - rewrite len_cons. destruct k as [|k]; [lia|].
    enough (N.of_nat k + 1 <= len (leb f (n / 128))) by lia.
    apply IH; try lia. destruct k as [|k]; [now left|right].
    destruct Hn as [Hn|Hn]; [lia|].
    apply N.div_le_lower_bound; [lia|].
    replace (128 * 2 ^ (7 * N.of_nat (S k))) with (2 ^ (7 * N.of_nat (S (S k)))); [exact Hn|].
    replace (7 * N.of_nat (S (S k))) with (7 + 7 * N.of_nat (S k)) by lia.
    rewrite N.pow_add_r. reflexivity.
Qed.

Lemma leb_len_upper f n k :
  n < 2 ^ (7 * N.of_nat k) -> (0 < k)%nat -> len (leb f n) <= N.of_nat k.
Proof.
  revert n k; induction f as [|f IH]; intros n k Hn Hk; cbn [leb]; [rewrite len_nil; lia|].
  destruct (N.ltb_spec n 128) as [Hs|Hs]; rewrite len_cons, ?len_nil; [lia|].
  destruct k as [|[|k]]; [lia| |].
  - change (2 ^ (7 * N.of_nat 1)) with 128 in Hn. lia.
  - enough (len (leb f (n / 128)) <= N.of_nat (S k)) by lia.
    apply IH; [|lia]. apply div128_lt.
    replace (N.of_nat (S k) + 1) with (N.of_nat (S (S k))) by lia. exact Hn.
Qed.

Lemma venc_len n : n < W64 -> len (venc n) = varint_encoding_length n.
Proof.
  intros Hn. unfold venc, varint_encoding_length.
  assert (U : forall k, (0 < k)%nat -> n < 2 ^ (7 * N.of_nat k) -> len (leb 10 n) <= N.of_nat k)
    by (intros; now apply leb_len_upper).
  assert (L : forall k, (k < 10)%nat -> (k = 0%nat \/ 2 ^ (7 * N.of_nat k) <= n) ->
            N.of_nat k + 1 <= len (leb 10 n)) by (intros; apply leb_len_lower; auto; lia).
  Ltac stepk k :=
    match goal with |- context [?a <? ?b] => destruct (N.ltb_spec a b) end;
    [ match goal with U : forall _, _ -> _ -> len _ <= _, L : forall _, _ -> _ -> _ <= len _ |- _ =>
        specialize (U k); specialize (L (pred k)) end;
      cbn [pred] in *;
      apply N.le_antisymm;
      [ match goal with U : _ -> _ -> _ <= _ |- _ => etransitivity; [apply U; [lia|assumption]|vm_compute; discriminate] end
      | match goal with L : _ -> _ -> _ <= _ |- _ =>
          etransitivity; [|apply L; [lia| first [now left | right; assumption]]]; vm_compute; discriminate end ]
    |].
  stepk 1%nat. stepk 2%nat. stepk 3%nat. stepk 4%nat. stepk 5%nat. stepk 6%nat. stepk 7%nat.
  stepk 8%nat. stepk 9%nat.
  apply N.le_antisymm.
  - apply (U 10%nat); [lia|now apply W64_le_70].
  - apply (L 9%nat); [lia|right; assumption].
Qed.

(** ** Decoding *)
Lemma u64_u64_add a b : u64 (a + u64 b) = u64 (a + b).
Proof. unfold u64. apply N.add_mod_idemp_r. rewrite W64_val; lia. Qed.

Lemma decode_loop_ok c f fuel A n B k bl bits r :
  (0 < f)%nat -> (f <= fuel)%nat -> n < 2 ^ (7 * N.of_nat f) ->
  bits = 7 * k -> r < 2 ^ bits -> r + n * 2 ^ bits < W64 -> (n <> 0 \/ bits < 64) ->
  k + N.of_nat f <= 11 ->
  (ndebug c = true \/ (Z.of_N (k + len (leb f n)) <= bl)%Z) ->
  varint_decode_loop c fuel (A ++ leb f n ++ B) (len A) k bl bits r
  = Ok (r + n * 2 ^ bits, k + len (leb f n)).
Proof.
  revert fuel A n k bits r.
  induction f as [|f IH]; intros fuel A n k bits r Hf Hfu Hn Hb Hr HW Hbits Hk Hd; [lia|].
  destruct fuel as [|fuel]; [lia|].
  cbn [leb varint_decode_loop] in *.
  assert (Hb64 : bits < 64).
  { destruct Hbits as [Hnz|]; [|assumption].
    assert (2 ^ bits < 2 ^ 64) by (rewrite W64_val in HW; change (2 ^ 64) with 18446744073709551616; nia).
    now apply N.pow_lt_mono_r_iff in H. }
  replace (negb (bits <? 64)) with false by lia.
  destruct (N.ltb_spec n 128) as [Hs|Hs].
  - cbn [app]. rewrite read_byte_mid. cbn [obind].
    rewrite b2n_n2b by lia. rewrite land_127, (N.mod_small n 128) by lia.
    rewrite N.shiftl_mul_pow2, land_128_set by lia.
    replace (n <? 128) with true by lia.
    rewrite u64_u64_add, u64_small by exact HW.
    rewrite len_cons, len_nil. f_equal. f_equal. rewrite N.mod_small; lia.
  - cbn [app]. rewrite read_byte_mid. cbn [obind].
    assert (Hm : n mod 128 < 128) by (apply N.mod_lt; lia).
    rewrite b2n_n2b by lia. rewrite land_127.
    replace ((n mod 128 + 128) mod 128) with (n mod 128)
      by (replace (n mod 128 + 128) with (n mod 128 + 1 * 128) by lia;
          rewrite N.mod_add by lia; rewrite N.mod_mod; lia).
    rewrite land_128_set by lia. replace (n mod 128 + 128 <? 128) with false by lia.
    assert (Hf0 : (0 < f)%nat).
    { destruct f; [|lia]. change (2 ^ (7 * N.of_nat 1)) with 128 in Hn. lia. }
    rewrite len_cons in Hd |- *.
    assert (Hlp : 1 <= len (leb f (n / 128))).
    { destruct f; [lia|]. cbn [leb]. destruct (_ <? _); rewrite len_cons; lia. }
    assert (Hguard : negb (ndebug c) && negb (Z.of_N (k + 1) <? bl)%Z = false).
    { destruct Hd as [->|Hd]; [reflexivity|].
      replace (Z.of_N (k + 1) <? bl)%Z with true by lia. apply andb_false_r. }
    rewrite Hguard. rewrite N.shiftl_mul_pow2, u64_u64_add.
    assert (Hdm : n = 128 * (n / 128) + n mod 128) by (apply N.div_mod'; lia).
    assert (Hp : 2 ^ (bits + 7) = 128 * 2 ^ bits) by (rewrite N.pow_add_r; change (2 ^ 7) with 128; lia).
    assert (Hpos : 0 < 2 ^ bits) by (apply N.neq_0_lt_0, N.pow_nonzero; lia).
    assert (Hle : r + n mod 128 * 2 ^ bits < W64) by nia.
    rewrite u64_small by exact Hle.
    replace (A ++ n2b (n mod 128 + 128) :: leb f (n / 128) ++ B)
      with ((A ++ [n2b (n mod 128 + 128)]) ++ leb f (n / 128) ++ B) by (rewrite <- app_assoc; reflexivity).
    replace (len A + 1) with (len (A ++ [n2b (n mod 128 + 128)]))
      by (rewrite len_app, len_cons, len_nil; lia).
    rewrite IH; try lia.
    + f_equal. f_equal; [rewrite Hp; nia|lia].
    + apply div128_lt. replace (N.of_nat f + 1) with (N.of_nat (S f)) by lia. exact Hn.
    + rewrite Hp. nia.
Qed.

Theorem varint_decode_ok c A n B bl :
  n < W64 -> (ndebug c = true \/ (Z.of_N (len (venc n)) <= bl)%Z) ->
  varint_decode c (A ++ venc n ++ B) (len A) bl = Ok (n, len (venc n)).
Proof.
  intros Hn Hd. unfold varint_decode, venc in *.
  rewrite decode_loop_ok; try lia.
  - change (2 ^ 0) with 1. rewrite N.mul_1_r, !N.add_0_l. reflexivity.
  - now apply W64_le_70.
Qed.

(** ** Any successful decoding has at least as many bytes as the encoding. *)
Lemma decode_loop_value c fuel content ptr k bl bits r v n :
  k <= 10 -> (N.of_nat fuel + k <= 12) -> bits = 7 * k ->
  varint_decode_loop c fuel content ptr k bl bits r = Ok (v, n) ->
  exists m, 1 <= m /\ n = k + m /\ exists d, v = u64 (r + d * 2 ^ bits) /\ d < 2 ^ (7 * m).
Proof.
  revert ptr k bits r; induction fuel as [|fuel IH]; intros ptr k bits r Hk Hfk Hbits H; [discriminate|].
  cbn [varint_decode_loop] in H. apply obind_ok in H as (b & Hb & H).
  destruct (negb (bits <? 64)) eqn:Hb64; [discriminate|].
  assert (Hk9 : k <= 9) by lia.
  rewrite land_127, N.shiftl_mul_pow2, u64_u64_add in H.
  assert (Hm : b2n b mod 128 < 128) by (apply N.mod_lt; lia).
  destruct (N.land (b2n b) 128 =? 0).
  - injection H as <- <-. exists 1. split; [lia|]. split; [rewrite N.mod_small; lia|].
    exists (b2n b mod 128). split; [reflexivity|exact Hm].
  - destruct (_ && _); [discriminate|].
    apply IH in H; try lia. destruct H as (m & Hm1 & -> & d & -> & Hd).
    exists (m + 1). split; [lia|]. split; [lia|].
    exists (b2n b mod 128 + 128 * d). split.
    + unfold u64. rewrite N.add_mod_idemp_l by (rewrite W64_val; lia). f_equal.
      rewrite N.pow_add_r. change (2 ^ 7) with 128. lia.
    + replace (7 * (m + 1)) with (7 + 7 * m) by lia. rewrite N.pow_add_r. change (2^7) with 128. lia.
Qed.

Theorem varint_decode_minimal c content ptr bl v n :
  varint_decode c content ptr bl = Ok (v, n) -> v < W64 /\ len (venc v) <= n /\ n <= 10.
Proof.
  intros H. unfold varint_decode in H.
  assert (Hv : v < W64 /\ n <= 10).
  { clear -H.
    assert (G : forall fuel ptr k bits r, bits = 7 * k ->
              varint_decode_loop c fuel content ptr k bl bits r = Ok (v, n) -> v < W64 /\ n <= 10).
    { induction fuel as [|fuel IH]; intros p k bits r Hb H0; [discriminate|].
      cbn [varint_decode_loop] in H0. apply obind_ok in H0 as (b & _ & H0).
      destruct (negb (bits <? 64)) eqn:Hb64; [discriminate|].
      destruct (N.land (b2n b) 128 =? 0).
      - injection H0 as <- <-. split; [apply u64_lt|]. rewrite N.mod_small; lia.
      - destruct (_ && _); [discriminate|]. eapply IH; [|exact H0]. lia. }
    apply (G 12%nat ptr 0 0 0); auto. }
  destruct Hv as [Hv Hn].
  apply decode_loop_value in H as (m & Hm & -> & d & Hd & Hlt); try lia.
  change (2 ^ 0) with 1 in Hd. rewrite N.mul_1_r in Hd. rewrite ?N.add_0_l in *.
  split; [exact Hv|]. split; [|exact Hn].
  replace m with (N.of_nat (N.to_nat m)) by lia. unfold venc. apply leb_len_upper; [|lia].
  rewrite N2Nat.id. rewrite Hd. unfold u64.
  apply N.le_lt_trans with d; [apply N.mod_le; rewrite W64_val; lia|exact Hlt].
Qed.

(** ** Injectivity and prefix freeness *)
Theorem venc_prefix_free m n X Y :
  m < W64 -> n < W64 -> venc m ++ X = venc n ++ Y -> m = n.
Proof.
  intros Hm Hn H.
  pose proof (varint_decode_ok {| little := true; ndebug := true; char_signed := true;
     split_block_size := 0; iter := fun _ _ _ l => l |} [] m X 0 Hm (or_introl eq_refl)) as H1.
  pose proof (varint_decode_ok {| little := true; ndebug := true; char_signed := true;
     split_block_size := 0; iter := fun _ _ _ l => l |} [] n Y 0 Hn (or_introl eq_refl)) as H2.
  cbn [app] in *. rewrite H in H1. rewrite H1 in H2. congruence.
Qed.
