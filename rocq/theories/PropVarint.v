(** * Properties C10 and C45: the varint codec. *)
From Verif Require Import Base BaseLemmas ModelVarint ModelData VarintProofs Samples.
From Coq Require Import ZifyBool ZifyNat ZifyN.

(** C10.  [buflen] is the buffer size passed by the caller (128 everywhere in the
    library), [bl] the [int] length given to the decoder. *)
Theorem C10_varint_round_trip : forall c n buflen,
  char_signed c = true -> n < 2 ^ 64 -> 10 <= buflen ->
  exists b, varint_encode c n buflen = Ok b /\
    (* length: as announced, the least k >= 1 with n < 128^k, at most ten *)
    len b = varint_encoding_length n /\ 1 <= len b <= 10 /\
    n < 128 ^ len b /\ (len b = 1 \/ 128 ^ (len b - 1) <= n) /\
    (* decoding it in place, whatever is before and after, on any platform *)
    (forall c' A X bl, (ndebug c' = true \/ (Z.of_N (len b) <= bl)%Z) ->
       varint_decode c' (A ++ b ++ X) (len A) bl = Ok (n, len b)) /\
    (* no decodable byte string for n is shorter *)
    (forall c' content ptr bl k, varint_decode c' content ptr bl = Ok (n, k) -> len b <= k) /\
    (* prefix free *)
    (forall n' b' X Y, n' < 2 ^ 64 -> varint_encode c n' buflen = Ok b' -> b ++ X = b' ++ Y -> n = n').
Proof.
  intros c n bl Hc Hn Hbl. exists (venc n).
  split; [now apply varint_encode_ok|].
  split; [now apply venc_len|].
  split; [split; [apply venc_len_pos|apply venc_len_le]|].
  assert (HB : n < 128 ^ len (venc n) /\ (len (venc n) = 1 \/ 128 ^ (len (venc n) - 1) <= n)).
  { rewrite venc_len by exact Hn. unfold varint_encoding_length.
    repeat match goal with |- context [if ?a <? ?b then _ else _] => destruct (N.ltb_spec a b) end;
      (split; [eapply N.lt_le_trans; [eassumption|vm_compute; discriminate]|]);
      ((left; reflexivity) || (right; etransitivity; [|eassumption]; vm_compute; discriminate)). }
  split; [apply HB|]. split; [apply HB|].
  split; [intros; now apply varint_decode_ok|].
  split; [intros c' content ptr bl' k H; now apply varint_decode_minimal in H|].
  intros n' b' X Y Hn' He HXY. rewrite varint_encode_ok in He by assumption. injection He as <-.
  now apply venc_prefix_free in HXY.
Qed.

Example C10_met : varint_encode x86_debug 300 128 = Ok (str [172; 2]) /\
  varint_encode x86_debug (2 ^ 64 - 1) 128 = Ok (str [255; 255; 255; 255; 255; 255; 255; 255; 255; 1]) /\
  varint_decode x86_debug (str [7; 172; 2; 9]) 1 3 = Ok (300, 2).
Proof. vm_compute. auto. Qed.

(** C45.  With an unsigned plain char 256 is written as a single zero byte. *)
Definition arm : cfg :=
  {| little := true; ndebug := true; char_signed := false;
     split_block_size := real_split_block_size; iter := fun _ _ _ l => l |}.

Theorem C45_unsigned_char_refuted :
  exists n b, n < 2 ^ 32 /\ varint_encode arm n 128 = Ok b /\
    varint_decode arm b 0 128 <> Ok (n, len b).
Proof. exists 256, [x00]. split; [reflexivity|]. split; [vm_compute; reflexivity|]. vm_compute. discriminate. Qed.

(** Exactly which numbers survive on such a platform: those whose seven-bit groups,
    the lowest excepted, are all odd.  The decoder itself does not depend on the
    signedness of char (C10 quantifies over the reading platform). *)
Definition odd_groups (n : N) : Prop := forall i, 1 <= i -> 128 ^ i <= n -> N.testbit n (7 * i) = true.

Lemma land128_testbit n : (N.land n 128 =? 0) = negb (N.testbit n 7).
Proof.
  destruct (N.testbit n 7) eqn:E; cbn.
  - apply N.eqb_neq. intros H. assert (N.testbit (N.land n 128) 7 = true) as H1.
    { rewrite N.land_spec, E. reflexivity. }
    rewrite H in H1. now rewrite N.bits_0 in H1.
  - apply N.eqb_eq. apply N.bits_inj_0. intros k. rewrite N.land_spec. change 128 with (2 ^ 7).
    rewrite N.pow2_bits_eqb. destruct (N.eqb_spec 7 k) as [<-|]; [now rewrite E|apply andb_false_r].
Qed.

Lemma odd_groups_small n : n < 128 -> odd_groups n.
Proof.
  intros H i Hi Hn. exfalso. assert (128 ^ 1 <= 128 ^ i) by (apply N.pow_le_mono_r; lia). change (128 ^ 1) with 128 in *. lia.
Qed.

Lemma odd_groups_step n : 128 <= n -> odd_groups n <-> (N.testbit n 7 = true /\ odd_groups (n / 128)).
Proof.
  intros Hn. split.
  - intros H. split; [apply (H 1); [lia|exact Hn]|]. intros i Hi Hd.
    rewrite <- shiftr_7, N.shiftr_spec by lia. replace (7 * i + 7) with (7 * (i + 1)) by lia.
    apply H; [lia|]. rewrite N.pow_add_r. change (128 ^ 1) with 128.
    pose proof (N.mul_div_le n 128). nia.
  - intros [H7 H] i Hi Hle. destruct (N.eq_dec i 1) as [->|Hne]; [exact H7|].
    specialize (H (i - 1)). rewrite <- shiftr_7, N.shiftr_spec in H by lia.
    replace (7 * (i - 1) + 7) with (7 * i) in H by lia. apply H; [lia|].
    rewrite shiftr_7. apply N.div_le_lower_bound; [lia|]. replace i with (1 + (i - 1)) in Hle by lia.
    rewrite N.pow_add_r in Hle. exact Hle.
Qed.

Lemma unsigned_loop c f n k bl :
  char_signed c = false -> n < 2 ^ (7 * N.of_nat f) -> (0 < f)%nat -> k + N.of_nat f <= bl ->
  exists b, varint_encode_loop c f n k bl = Ok b /\ 1 <= len b /\ (odd_groups n -> b = leb f n) /\
    (n < 128 ^ len b -> odd_groups n).
Proof.
  intros Hc; revert n k; induction f as [|f IH]; intros n k Hn Hf Hk; [lia|].
  cbn [varint_encode_loop leb]. unfold MSBALL. rewrite Hc, land128_testbit.
  destruct (N.testbit n 7) eqn:E; cbn [negb].
  - assert (Hn128 : 128 <= n).
    { destruct (N.ltb_spec n 128) as [Hlt|]; [|assumption]. exfalso.
      destruct (N.eq_dec n 0) as [->|H0]; [now rewrite N.bits_0 in E|].
      rewrite N.bits_above_log2 in E; [discriminate|]. apply N.log2_lt_pow2; [lia|exact Hlt]. }
    destruct (N.ltb_spec n 128); [lia|].
    assert (Hf0 : (0 < f)%nat).
    { destruct f; [|lia]. change (2 ^ (7 * N.of_nat 1)) with 128 in Hn. lia. }
    replace (k + 1 <? bl) with true by lia. rewrite andb_comm. cbn [negb andb].
    rewrite shiftr_7.
    assert (Hd : n / 128 < 2 ^ (7 * N.of_nat f)).
    { apply div128_lt. replace (N.of_nat f + 1) with (N.of_nat (S f)) by lia. exact Hn. }
    destruct (IH (n / 128) (k + 1)) as (b & Hb & H1 & He & Hbad); [exact Hd|exact Hf0|lia|].
    rewrite Hb. cbn [obind]. rewrite encode_byte. eexists. split; [reflexivity|].
    rewrite len_cons. split; [lia|]. rewrite odd_groups_step by assumption. split.
    + intros [_ H']. now rewrite He.
    + intros Hlt. split; [exact E|]. apply Hbad. apply N.div_lt_upper_bound; [lia|].
      rewrite N.pow_add_r in Hlt. change (128 ^ 1) with 128 in Hlt. lia.
  - exists [n2b n]. split; [reflexivity|]. rewrite len_cons, len_nil. split; [lia|]. split.
    + intros Ho. destruct (N.ltb_spec n 128) as [|Hge]; [reflexivity|]. exfalso.
      apply odd_groups_step in Ho as [Ho _]; [congruence|exact Hge].
    + intros Hlt. now apply odd_groups_small.
Qed.

Theorem C45_unsigned_char_partial : forall c n, char_signed c = false -> n < 2 ^ 64 ->
  exists b, varint_encode c n 128 = Ok b /\
    forall c' A X bl, (ndebug c' = true \/ (Z.of_N (len b) <= bl)%Z) ->
      (varint_decode c' (A ++ b ++ X) (len A) bl = Ok (n, len b) <-> odd_groups n).
Proof.
  intros c n Hc Hn. destruct (unsigned_loop c 10 n 0 128 Hc) as (b & Hb & H1 & He & Hbad); [now apply W64_le_70|lia|lia|].
  exists b. split; [unfold varint_encode; apply encode_loop_more with 10%nat; [lia|exact Hb]|].
  intros c' A X bl Hbl. split.
  - intros H. apply Hbad. unfold varint_decode in H. apply decode_loop_value in H; [|lia|reflexivity|reflexivity].
    destruct H as (m & Hm & Hl & d & Hd & Hdm). assert (m = len b) as -> by lia.
    replace (128 ^ len b) with (2 ^ (7 * len b)) by (rewrite N.pow_mul_r; reflexivity).
    eapply N.le_lt_trans; [|exact Hdm]. rewrite Hd. change (2 ^ 0) with 1. rewrite N.mul_1_r, N.add_0_l.
    apply N.mod_le. rewrite W64_val; lia.
  - intros Ho. specialize (He Ho). change (leb 10 n) with (venc n) in He. subst b. now apply varint_decode_ok.
Qed.

Example C45_met : odd_groups 200 /\ ~ odd_groups 256.
Proof.
  split.
  - apply odd_groups_step; [lia|]. split; [reflexivity|]. apply odd_groups_small. vm_compute. reflexivity.
  - intros H. apply odd_groups_step in H as [H _]; [discriminate|lia].
Qed.
