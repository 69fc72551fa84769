(** * Reading primitives on well-formed bytes. *)
From Verif Require Import Base BaseLemmas ModelVarint ModelData ModelSecondary ModelObject
  ModelParse ModelWrapper Spec VarintProofs Wire NumProofs.
From Coq Require Import ZifyBool ZifyNat ZifyN.

Lemma run_lift {A} get (x : outcome A) : run get (lift x) = x.
Proof. now destruct x. Qed.

Lemma run_bind {A B} get (p : prog A) (f : A -> prog B) :
  run get (pbind p f) = obind (run get p) (fun a => run get (f a)).
Proof.
  induction p as [A a|A f0|A id k IH|A ts k IH]; cbn [pbind run].
  - reflexivity.
  - now destruct f0.
  - rewrite obind_assoc. destruct (get id); cbn; auto.
  - destruct (hard_failure _) as [[]|]; cbn; auto.
Qed.

Definition at_ (i : N) : rstate := {| idx := i; off := i |}.

Definition lim (c : cfg) (n : N) : Prop := n < (if ndebug c then 2 ^ 32 else 2 ^ 31).

Lemma lim_W32 c n : lim c n -> n < W32.
Proof. unfold lim. rewrite W32_val. destruct (ndebug c); lia. Qed.
Lemma lim_le c m n : m <= n -> lim c n -> lim c m.
Proof. unfold lim; intros; lia. Qed.

Lemma remain_at E i : lim (r_cfg E) (r_size E) -> i <= r_size E ->
  remain E (at_ i) = Z.of_N (r_size E - i).
Proof.
  intros HL Hi. apply lim_W32 in HL. unfold remain. cbn. rewrite W32_val in HL.
  rewrite sub64_small by (rewrite ?W64_val; lia). apply to_int64_small.
  change (2 ^ 63) with 9223372036854775808. lia.
Qed.

Lemma check_empty_at E i : lim (r_cfg E) (r_size E) -> i < r_size E -> check_empty E (at_ i) = Ok tt.
Proof.
  intros HL Hi. unfold check_empty. rewrite remain_at by (auto; lia).
  now replace (Z.of_N (r_size E - i) <=? 0)%Z with false by lia.
Qed.

Lemma curAddr_at E i : i < r_size E -> curAddr E (at_ i) = Ok (r_base E + i).
Proof. intros Hi. unfold curAddr; cbn. now replace (r_size E <=? i) with false by lia. Qed.

Lemma skip_at E i n : lim (r_cfg E) (r_size E) -> i + n <= r_size E ->
  skip n (at_ i) = {| idx := i + n; off := i |}.
Proof.
  intros HL Hi. apply lim_W32 in HL. unfold skip; cbn.
  now rewrite u64_small by (rewrite ?W64_val, ?W32_val in *; lia).
Qed.

Lemma add_off_at E i n : lim (r_cfg E) (r_size E) -> i + n <= r_size E ->
  add_off n {| idx := i + n; off := i |} = at_ (i + n).
Proof.
  intros HL Hi. apply lim_W32 in HL. unfold add_off; cbn.
  now rewrite u64_small by (rewrite ?W64_val, ?W32_val in *; lia).
Qed.

Lemma check_oor_ok E s : idx s <= r_size E -> check_oor E s = Ok tt.
Proof. intros H. unfold check_oor. now replace (r_size E <? idx s) with false by lia. Qed.

Lemma parseLength_ok E A n B i :
  r_content E = A ++ venc n ++ B -> r_base E + i = len A -> i + len (venc n) <= r_size E ->
  lim (r_cfg E) (r_size E) -> n < W64 ->
  parseLength E (at_ i) = Ok (n, at_ (i + len (venc n))).
Proof.
  intros HC HB HS HL Hn. pose proof (venc_len_pos n).
  unfold parseLength. rewrite check_empty_at by (auto; lia). cbn [obind].
  rewrite curAddr_at by lia. cbn [obind]. rewrite HC, HB.
  rewrite remain_at by (auto; lia). rewrite varint_decode_ok; [|exact Hn|].
  - cbn [obind]. rewrite (skip_at E) by auto. rewrite check_oor_ok by (cbn; lia). cbn [obind].
    now rewrite (add_off_at E) by auto.
  - destruct (ndebug (r_cfg E)) eqn:Hnd; [now left|right].
    unfold lim in HL. rewrite Hnd in HL. change (2 ^ 31) with 2147483648 in HL.
    rewrite to_int32_small by lia. lia.
Qed.

Lemma parseDataType_ok E A b B i :
  r_content E = A ++ b :: B -> r_base E + i = len A -> i + 1 <= r_size E ->
  lim (r_cfg E) (r_size E) ->
  parseDataType E (at_ i) = Ok (b2n b, at_ (i + 1)).
Proof.
  intros HC HB HS HL. unfold parseDataType. rewrite check_empty_at by (auto; lia). cbn [obind].
  rewrite curAddr_at by lia. cbn [obind]. rewrite HC, HB, read_byte_mid. cbn [obind].
  rewrite (skip_at E) by auto. rewrite check_oor_ok by (cbn; lia). cbn [obind].
  now rewrite (add_off_at E) by auto.
Qed.

Lemma parseObjectType_ok E A v fl B i :
  r_content E = A ++ tag v fl :: B -> r_base E + i = len A -> i + 1 <= r_size E ->
  lim (r_cfg E) (r_size E) ->
  parseObjectType E (at_ i) = Ok (type_of v, at_ (i + 1)) /\
  parseObjectType_split E (at_ i) = Ok (type_of v, fl, at_ (i + 1)).
Proof.
  intros HC HB HS HL. unfold parseObjectType, parseObjectType_split.
  rewrite check_empty_at by (auto; lia). cbn [obind].
  rewrite curAddr_at by lia. cbn [obind]. rewrite HC, HB, read_byte_mid. cbn [obind].
  rewrite (skip_at E) by auto. rewrite check_oor_ok by (cbn; lia). cbn [obind].
  rewrite (add_off_at E) by auto. split; destruct v, fl; reflexivity.
Qed.
