(** * Byte order: the wire form of a number does not depend on the host. *)
From Verif Require Import Base BaseLemmas ModelData VarintProofs Spec Wire.
From Coq Require Import ZifyBool ZifyNat ZifyN.

Lemma le_bytes_length w n : length (le_bytes w n) = w.
Proof. revert n; induction w as [|w IH]; intros n; cbn; auto. Qed.

Lemma le_bytes_len w n : len (le_bytes (N.to_nat w) n) = w.
Proof. unfold len; rewrite le_bytes_length; lia. Qed.

Lemma of_le_bytes_bound l : of_le_bytes l < 256 ^ len l.
Proof.
  induction l as [|b l IH]; cbn [of_le_bytes]; [cbn; lia|].
  rewrite len_cons, N.pow_add_r. change (256 ^ 1) with 256. pose proof (b2n_lt b). nia.
Qed.

Lemma of_le_le w n : of_le_bytes (le_bytes w n) = n mod 256 ^ N.of_nat w.
Proof.
  revert n; induction w as [|w IH]; intros n; cbn [le_bytes of_le_bytes].
  - change (256 ^ N.of_nat 0) with 1. now rewrite N.mod_1_r.
  - rewrite IH, b2n_n2b_mod. replace (N.of_nat (S w)) with (1 + N.of_nat w) by lia.
    rewrite N.pow_add_r. change (256 ^ 1) with 256.
    rewrite N.mod_mul_r; [reflexivity|lia|apply N.pow_nonzero; lia].
Qed.

Lemma le_of_le l : le_bytes (length l) (of_le_bytes l) = l.
Proof.
  induction l as [|b l IH]; cbn [le_bytes of_le_bytes length]; [reflexivity|].
  f_equal.
  - apply b2n_inj. rewrite b2n_n2b_mod. rewrite (N.mul_comm 256), N.mod_add by lia.
    apply N.mod_small, b2n_lt.
  - replace ((b2n b + 256 * of_le_bytes l) / 256) with (of_le_bytes l); [exact IH|].
    rewrite (N.mul_comm 256), N.div_add by lia. rewrite N.div_small by apply b2n_lt. lia.
Qed.

Lemma le_of_le' w l : w = length l -> le_bytes w (of_le_bytes l) = l.
Proof. intros ->; apply le_of_le. Qed.

Lemma num_to_wire_be c w n : num_to_wire c w n = be_bytes w n.
Proof.
  unfold num_to_wire, be_bytes, num_to_mem, flipByByte, num_of_mem.
  unfold num_to_mem. destruct (little c); [|reflexivity].
  apply le_of_le'. now rewrite rev_length, le_bytes_length.
Qed.

Lemma be_bytes_len w n : len (be_bytes w n) = w.
Proof. unfold be_bytes; now rewrite len_rev, le_bytes_len. Qed.

Lemma pow256 w : 256 ^ w = 2 ^ (8 * w).
Proof. change 256 with (2 ^ 8). now rewrite <- N.pow_mul_r. Qed.

Lemma num_of_wire_be c w n : n < 2 ^ (8 * w) -> num_of_wire c w (be_bytes w n) = n.
Proof.
  intros H. unfold num_of_wire, be_bytes, num_to_mem, flipByByte, num_of_mem, num_to_mem.
  destruct (little c).
  - rewrite le_of_le' by (now rewrite rev_length, le_bytes_length).
    rewrite rev_involutive, of_le_le, N2Nat.id. apply N.mod_small. now rewrite pow256.
  - rewrite rev_involutive, of_le_le, N2Nat.id. apply N.mod_small. now rewrite pow256.
Qed.
