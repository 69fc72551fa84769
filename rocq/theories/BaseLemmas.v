(** * Lemmas about bytes, lists with binary lengths and outcomes. *)
From Verif Require Import Base.
From Coq Require Import Strings.Byte ZifyBool ZifyNat ZifyN.

Arguments N.add : simpl never.
Arguments N.sub : simpl never.
Arguments N.mul : simpl never.
Arguments N.pow : simpl never.
Arguments N.modulo : simpl never.
Arguments N.div : simpl never.
Arguments N.land : simpl never.
Arguments N.lor : simpl never.
Arguments N.shiftl : simpl never.
Arguments N.shiftr : simpl never.
Arguments N.of_nat : simpl never.
Arguments N.to_nat : simpl never.

(** ** Bytes *)
Lemma b2n_lt b : b2n b < 256.
Proof. unfold b2n; pose proof (Byte.to_N_bounded b); lia. Qed.

Lemma b2n_n2b_mod n : b2n (n2b n) = n mod 256.
Proof.
  unfold b2n, n2b.
  destruct (Byte.of_N (n mod 256)) as [b|] eqn:Hb.
  - now apply Byte.to_of_N.
  - exfalso. pose proof (Byte.to_of_N_option_map (n mod 256)) as Hm.
    rewrite Hb in Hm. cbn in Hm.
    assert (Hlt : n mod 256 < 256) by (apply N.mod_lt; lia).
    replace (n mod 256 <=? 255) with true in Hm by lia. discriminate.
Qed.

Lemma b2n_n2b n : n < 256 -> b2n (n2b n) = n.
Proof. intros H; rewrite b2n_n2b_mod; now apply N.mod_small. Qed.

Lemma n2b_b2n b : n2b (b2n b) = b.
Proof.
  unfold n2b. rewrite N.mod_small by apply b2n_lt.
  unfold b2n. now rewrite Byte.of_to_N.
Qed.

Lemma b2n_inj a b : b2n a = b2n b -> a = b.
Proof. intros H; rewrite <- (n2b_b2n a), <- (n2b_b2n b); now f_equal. Qed.

Lemma byte_eqb_spec a b : reflect (a = b) (byte_eqb a b).
Proof.
  unfold byte_eqb; destruct (N.eqb_spec (b2n a) (b2n b)) as [H|H]; constructor.
  - now apply b2n_inj.
  - intros ->; now apply H.
Qed.

Lemma bytes_eqb_spec a b : reflect (a = b) (bytes_eqb a b).
Proof.
  revert b; induction a as [|x a IH]; intros [|y b]; cbn; try (constructor; congruence).
  destruct (byte_eqb_spec x y) as [->|Hn]; cbn.
  - destruct (IH b) as [->|Hn]; constructor; congruence.
  - constructor; congruence.
Qed.

Lemma bytes_eqb_refl a : bytes_eqb a a = true.
Proof. now destruct (bytes_eqb_spec a a). Qed.

Lemma bytes_eqb_neq a b : a <> b -> bytes_eqb a b = false.
Proof. intros H; now destruct (bytes_eqb_spec a b). Qed.

(** ** Lengths *)
Lemma len_nil {A} : len (@nil A) = 0.
Proof. reflexivity. Qed.

Lemma len_cons {A} (x : A) l : len (x :: l) = 1 + len l.
Proof. unfold len; cbn [length]; lia. Qed.

Lemma len_app {A} (a b : list A) : len (a ++ b) = len a + len b.
Proof. unfold len; rewrite app_length; lia. Qed.

Lemma len_rev {A} (a : list A) : len (rev a) = len a.
Proof. unfold len; now rewrite rev_length. Qed.

Lemma len_map {A B} (f : A -> B) l : len (map f l) = len l.
Proof. unfold len; now rewrite map_length. Qed.

Lemma len_repeat {A} (x : A) n : len (repeat x n) = N.of_nat n.
Proof. unfold len; now rewrite repeat_length. Qed.

Lemma len_0 {A} (l : list A) : len l = 0 -> l = [].
Proof. destruct l; [reflexivity|rewrite len_cons; lia]. Qed.

Lemma to_nat_len {A} (l : list A) : N.to_nat (len l) = length l.
Proof. unfold len; lia. Qed.

Lemma len_perm {A} (a b : list A) : Permutation a b -> len a = len b.
Proof. intros H; unfold len; now rewrite (Permutation_length H). Qed.

Lemma len_Forall2 {A B} (R : A -> B -> Prop) a b : Forall2 R a b -> len a = len b.
Proof. intros H; unfold len; f_equal; induction H; cbn; congruence. Qed.

#[global] Hint Rewrite @len_nil @len_cons @len_app @len_rev @len_map @len_repeat : len.

(** ** Machine integers *)
Lemma W64_val : W64 = 18446744073709551616. Proof. reflexivity. Qed.
Lemma W32_val : W32 = 4294967296. Proof. reflexivity. Qed.

Lemma u64_small n : n < W64 -> u64 n = n.
Proof. unfold u64; apply N.mod_small. Qed.
Lemma u32_small n : n < W32 -> u32 n = n.
Proof. unfold u32; apply N.mod_small. Qed.
Lemma u64_lt n : u64 n < W64.
Proof. unfold u64; apply N.mod_lt; rewrite W64_val; lia. Qed.
Lemma u32_lt n : u32 n < W32.
Proof. unfold u32; apply N.mod_lt; rewrite W32_val; lia. Qed.
Lemma u32_u32 n : u32 (u32 n) = u32 n.
Proof. apply u32_small, u32_lt. Qed.

Lemma sub64_small a b : b <= a -> a < W64 -> sub64 a b = a - b.
Proof.
  intros H1 H2. unfold sub64. rewrite (N.mod_small b) by lia.
  replace (a + (W64 - b)) with ((a - b) + 1 * W64) by lia.
  rewrite N.mod_add by (rewrite W64_val; lia). apply N.mod_small; lia.
Qed.

(** Differences of growing lengths are exact modulo 2^64 whatever the base. *)
Lemma sub64_shift a b d : sub64 (a + d) (b + d) = sub64 a b.
Proof.
  unfold sub64.
  assert (HW : W64 <> 0) by (rewrite W64_val; lia).
  rewrite <- (N.add_mod_idemp_l a) by exact HW.
  rewrite <- (N.add_mod_idemp_l (a + d)) by exact HW.
  pose proof (N.mod_lt b W64 HW). pose proof (N.mod_lt (b + d) W64 HW).
  pose proof (N.div_mod' b W64). pose proof (N.div_mod' (b + d) W64).
  pose proof (N.div_mod' a W64). pose proof (N.div_mod' (a + d) W64).
  pose proof (N.mod_lt a W64 HW). pose proof (N.mod_lt (a + d) W64 HW).
  pose proof (N.div_mod' (a mod W64 + (W64 - b mod W64)) W64).
  pose proof (N.div_mod' ((a+d) mod W64 + (W64 - (b+d) mod W64)) W64).
  pose proof (N.mod_lt (a mod W64 + (W64 - b mod W64)) W64 HW).
  pose proof (N.mod_lt ((a+d) mod W64 + (W64 - (b+d) mod W64)) W64 HW).
  rewrite W64_val in *. nia.
Qed.

Lemma sub64_add a d : sub64 (a + d) a = u64 d.
Proof.
  rewrite <- (N.add_0_l a) at 2. rewrite (N.add_comm a d), sub64_shift.
  unfold sub64, u64. rewrite N.mod_0_l by (rewrite W64_val; lia).
  rewrite N.sub_0_r. replace (d + W64) with (d + 1 * W64) by lia.
  apply N.mod_add; rewrite W64_val; lia.
Qed.

Lemma to_int64_small n : n < 2 ^ 63 -> to_int64 n = Z.of_N n.
Proof. intros H; unfold to_int64. destruct (N.ltb_spec n (2^63)); lia. Qed.

Lemma to_int32_small z : (0 <= z < 2 ^ 31)%Z -> to_int32 z = z.
Proof.
  intros H; unfold to_int32. rewrite Z.mod_small by lia.
  destruct (Z.ltb_spec z (2^31)); lia.
Qed.

(** ** Slices *)
Lemma skipn_app_len {A} (a b : list A) : skipn (N.to_nat (len a)) (a ++ b) = b.
Proof. rewrite to_nat_len, skipn_app, skipn_all, Nat.sub_diag; reflexivity. Qed.

Lemma firstn_app_len {A} (a b : list A) : firstn (N.to_nat (len a)) (a ++ b) = a.
Proof. rewrite to_nat_len, firstn_app, Nat.sub_diag, firstn_all; cbn; apply app_nil_r. Qed.

Lemma slice_mid {A} (a b c : list A) : slice (a ++ b ++ c) (len a) (len b) = b.
Proof. unfold slice; now rewrite skipn_app_len, firstn_app_len. Qed.

Lemma read_byte_mid a x c : read_byte (a ++ x :: c) (len a) = Ok x.
Proof.
  unfold read_byte. rewrite len_app, len_cons.
  destruct (N.ltb_spec (len a) (len a + (1 + len c))); [|lia].
  rewrite to_nat_len, app_nth2, Nat.sub_diag by lia. reflexivity.
Qed.

Lemma read_range_mid a b c : read_range (a ++ b ++ c) (len a) (len b) = Ok b.
Proof.
  unfold read_range. destruct (N.eqb_spec (len b) 0) as [H0|H0].
  - apply len_0 in H0; now subst.
  - autorewrite with len.
    destruct (N.leb_spec (len a + len b) (len a + (len b + len c) + 1)); [|lia].
    now rewrite <- app_assoc, <- app_assoc, slice_mid.
Qed.

(** ** Outcomes *)
Lemma obind_ok {A B} (x : outcome A) (f : A -> outcome B) b :
  obind x f = Ok b <-> exists a, x = Ok a /\ f a = Ok b.
Proof.
  split.
  - destruct x; cbn; try discriminate; eauto.
  - intros (a & -> & H); exact H.
Qed.

Lemma obind_assoc {A B C} (x : outcome A) (f : A -> outcome B) (g : B -> outcome C) :
  obind (obind x f) g = obind x (fun a => obind (f a) g).
Proof. now destruct x. Qed.

(** ** Lists *)
Lemma Forall2_rev {A B} (R : A -> B -> Prop) l l' :
  Forall2 R l l' -> Forall2 R (rev l) (rev l').
Proof.
  induction 1; cbn; [constructor|]. apply Forall2_app; auto.
Qed.

Lemma Forall2_rev_iff {A B} (R : A -> B -> Prop) l l' :
  Forall2 R (rev l) (rev l') <-> Forall2 R l l'.
Proof.
  split; [|apply Forall2_rev].
  intros H; apply Forall2_rev in H; now rewrite !rev_involutive in H.
Qed.

Lemma Forall2_map_l {A B C} (R : B -> C -> Prop) (f : A -> B) l l' :
  Forall2 R (map f l) l' <-> Forall2 (fun a c => R (f a) c) l l'.
Proof.
  revert l'; induction l as [|a l IH]; intros l'; cbn; split; intros H; inversion H; subst; constructor; auto;
  now apply IH.
Qed.

Lemma Forall2_map_r {A B C} (R : A -> C -> Prop) (f : B -> C) l l' :
  Forall2 R l (map f l') <-> Forall2 (fun a b => R a (f b)) l l'.
Proof.
  revert l; induction l' as [|b l' IH]; intros l; cbn; split; intros H; inversion H; subst; constructor; auto;
  now apply IH.
Qed.

Lemma Forall2_impl {A B} (R S : A -> B -> Prop) l l' :
  (forall a b, In a l -> In b l' -> R a b -> S a b) -> Forall2 R l l' -> Forall2 S l l'.
Proof.
  intros H F; induction F; constructor.
  - apply H; auto; now left.
  - apply IHF; intros; apply H; auto; now right.
Qed.

Lemma Forall2_refl {A} (R : A -> A -> Prop) l : (forall a, In a l -> R a a) -> Forall2 R l l.
Proof. induction l; constructor; auto; [apply H; now left|apply IHl; intros; apply H; now right]. Qed.

Lemma Forall2_flip {A B} (R : A -> B -> Prop) l l' :
  Forall2 R l l' -> Forall2 (fun b a => R a b) l' l.
Proof. induction 1; constructor; auto. Qed.

Lemma Forall2_nth {A B} (R : A -> B -> Prop) l l' n a :
  Forall2 R l l' -> nth_error l n = Some a -> exists b, nth_error l' n = Some b /\ R a b.
Proof.
  intros H; revert n; induction H; intros [|n]; cbn; try discriminate; eauto.
  intros [= <-]; eauto.
Qed.

Lemma nth_error_rev {A} (l : list A) n :
  (n < length l)%nat -> nth_error (rev l) n = nth_error l (length l - 1 - n).
Proof.
  intros Hn.
  revert n Hn; induction l as [|x l IH] using rev_ind; intros n Hn; [cbn in Hn; lia|].
  rewrite app_length in *; cbn [length] in *. rewrite rev_app_distr; cbn [rev app].
  destruct n as [|n]; cbn [nth_error].
  - rewrite nth_error_app2 by lia. now replace (length l + 1 - 1 - 0 - length l)%nat with O by lia.
  - rewrite nth_error_app1 by lia. rewrite IH by lia. f_equal; lia.
Qed.
