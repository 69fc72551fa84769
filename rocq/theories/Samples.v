(** * Concrete objects and configurations used to show that the hypotheses of the
    theorems are met. *)
From Verif Require Import Base BaseLemmas ModelVarint ModelData ModelSecondary ModelObject
  ModelParse ModelWrapper Spec.
From Coq Require Import ZifyBool ZifyNat ZifyN.

Definition str (l : list N) : bytes := map n2b l.
Definition k_id : bytes := str [105; 100].
Definition k_tags : bytes := str [116; 97; 103; 115].
Definition k_sub : bytes := str [115; 117; 98].
Definition k_dup : bytes := str [100; 117; 112].

Definition p0 : pool := PoolId 0.
Definition p1 : pool := PoolId 1.

(** { sub: { id: "dup", tags: bytes }, tags: ["id", 3.0f, "dup"], id: -1 } *)
Definition sample : obj :=
  OMap p0 3
    [ (k_sub, OMap p0 2 [ (k_id, data_of_string k_dup); (k_tags, data_of_bytes (str [0; 255])) ]);
      (k_tags, OArray p0 3 [ data_of_string k_dup; data_of_num F32 1077936128; data_of_string k_id ]);
      (k_id, data_of_num I32 4294967295) ].

Definition sample_value : value :=
  VMap
    [ (k_sub, VMap [ (k_id, VScalar (VStr k_dup)); (k_tags, VScalar (VBytes (str [0; 255]))) ]);
      (k_tags, VArr [ VScalar (VStr k_id); VScalar (VNum F32 1077936128); VScalar (VStr k_dup) ]);
      (k_id, VScalar (VNum I32 4294967295)) ].

Lemma sample_denotes mem : denotes mem sample sample_value.
Proof.
  repeat (first [ apply den_map | apply den_array | apply den_data | apply dd_num | apply dd_str | apply dd_bytes
                | apply Forall2_cons | apply Forall2_nil | split | reflexivity ]).
Qed.

Lemma sample_distinct : distinct_keys sample_value.
Proof.
  unfold sample_value.
  repeat (first [ apply dk_map | apply dk_arr | apply dk_scalar | apply NoDup_cons | apply NoDup_nil
                | apply Forall_cons | apply Forall_nil
                | (cbn; intros H; decompose [or] H; solve [discriminate | contradiction]) ]).
Qed.

Lemma sample_no_custom : no_custom sample_value.
Proof.
  unfold sample_value.
  repeat (first [ apply nc_map | apply nc_arr | (apply nc_scalar; discriminate)
                | apply Forall_cons | apply Forall_nil ]).
Qed.

(** A platform with a small split size, so that the sample is cut into blocks, and
    a hash table that iterates backwards. *)
Definition tiny : cfg :=
  {| little := true; ndebug := false; char_signed := true;
     split_block_size := 8; iter := fun _ _ _ l => rev l |}.
Definition tiny_big_endian : cfg :=
  {| little := false; ndebug := true; char_signed := true;
     split_block_size := 8; iter := fun _ _ _ l => l |}.

Lemma tiny_sane : sane tiny.
Proof. split; [reflexivity|]. intros. symmetry. apply Permutation_rev. Qed.
Lemma tiny_big_endian_sane : sane tiny_big_endian.
Proof. split; [reflexivity|]. reflexivity. Qed.
Lemma x86_debug_sane : sane x86_debug.
Proof. split; [reflexivity|]. reflexivity. Qed.
Lemma x86_release_sane : sane x86_release.
Proof. split; [reflexivity|]. intros. symmetry. apply Permutation_rev. Qed.

Definition no_mem : memory := fun _ => None.
Definition mem1 (buf : nat) (content : bytes) : memory :=
  fun b => if Nat.eqb b buf then Some content else None.

Definition bytes_of (x : outcome bytes) : bytes := match x with Ok b => b | _ => [] end.

Definition sample_doc (c : cfg) (ty : SeriType) : bytes := bytes_of (Serialize c no_mem ty p0 sample).

Lemma sample_serialized : forall c ty, In c [tiny; tiny_big_endian; x86_debug; x86_release] ->
  Serialize c no_mem ty p0 sample = Ok (sample_doc c ty).
Proof.
  intros c ty Hc. cbn in Hc. unfold sample_doc.
  destruct ty; decompose [or] Hc; subst; try contradiction; vm_compute; reflexivity.
Qed.

Lemma sample_doc_small : forall c ty, In c [tiny; tiny_big_endian; x86_debug; x86_release] ->
  len (sample_doc c ty) < 2 ^ 31 /\ (length (sample_doc c ty) <= 200)%nat.
Proof.
  intros c ty Hc. cbn in Hc.
  destruct ty; decompose [or] Hc; subst; try contradiction; vm_compute; split; lia || reflexivity.
Qed.
