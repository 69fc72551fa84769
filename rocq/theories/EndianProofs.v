(** * The serializer does not depend on the byte order of the host. *)
From Verif Require Import Base BaseLemmas ModelVarint ModelData ModelSecondary ModelObject
  ModelWrapper Spec VarintProofs Wire NumProofs ObjInd.
Local Open Scope out_scope.

(** The same platform with the other byte order. *)
Definition other_endian (c : cfg) : cfg :=
  {| little := negb (little c); ndebug := ndebug c; char_signed := char_signed c;
     split_block_size := split_block_size c; iter := iter c |}.

Lemma obind_ext {A B} (x : outcome A) (f g : A -> outcome B) : (forall a, f a = g a) -> obind x f = obind x g.
Proof. intros H; destruct x; cbn; auto. Qed.

Lemma oe_varint c f n k b : varint_encode_loop (other_endian c) f n k b = varint_encode_loop c f n k b.
Proof.
  revert n k. induction f as [|f IH]; intros n k; [reflexivity|].
  cbn [varint_encode_loop]. change (MSBALL (other_endian c)) with (MSBALL c).
  destruct (_ =? 0); [reflexivity|]. cbn [ndebug other_endian]. destruct (_ && _); [reflexivity|]. now rewrite IH.
Qed.

Lemma oe_seriLength c n o : seriLength (other_endian c) n o = seriLength c n o.
Proof. unfold seriLength, varint_encode. now rewrite oe_varint. Qed.

Lemma oe_st_seriLength c n st : st_seriLength (other_endian c) n st = st_seriLength c n st.
Proof. unfold st_seriLength. now rewrite oe_seriLength. Qed.

Lemma oe_wire c w n : num_to_wire (other_endian c) w n = num_to_wire c w n.
Proof. now rewrite !num_to_wire_be. Qed.

Lemma oe_seriData c dt s st : seriData (other_endian c) dt s st = seriData c dt s st.
Proof.
  unfold seriData. destruct (_ || _); [apply obind_ext; intros; now rewrite oe_st_seriLength|].
  destruct (_ =? _); [apply obind_ext; intros; now rewrite oe_st_seriLength|].
  destruct (num_of_dt dt); [|reflexivity]. apply obind_ext; intros. rewrite oe_st_seriLength.
  apply obind_ext; intros. now rewrite oe_wire.
Qed.

Lemma oe_seriData_view c mem dt s st : seriData_view (other_endian c) mem dt s st = seriData_view c mem dt s st.
Proof.
  unfold seriData_view. destruct (_ || _); [apply obind_ext; intros; now rewrite oe_st_seriLength|].
  destruct (num_of_dt dt); [|reflexivity]. apply obind_ext; intros. rewrite oe_st_seriLength.
  apply obind_ext; intros. now rewrite oe_wire.
Qed.

Lemma oe_Data c dt s st : Data_valueSeri (other_endian c) dt s st = Data_valueSeri c dt s st.
Proof.
  unfold Data_valueSeri. destruct (negb _); [reflexivity|].
  destruct (smap st); [|apply oe_seriData]. destruct (_ =? _); [|apply oe_seriData].
  apply obind_ext; intros. destruct (RegisterIdFromString _ _). apply oe_st_seriLength.
Qed.

Lemma oe_DataView c mem dt s st : DataView_valueSeri (other_endian c) mem dt s st = DataView_valueSeri c mem dt s st.
Proof.
  unfold DataView_valueSeri. destruct (negb _); [reflexivity|].
  destruct (smap st); [|apply oe_seriData_view]. destruct (_ =? _); [|apply oe_seriData_view].
  apply obind_ext; intros. apply obind_ext; intros. destruct (RegisterIdFromString _ _). apply oe_st_seriLength.
Qed.

Lemma oe_seri_key c k st : seri_key (other_endian c) k st = seri_key c k st.
Proof.
  unfold seri_key. destruct (smap st); [|now rewrite oe_st_seriLength].
  destruct (RegisterIdFromString _ _). apply oe_st_seriLength.
Qed.

Lemma oe_child c o f g st : (forall st, f st = g st) -> seri_child (other_endian c) o f st = seri_child c o g st.
Proof. intros H. unfold seri_child. apply obind_ext; intros. now rewrite H. Qed.

Lemma oe_items c {I} (f g : I -> sstate -> outcome sstate) l :
  (forall x, In x l -> forall st, f x st = g x st) ->
  forall st cs bl, seri_items (other_endian c) f l st cs bl = seri_items c g l st cs bl.
Proof.
  induction l as [|x l IH]; intros H st cs bl; [reflexivity|]. cbn [seri_items].
  rewrite H by (now left). apply obind_ext; intros st1.
  change (cut_block (other_endian c) st1 cs bl) with (cut_block c st1 cs bl).
  destruct (cut_block c st1 cs bl). apply IH. intros; apply H; now right.
Qed.

Lemma oe_container c {I} size (f g : I -> sstate -> outcome sstate) l st :
  (forall x, In x l -> forall st, f x st = g x st) ->
  container_valueSeri (other_endian c) size f l st = container_valueSeri c size g l st.
Proof.
  intros H. unfold container_valueSeri. rewrite oe_st_seriLength. apply obind_ext; intros st1.
  assert (seri_split_id (other_endian c) st1 = seri_split_id c st1) as ->.
  { unfold seri_split_id. destruct (sinfo st1); [destruct (RequestId _)|]; now rewrite oe_st_seriLength. }
  apply obind_ext; intros [id st2]. rewrite (oe_items c f g l H). apply obind_ext; intros [[st3 cs] bl]. reflexivity.
Qed.

Lemma oe_valueSeri c mem o : forall st, valueSeri (other_endian c) mem o st = valueSeri c mem o st.
Proof.
  induction o as [|dt s|dt s|p n l IH|p n l IH|p n l IH] using obj_ind'; intros st; cbn [valueSeri].
  - reflexivity.
  - now rewrite oe_Data.
  - now rewrite oe_DataView.
  - apply oe_container. intros x Hx st'. apply oe_child. rewrite Forall_forall in IH. now apply IH.
  - apply oe_container. intros [k x] Hx st'. rewrite oe_seri_key. apply obind_ext; intros.
    apply oe_child. rewrite Forall_forall in IH. exact (IH _ Hx).
  - apply oe_container. intros [k x] Hx st'. apply obind_ext; intros. rewrite oe_seri_key. apply obind_ext; intros.
    apply oe_child. rewrite Forall_forall in IH. exact (IH _ Hx).
Qed.

Lemma oe_sm_loop c l r : sm_serialize_loop (other_endian c) l r = sm_serialize_loop c l r.
Proof.
  revert r; induction l as [|[k id] l IH]; intros r; [reflexivity|]. cbn [sm_serialize_loop].
  rewrite oe_seriLength. apply obind_ext; intros. rewrite oe_seriLength. apply obind_ext; intros. apply IH.
Qed.

Lemma oe_numbers c l r : seri_numbers (other_endian c) l r = seri_numbers c l r.
Proof.
  revert r; induction l as [|n l IH]; intros r; [reflexivity|]. cbn [seri_numbers].
  rewrite oe_seriLength. apply obind_ext; intros. apply IH.
Qed.

Lemma oe_si_loop c l r : si_serialize_loop (other_endian c) l r = si_serialize_loop c l r.
Proof.
  revert r; induction l as [|[k b] l IH]; intros r; [reflexivity|]. cbn [si_serialize_loop].
  rewrite oe_seriLength. apply obind_ext; intros. rewrite oe_seriLength. apply obind_ext; intros.
  rewrite oe_numbers. apply obind_ext; intros. apply IH.
Qed.

Theorem Serialize_endian c mem ty p o : Serialize (other_endian c) mem ty p o = Serialize c mem ty p o.
Proof.
  unfold Serialize. rewrite oe_valueSeri. apply obind_ext; intros [st b].
  unfold SeriTotalSizeToOuter. rewrite oe_wire. apply obind_ext; intros o1.
  assert (Hsuf : forall x y, SuffixSecondary (other_endian c) x y = SuffixSecondary c x y).
  { intros. unfold SuffixSecondary. now rewrite oe_seriLength. }
  assert (Hsm : forall m, StringMap_Serialize (other_endian c) m = StringMap_Serialize c m).
  { intros m. unfold StringMap_Serialize. rewrite oe_seriLength. apply obind_ext; intros. apply oe_sm_loop. }
  assert (Hsi : forall m, SplitInfo_Serialize (other_endian c) m = SplitInfo_Serialize c m).
  { intros m. unfold SplitInfo_Serialize. rewrite oe_seriLength. apply obind_ext; intros. apply oe_si_loop. }
  assert (Hfin : forall x, match sinfo st with
      | Some si => s <- SplitInfo_Serialize (other_endian c) si ;; SuffixSecondary (other_endian c) x s
      | None => UB end = match sinfo st with
      | Some si => s <- SplitInfo_Serialize c si ;; SuffixSecondary c x s | None => UB end).
  { intros x. destruct (sinfo st); [|reflexivity]. rewrite Hsi. apply obind_ext; intros. apply Hsuf. }
  destruct (smap st).
  - rewrite Hsm, !obind_assoc. apply obind_ext; intros s0. rewrite Hsuf. apply obind_ext; intros. apply Hfin.
  - cbn [obind]. apply Hfin.
Qed.
