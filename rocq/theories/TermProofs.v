(** * Termination of the parsers on arbitrary bytes (towards C15). *)
From Verif Require Import Base BaseLemmas ModelVarint ModelData ModelSecondary ModelObject
  ModelParse ModelWrapper Spec VarintProofs NumProofs SeriProofs ObjInd ParseLemmas ParaProofs GeneralProofs.
From Coq Require Import ZifyBool ZifyNat ZifyN.

(** An outcome that did not run out of fuel, and satisfies [Q] if it is a result. *)
Definition ends {A} (x : outcome A) (Q : A -> Prop) : Prop :=
  match x with Ok a => Q a | Fuel => False | _ => True end.

Lemma ends_bind {A B} (x : outcome A) (f : A -> outcome B) Q1 Q :
  ends x Q1 -> (forall a, Q1 a -> ends (f a) Q) -> ends (obind x f) Q.
Proof. destruct x; cbn; auto. Qed.
Lemma ends_weaken {A} (x : outcome A) (Q Q' : A -> Prop) : (forall a, Q a -> Q' a) -> ends x Q -> ends x Q'.
Proof. destruct x; cbn; auto. Qed.
Lemma ends_ok {A} (x : outcome A) Q a : ends x Q -> x = Ok a -> Q a.
Proof. intros H ->. exact H. Qed.

Section Nf.
  Variable get : N -> outcome view.
  Hypothesis Hget : forall id, get id <> Fuel.
  Definition nf {A} (p : prog A) (Q : A -> Prop) : Prop := ends (run get p) Q.
  Lemma nf_bind {A B} (p : prog A) (f : A -> prog B) Q1 Q :
    nf p Q1 -> (forall a, Q1 a -> nf (f a) Q) -> nf (pbind p f) Q.
  Proof. intros H1 H2. unfold nf. rewrite run_bind. eapply ends_bind; [exact H1|exact H2]. Qed.
  Lemma nf_ret {A} (a : A) (Q : A -> Prop) : Q a -> nf (PRet a) Q.
  Proof. intros H; exact H. Qed.
  Lemma nf_fail {A} f (Q : A -> Prop) : f <> FFuel -> nf (PFail f) Q.
  Proof. intros H. unfold nf. destruct f; cbn; auto. Qed.
  Lemma nf_lift {A} (x : outcome A) (Q : A -> Prop) : ends x Q -> nf (lift x) Q.
  Proof. intros H. unfold nf. now rewrite run_lift. Qed.
  Lemma nf_lift_eq {A B} (x : outcome A) (f : A -> prog B) Q1 Q :
    ends x Q1 -> (forall a, x = Ok a -> nf (f a) Q) -> nf (pbind (lift x) f) Q.
  Proof. intros H HK. unfold nf. rewrite run_bind, run_lift. destruct x; cbn in *; auto. now apply HK. Qed.
  Lemma nf_getstr {A} id (k : view -> prog A) Q : (forall v, nf (k v) Q) -> nf (PGetStr id k) Q.
  Proof.
    intros H. unfold nf. cbn [run]. eapply ends_bind with (Q1 := fun _ => True).
    - specialize (Hget id). destruct (get id); cbn; auto.
    - intros v _. apply H.
  Qed.
  Lemma nf_par {A} ts (k : list (outcome block) -> prog A) Q :
    Forall (fun t => nf t (fun _ => True)) ts ->
    (forall rs, Forall (fun r => r <> Fuel) rs -> nf (k rs) Q) -> nf (PPar ts k) Q.
  Proof.
    intros HT HK. unfold nf. rewrite run_PPar.
    assert (HF : Forall (fun r : outcome block => r <> Fuel) (map (fun t => run get t) ts)).
    { apply Forall_forall. intros r Hr. apply in_map_iff in Hr as (t & Ht & Hin). rewrite Forall_forall in HT.
      specialize (HT t Hin). unfold nf in HT. intros ->. now rewrite Ht in HT. }
    destruct (hard_failure _) as [f|] eqn:Hh; [|apply HK; exact HF].
    destruct f; cbn; auto. exfalso. clear HK HT. revert Hh. induction HF as [|r l Hr HF IH]; cbn; [discriminate|].
    destruct r; auto; try discriminate; congruence.
  Qed.
End Nf.

(** ** Reading primitives *)

(** What the decoder returns when it returns. *)
Lemma decode_loop_ends c content bl fuel : forall ptr k bits r,
  (1 <= fuel)%nat -> 64 <= bits + 7 * N.of_nat (fuel - 1) -> k + N.of_nat fuel < 256 -> r < 2 ^ 64 ->
  ends (varint_decode_loop c fuel content ptr k bl bits r)
    (fun x => fst x < 2 ^ 64 /\ 1 <= snd x <= k + N.of_nat fuel /\ ptr <= len content).
Proof.
  induction fuel as [|f IH]; intros ptr k bits r Hf Hb Hk Hr; [lia|]. cbn [varint_decode_loop].
  unfold read_byte. destruct (N.ltb_spec ptr (len content)) as [Hp|Hp].
  - cbn [obind]. destruct (N.ltb_spec bits 64); cbn [negb]; [|exact I].
    assert (Hm : forall x, u64 x < 2 ^ 64) by (intros x; unfold u64; apply N.mod_lt; discriminate).
    destruct (N.land _ 128 =? 0).
    + cbn. rewrite N.mod_small by lia. split; [apply Hm|lia].
    + destruct (negb _ && negb _); [exact I|]. eapply ends_weaken; [|apply IH]; [|lia|lia|lia|apply Hm].
      cbn. intros [v n]; cbn. lia.
  - destruct (N.eqb_spec ptr (len content)) as [->|]; [|exact I]. cbn [obind].
    destruct (N.ltb_spec bits 64); cbn [negb]; [|exact I]. cbn.
    split; [unfold u64; apply N.mod_lt; discriminate|]. rewrite N.mod_small by lia. cbn [snd]. lia.
Qed.

Lemma decode_ends c content addr bl :
  ends (varint_decode c content addr bl) (fun x => fst x < 2 ^ 64 /\ 1 <= snd x <= 12 /\ addr <= len content).
Proof.
  unfold varint_decode. eapply ends_weaken; [|apply decode_loop_ends]; cbn; try lia.
Qed.

(** Lengths read by the reader are below 2^63. *)
Definition tame (E : renv) : Prop := forall s n s', parseLength E s = Ok (n, s') -> n < 2 ^ 63.

Section Prim.
  Variable E : renv.
  Hypothesis Hlen : len (r_content E) < 2 ^ 31.

  Lemma parseLength_ends s :
    ends (parseLength E s) (fun x => idx s < idx (snd x) /\ idx (snd x) <= r_size E /\ fst x < 2 ^ 64 /\
                                     r_base E + idx s <= len (r_content E) /\ idx (snd x) <= idx s + 12).
  Proof.
    unfold parseLength. unfold check_empty. destruct (remain E s <=? 0)%Z; [exact I|]. cbn [obind].
    unfold curAddr. destruct (N.leb_spec (r_size E) (idx s)) as [|Hi]; [exact I|]. cbn [obind].
    eapply ends_bind; [apply decode_ends|]. intros [v n] (H1 & H2 & H3). cbn [fst snd] in *.
    unfold check_oor, skip. cbn [idx off]. destruct (N.ltb_spec (r_size E) (u64 (idx s + n))); [exact I|].
    cbn. rewrite u64_small in * by (rewrite W64_val; lia). lia.
  Qed.

  Lemma tag_ends {A} s (f : byte -> rstate -> outcome A) (Q : A -> Prop) :
    (forall b, idx s < r_size E -> idx (add_off 1 (skip 1 s)) = idx s + 1 -> ends (f b (add_off 1 (skip 1 s))) Q) ->
    ends (obind (check_empty E s) (fun _ => obind (curAddr E s) (fun a => obind (read_byte (r_content E) a) (fun b =>
          obind (check_oor E (skip 1 s)) (fun _ => f b (add_off 1 (skip 1 s))))))) Q.
  Proof.
    intros H. unfold check_empty. destruct (remain E s <=? 0)%Z; [exact I|]. cbn [obind].
    unfold curAddr. destruct (N.leb_spec (r_size E) (idx s)) as [|Hi]; [exact I|]. cbn [obind].
    destruct (read_byte (r_content E) (r_base E + idx s)) as [b| | | |] eqn:Hb; try exact I.
    2:{ unfold read_byte in Hb. destruct (_ <? _); [discriminate|]. destruct (_ =? _); discriminate. }
    assert (r_base E + idx s <= len (r_content E)).
    { unfold read_byte in Hb. destruct (N.ltb_spec (r_base E + idx s) (len (r_content E))); [lia|].
      destruct (N.eqb_spec (r_base E + idx s) (len (r_content E))); [lia|discriminate]. }
    cbn [obind]. unfold check_oor. destruct (_ <? _); [exact I|]. cbn [obind]. apply H; [exact Hi|].
    cbn. apply u64_small. rewrite W64_val. lia.
  Qed.

  Lemma parseDataType_ends s :
    ends (parseDataType E s) (fun x => idx s < r_size E /\ idx (snd x) = idx s + 1).
  Proof. unfold parseDataType. apply (tag_ends s (fun b s2 => Ok (b2n b, s2))). intros b H1 H2. cbn in *. auto. Qed.
  Lemma parseObjectType_ends s :
    ends (parseObjectType E s) (fun x => idx s < r_size E /\ idx (snd x) = idx s + 1).
  Proof.
    unfold parseObjectType.
    apply (tag_ends s (fun b s2 => match CharToObjectType (N.land (b2n b) 127) with None => Throw ERuntime | Some t => Ok (t, s2) end)).
    intros b H1 H2. destruct (CharToObjectType _); cbn in *; auto.
  Qed.
  Lemma parseObjectType_split_ends s :
    ends (parseObjectType_split E s) (fun x => idx s < r_size E /\ idx (snd x) = idx s + 1).
  Proof.
    unfold parseObjectType_split.
    apply (tag_ends s (fun b s2 => match CharToObjectType (N.land (b2n b) 127) with None => Throw ERuntime
       | Some t => Ok (t, negb (N.shiftr (N.land (b2n b) 128) 1 =? 0), s2) end)).
    intros b H1 H2. destruct (CharToObjectType _); cbn in *; auto.
  Qed.
End Prim.

Lemma read_range_ends content a n (Q : bytes -> Prop) : (forall s, n = 0 \/ a + n <= len content + 1 -> Q s) -> ends (read_range content a n) Q.
Proof.
  intros H. unfold read_range. destruct (N.eqb_spec n 0); [apply H; auto|].
  destruct (N.leb_spec (a + n) (len content + 1)); [apply H; auto|exact I].
Qed.
Lemma parse_num_ends c content t a n : ends (parse_num c content t a n) (fun _ => n <= 8).
Proof.
  unfold parse_num. destruct (negb _ && negb _); [exact I|]. destruct (N.ltb_spec (sizeof_num t) n); [exact I|].
  eapply ends_bind; [apply (read_range_ends _ _ _ (fun _ => True)); auto|]. intros s _. cbn. destruct t; cbn in *; lia.
Qed.

(** ** The body *)
Section Body.
  Variable E : penv.
  Variable get : N -> outcome view.
  Notation R := (b_env E).
  Notation content := (r_content (b_env E)).
  Hypothesis Hget : forall id, get id <> Fuel.
  Hypothesis Hlen : len content < 2 ^ 31.
  Hypothesis Hbase : r_base R = 0.
  Hypothesis Hsize : r_size R = len content.
  Variable pr : bool.
  Hypothesis Htame : tame R \/ (b_map E = true /\ pr = false).
  Notation nf := (nf get).

  Definition fwd (s : rstate) (s' : rstate) : Prop := idx s < idx s' /\ idx s' <= r_size R.

  Lemma skip_fwd s n : idx s <= r_size R -> n < 2 ^ 63 -> idx (skip n s) = idx s + n.
  Proof using Hlen Hsize get. clear Htame Hbase Hget. intros H Hn. cbn. apply u64_small. rewrite W64_val. change (2 ^ 63) with 9223372036854775808 in Hn. lia. Qed.

  Lemma Data_nf s : nf (Data_valueParse E pr s) (fun x => fwd s (snd x)).
  Proof.
    unfold Data_valueParse, fwd. eapply nf_bind; [apply nf_lift, parseDataType_ends; exact Hlen|].
    intros [dt s1] (H1 & H2). cbn [snd] in *.
    destruct (negb (valid_data_type dt)); [apply nf_fail; discriminate|].
    destruct ((dt =? BRIDGE_STRING) && b_map E) eqn:Hm.
    - eapply nf_bind; [apply nf_lift, parseLength_ends; exact Hlen|]. intros [id s2] (H3 & H4 & _). cbn [fst snd] in *.
      apply nf_getstr; [exact Hget|]. intros v. destruct pr.
      + apply nf_ret. cbn. lia.
      + eapply nf_bind; [apply nf_lift; apply (read_range_ends _ _ _ (fun _ => True)); auto|]. intros str _.
        apply nf_ret. cbn. lia.
    - eapply nf_lift_eq; [apply parseLength_ends; exact Hlen|]. intros [size s2] Hpl.
      pose proof (parseLength_ends R Hlen s1) as H3. rewrite Hpl in H3. cbn [ends fst snd] in H3.
      eapply nf_bind; [apply nf_lift with (x := curAddr R s2) (Q := fun a => a = idx s2)|].
      { unfold curAddr. destruct (_ <=? _); [exact I|]. cbn. rewrite Hbase. lia. }
      intros a ->.
      assert (Hskip : forall A (k : store -> prog A) Q,
         (forall d, idx (skip size s2) = idx s2 + size -> nf (k d) Q) ->
         nf (pbind (lift (if pr then parseData_view (r_cfg R) content (b_buf E) dt (idx s2) size
                   else parseData (r_cfg R) content dt (idx s2) size)) k) Q).
      { intros A k Q HK. eapply nf_bind with (Q1 := fun _ => idx (skip size s2) = idx s2 + size); [|exact HK].
        apply nf_lift. destruct Htame as [Ht|[Hb Hp]].
        - assert (HS : idx (skip size s2) = idx s2 + size) by (apply skip_fwd; [lia|eapply Ht; eauto]).
          destruct pr; unfold parseData_view, parseData.
          + destruct (_ || _); [exact HS|]. destruct (num_of_dt dt); [|exact I].
            eapply ends_weaken; [|apply parse_num_ends]. intros; exact HS.
          + unfold omap. destruct (_ || _); [eapply ends_bind; [apply (read_range_ends _ _ _ (fun _ => True)); auto|intros ? _; exact HS]|].
            destruct (_ =? _); [eapply ends_bind; [apply (read_range_ends _ _ _ (fun _ => True)); auto|intros ? _; exact HS]|].
            destruct (num_of_dt dt); [|exact I]. eapply ends_weaken; [|apply parse_num_ends]. intros; exact HS.
        - assert (HS : size = 0 \/ idx s2 + size <= len content + 1 \/ size <= 8 -> idx (skip size s2) = idx s2 + size).
          { intros HH. apply skip_fwd; [lia|]. change (2 ^ 63) with 9223372036854775808. change (2 ^ 31) with 2147483648 in *. lia. }
          rewrite Hp. unfold parseData, omap.
          destruct (_ || _); [eapply ends_bind; [apply (read_range_ends _ _ _ (fun _ => size = 0 \/ idx s2 + size <= len content + 1)); auto|intros ? HH; cbv beta in HH; apply HS; tauto]|].
          destruct (_ =? _); [eapply ends_bind; [apply (read_range_ends _ _ _ (fun _ => size = 0 \/ idx s2 + size <= len content + 1)); auto|intros ? HH; cbv beta in HH; apply HS; tauto]|].
          destruct (num_of_dt dt); [|exact I]. eapply ends_weaken; [|apply parse_num_ends]. intros ? HH; cbv beta in HH; apply HS; tauto. }
      apply Hskip. intros d Hsk.
      eapply nf_bind with (Q1 := fun _ => idx (skip size s2) <= r_size R).
      { apply nf_lift. unfold check_oor. destruct (N.ltb_spec (r_size R) (idx (skip size s2))); [exact I|exact H]. }
      intros _ Hle. apply nf_ret. cbn [snd]. change (idx (add_off size (skip size s2))) with (idx (skip size s2)). lia.
  Qed.

  Lemma parse_key_nf s : nf (parse_key E s) (fun x => fwd s (snd x)).
  Proof.
    unfold parse_key, fwd. destruct (b_map E) eqn:Hb.
    - eapply nf_bind; [apply nf_lift, parseLength_ends; exact Hlen|]. intros [id s1] (H3 & H4 & _). cbn [fst snd] in *.
      apply nf_getstr; [exact Hget|]. intros v. apply nf_ret. cbn. lia.
    - assert (Ht : tame R) by (destruct Htame as [Ht|[? ?]]; [exact Ht|congruence]).
      eapply nf_lift_eq; [apply parseLength_ends; exact Hlen|]. intros [kl s1] Hpl.
      pose proof (parseLength_ends R Hlen s) as H3. rewrite Hpl in H3. cbn [ends fst snd] in H3.
      apply Ht in Hpl. pose proof (skip_fwd s1 kl ltac:(lia) Hpl) as Hsk.
      eapply nf_bind with (Q1 := fun _ => True); [apply nf_lift; unfold curAddr; destruct (_ <=? _); exact I|]. intros a _.
      eapply nf_bind with (Q1 := fun _ => idx (skip kl s1) <= r_size R).
      { apply nf_lift. unfold check_oor. destruct (N.ltb_spec (r_size R) (idx (skip kl s1))); [exact I|exact H]. }
      intros _ Hle. apply nf_ret. cbn [snd]. change (idx (add_off kl (skip kl s1))) with (idx (skip kl s1)). lia.
  Qed.

  Definition left_ (s : rstate) : nat := (N.to_nat (r_size R) - N.to_nat (idx s))%nat.

  Lemma valueParse_nf p fuel : forall s, (left_ s + 1 <= fuel)%nat ->
    (forall t, nf (valueParse E p pr fuel t s) (fun x => fwd s (snd x))) /\
    (forall count acc, idx s <= r_size R -> nf (array_loop E p pr fuel count s acc) (fun x => idx s <= idx (snd x) /\ idx (snd x) <= r_size R)) /\
    (forall count acc, idx s <= r_size R -> nf (map_loop E p pr fuel count s acc) (fun x => idx s <= idx (snd x) /\ idx (snd x) <= r_size R)) /\
    (forall count acc, idx s <= r_size R -> nf (mapview_loop E p pr fuel count s acc) (fun x => idx s <= idx (snd x) /\ idx (snd x) <= r_size R)).
  Proof.
    induction fuel as [|f IH]; intros s Hf; [lia|].
    assert (Hnext : forall s', fwd s s' -> (left_ s' + 1 <= f)%nat) by (unfold fwd, left_ in *; intros; lia).
    split; [|split; [|split]].
    - intros t. cbn [valueParse]. destruct t.
      + apply Data_nf.
      + eapply nf_bind; [apply nf_lift, parseLength_ends; exact Hlen|]. intros [count s1] (A1 & A2 & _). cbn [fst snd] in *.
        eapply nf_bind; [apply nf_lift, parseLength_ends; exact Hlen|]. intros [id s2] (B1 & B2 & _). cbn [fst snd] in *.
        destruct (IH s2) as (_ & _ & IM & IV); [apply Hnext; unfold fwd; lia|]. destruct pr.
        * eapply nf_bind; [apply IV; lia|]. intros [items s3] HH. cbn [snd] in *. apply nf_ret. unfold fwd; cbn. lia.
        * eapply nf_bind with (Q1 := fun _ => True); [apply nf_lift; unfold check_oor; destruct (_ <? _); exact I|]. intros _ _.
          eapply nf_bind; [apply IM; lia|]. intros [items s3] HH. cbn [snd] in *. apply nf_ret. unfold fwd; cbn. lia.
      + eapply nf_bind; [apply nf_lift, parseLength_ends; exact Hlen|]. intros [count s1] (A1 & A2 & _). cbn [fst snd] in *.
        eapply nf_bind; [apply nf_lift, parseLength_ends; exact Hlen|]. intros [id s2] (B1 & B2 & _). cbn [fst snd] in *.
        destruct (IH s2) as (_ & IA & _ & _); [apply Hnext; unfold fwd; lia|].
        eapply nf_bind; [apply IA; lia|]. intros [items s3] HH. cbn [snd] in *. apply nf_ret. unfold fwd; cbn. lia.
    - intros count acc Hs. cbn [array_loop]. destruct (count =? 0); [apply nf_ret; cbn; lia|].
      eapply nf_bind; [apply nf_lift, parseObjectType_ends; exact Hlen|]. intros [t s1] (A1 & A2). cbn [snd] in *.
      eapply nf_bind; [apply IH, Hnext; unfold fwd; lia|]. intros [o s2] HH. unfold fwd in HH. cbn [snd] in *.
      eapply ends_weaken; [|apply IH; [apply Hnext; unfold fwd; lia|lia]]. cbn. lia.
    - intros count acc Hs. cbn [map_loop]. destruct (count =? 0); [apply nf_ret; cbn; lia|].
      eapply nf_bind; [apply parse_key_nf|]. intros [kv s0] K. unfold fwd in K. cbn [snd] in *.
      eapply nf_bind; [apply nf_lift, parseObjectType_ends; exact Hlen|]. intros [t s1] (A1 & A2). cbn [snd] in *.
      eapply nf_bind; [apply IH, Hnext; unfold fwd; lia|]. intros [o s2] HH. unfold fwd in HH. cbn [snd] in *.
      eapply nf_bind; [apply nf_lift; apply (read_range_ends _ _ _ (fun _ => True)); auto|]. intros key _.
      eapply ends_weaken; [|apply IH; [apply Hnext; unfold fwd; lia|lia]]. cbn. lia.
    - intros count acc Hs. cbn [mapview_loop]. destruct (count =? 0); [apply nf_ret; cbn; lia|].
      eapply nf_bind; [apply parse_key_nf|]. intros [kv s0] K. unfold fwd in K. cbn [snd] in *.
      eapply nf_bind; [apply nf_lift, parseObjectType_ends; exact Hlen|]. intros [t s1] (A1 & A2). cbn [snd] in *.
      eapply nf_bind; [apply IH, Hnext; unfold fwd; lia|]. intros [o s2] HH. unfold fwd in HH. cbn [snd] in *.
      eapply ends_weaken; [|apply IH; [apply Hnext; unfold fwd; lia|lia]]. cbn. lia.
  Qed.

  (** *** Parallel *)
  Variable si : split_info.
  (** Block lists are short and their entries are 32-bit numbers. *)
  Hypothesis Hsi : Forall (fun e => Forall (fun n => n < 2 ^ 32) (snd e) /\ len (snd e) <= 2 ^ 31) (si_info si).

  Lemma block_key_nf s : nf (block_key E s) (fun x => idx s < idx (snd x) /\ idx s < r_size R).
  Proof.
    unfold block_key. destruct (b_map E).
    - eapply nf_bind; [apply nf_lift, parseLength_ends; exact Hlen|]. intros [id s1] (H3 & H4 & _). cbn [fst snd] in *.
      apply nf_getstr; [exact Hget|]. intros v. apply nf_ret. cbn. lia.
    - eapply nf_bind; [apply nf_lift, parseLength_ends; exact Hlen|]. intros [kl s1] (H3 & H4 & _). cbn [fst snd] in *.
      eapply nf_bind with (Q1 := fun _ => True); [apply nf_lift; unfold curAddr; destruct (_ <=? _); exact I|]. intros a _.
      apply nf_ret. cbn [snd]. change (idx (add_off (u32 kl) (skip (u32 kl) s1))) with (idx (skip (u32 kl) s1)).
      rewrite skip_fwd; [lia|lia|]. pose proof (u32_lt kl). rewrite W32_val in *. change (2 ^ 63) with 9223372036854775808. lia.
  Qed.

  Lemma ranges_ge l : forall begin, Forall (fun n => n < 2 ^ 32) l -> begin + len l * 2 ^ 32 < 2 ^ 64 ->
    Forall (fun r => begin <= fst r) (fst (ranges begin l)) /\ begin <= snd (ranges begin l).
  Proof.
    induction l as [|n l IH]; intros begin HF HB; cbn [ranges]; [cbn; split; [constructor|lia]|].
    inversion HF as [|? ? Hn HF']; subst. rewrite len_cons in HB. cbv zeta.
    assert (Hu : u64 (begin + n) = begin + n) by (apply u64_small; rewrite W64_val; change (2 ^ 32) with 4294967296 in *; change (2 ^ 64) with 18446744073709551616 in *; lia).
    destruct (IH (begin + n) HF') as [H1 H2]; [change (2 ^ 32) with 4294967296 in *; change (2 ^ 64) with 18446744073709551616 in *; lia|].
    rewrite Hu. destruct (ranges (begin + n) l) as [rs last]. cbn in *. split; [|lia].
    constructor; [cbn; lia|]. eapply Forall_impl; [|exact H1]. cbn. lia.
  Qed.

  Lemma merge_ends {A} (f : A -> outcome block -> outcome A) l : (forall a r, In r l -> f a r <> Fuel) ->
    forall acc, ends (merge_all f acc l) (fun _ => True).
  Proof.
    induction l as [|r l IH]; intros H acc; [exact I|]. cbn. eapply ends_bind with (Q1 := fun _ => True).
    - specialize (H acc r (or_introl eq_refl)). destruct (f acc r); cbn; auto.
    - intros a _. apply IH. intros; apply H. now right.
  Qed.

  Lemma blocks_nf fuel :
    (forall os, os <= 2 ^ 62 -> (left_ (at_ os) + 1 <= fuel)%nat ->
       nf (ParseArray E si fuel pr os) (fun x => os < snd x) /\
       nf (ParseMap E si fuel pr os) (fun x => os < snd x)) /\
    (forall s, (left_ s + 1 <= fuel)%nat -> nf (block_value E si fuel pr s) (fun x => idx s < idx (snd x) /\ idx s < r_size R)) /\
    (forall s e acc n, (left_ s + 2 <= fuel)%nat ->
       nf (ParseArrayBlock E si fuel pr e s acc n) (fun _ => True)) /\
    (forall s e acc n, pr = false -> (left_ s + 2 <= fuel)%nat ->
       nf (ParseMapBlock E si fuel e s acc n) (fun _ => True)) /\
    (forall s e acc n, pr = true -> (left_ s + 2 <= fuel)%nat ->
       nf (ParseMapViewBlock E si fuel e s acc n) (fun _ => True)).
  Proof.
    induction fuel as [|f IH]; [split; [intros; lia|]; split; [intros; lia|]; split; [intros; lia|]; split; intros; lia|].
    destruct IH as (IP & IB & IA & IM & IV).
    assert (Hblocks : forall os s1 s2 l, idx s1 <= r_size R -> os < idx s1 -> idx s1 < idx s2 -> idx s2 <= r_size R -> (left_ (at_ os) + 1 <= S f)%nat ->
       (exists i, assoc_find N.eqb i (si_info si) = Some l) ->
       Forall (fun be => (left_ (at_ (fst be)) + 2 <= f)%nat) (fst (ranges (idx s2) l)) /\ os < snd (ranges (idx s2) l)).
    { intros os s1 s2 l A1 A2 A3 A4 A5 (i & Hi). apply assoc_find_In in Hi; [|apply N.eqb_spec].
      rewrite Forall_forall in Hsi. destruct (Hsi _ Hi) as [S1 S2]. cbn in S1, S2.
      destruct (ranges_ge l (idx s2) S1) as [R1 R2].
      { change (2 ^ 32) with 4294967296 in *. change (2 ^ 64) with 18446744073709551616. change (2 ^ 31) with 2147483648 in *. lia. }
      split; [|lia]. eapply Forall_impl; [|exact R1]. intros be Hbe. cbn in *. unfold left_ in *. cbn in *. lia. }
    assert (HGB : forall id, ends (GetBlockInfoFromId si id) (fun l => exists i, assoc_find N.eqb i (si_info si) = Some l)).
    { intros id. unfold GetBlockInfoFromId. destruct (assoc_find _ _ _) eqn:Hf; cbn; eauto. }
    split; [|split; [|split; [|split]]].
    - intros os Hos Hf. split; cbn [ParseArray ParseMap].
      + eapply nf_bind; [apply nf_lift, parseLength_ends; exact Hlen|]. intros [c0 s1] (A1 & A2 & _). cbn [fst snd idx] in *.
        eapply nf_bind; [apply nf_lift, parseLength_ends; exact Hlen|]. intros [id s2] (B1 & B2 & _). cbn [fst snd] in *.
        eapply nf_bind; [apply nf_lift, HGB|]. intros l Hl.
        destruct (Hblocks os s1 s2 l) as [F1 F2]; auto; try lia.
        destruct (ranges (idx s2) l) as [rs last]. cbn [fst snd] in *. apply nf_par.
        * apply Forall_forall. intros t Ht. apply in_map_iff in Ht as (be & <- & Hin). rewrite Forall_forall in F1. apply IA, (F1 be Hin).
        * intros rs' Hrs. eapply nf_bind with (Q1 := fun _ => True).
          { apply nf_lift, merge_ends. intros a r Hr. rewrite Forall_forall in Hrs. apply in_rev in Hr. specialize (Hrs r Hr).
            unfold merge_arr. destruct r as [b| | | |]; cbn; try discriminate; [|congruence]. destruct b as [[] ?| |]; discriminate. }
          intros [items size] _. apply nf_ret. cbn. exact F2.
      + eapply nf_bind; [apply nf_lift, parseLength_ends; exact Hlen|]. intros [c0 s1] (A1 & A2 & _). cbn [fst snd idx] in *.
        eapply nf_bind; [apply nf_lift, parseLength_ends; exact Hlen|]. intros [id s2] (B1 & B2 & _). cbn [fst snd] in *.
        eapply nf_bind; [apply nf_lift, HGB|]. intros l Hl.
        destruct (Hblocks os s1 s2 l) as [F1 F2]; auto; try lia.
        destruct (ranges (idx s2) l) as [rs last]. cbn [fst snd] in *.
        destruct pr eqn:Hpr; apply nf_par.
        * apply Forall_forall. intros t Ht. apply in_map_iff in Ht as (be & <- & Hin). rewrite Forall_forall in F1. apply IV; [reflexivity|apply (F1 be Hin)].
        * intros rs' Hrs. eapply nf_bind with (Q1 := fun _ => True).
          { apply nf_lift, merge_ends. intros a r Hr. rewrite Forall_forall in Hrs. specialize (Hrs r Hr).
            unfold merge_mapview. destruct r as [b| | | |]; cbn; try discriminate; [|congruence]. destruct b as [| |[] ?]; discriminate. }
          intros [items size] _. apply nf_ret. cbn. exact F2.
        * apply Forall_forall. intros t Ht. apply in_map_iff in Ht as (be & <- & Hin). rewrite Forall_forall in F1. apply IM; [reflexivity|apply (F1 be Hin)].
        * intros rs' Hrs. eapply nf_bind with (Q1 := fun _ => True).
          { apply nf_lift, merge_ends. intros a r Hr. rewrite Forall_forall in Hrs. specialize (Hrs r Hr).
            unfold merge_map. destruct r as [b| | | |]; cbn; try discriminate; [|congruence]. destruct b as [|[] ?|]; discriminate. }
          intros [items size] _. apply nf_ret. cbn. exact F2.
    - intros s Hf. cbn [block_value]. eapply nf_bind; [apply nf_lift, parseObjectType_split_ends; exact Hlen|].
      intros [[t ns] s1] (A1 & A2). cbn [snd] in *.
      assert (Hos : idx s1 <= 2 ^ 62) by (change (2 ^ 62) with 4611686018427387904; lia).
      destruct ns.
      + destruct t; [apply nf_fail; discriminate| |].
        * eapply nf_bind; [apply IP; [exact Hos|unfold left_ in *; cbn; lia]|]. intros [o e] He. cbn [snd] in *. apply nf_ret. cbn. lia.
        * eapply nf_bind; [apply IP; [exact Hos|unfold left_ in *; cbn; lia]|]. intros [o e] He. cbn [snd] in *. apply nf_ret. cbn. lia.
      + eapply ends_weaken; [|apply valueParse_nf; unfold left_ in *; lia]. unfold fwd. cbn. lia.
    - intros s e acc n Hf. cbn [ParseArrayBlock]. destruct (_ <? _); [|exact I].
      eapply nf_bind; [apply IB; lia|]. intros [o s1] HH. cbn [snd] in HH. apply IA. unfold left_ in *. lia.
    - intros s e acc n Hpr Hf. cbn [ParseMapBlock]. destruct (_ <? _); [|exact I].
      eapply nf_bind; [apply block_key_nf|]. intros [kv s1] HK. cbn [snd] in HK.
      eapply nf_bind; [apply nf_lift; apply (read_range_ends _ _ _ (fun _ => True)); auto|]. intros key _.
      pose proof (IB s1 ltac:(unfold left_ in *; lia)) as IB1; rewrite Hpr in IB1. eapply nf_bind; [exact IB1|]. intros [o s2] HH. cbn [snd] in HH. apply IM; [exact Hpr|unfold left_ in *; lia].
    - intros s e acc n Hpr Hf. cbn [ParseMapViewBlock]. destruct (_ <? _); [|exact I].
      eapply nf_bind; [apply block_key_nf|]. intros [kv s1] HK. cbn [snd] in HK.
      pose proof (IB s1 ltac:(unfold left_ in *; lia)) as IB1; rewrite Hpr in IB1. eapply nf_bind; [exact IB1|]. intros [o s2] HH. cbn [snd] in HH. apply IV; [exact Hpr|unfold left_ in *; lia].
  Qed.
End Body.

(** ** The tables *)
Section Tables.
  Variable E : renv.
  Hypothesis Hlen : len (r_content E) < 2 ^ 31.

  (** Bytes of the content at or after the reader, plus one for the terminator. *)
  Definition room (s : rstate) : nat := (length (r_content E) + 1 - N.to_nat (r_base E + idx s))%nat.

  Lemma parse_numbers_ends fuel : forall count s acc, (room s + 1 <= fuel)%nat ->
    ends (parse_numbers E fuel count s acc)
      (fun x => idx s <= idx (snd x) /\ exists new, fst x = acc ++ new /\ Forall (fun n => n < 2 ^ 32) new /\ (length new + room (snd x) <= room s \/ new = [])%nat).
  Proof.
    induction fuel as [|f IH]; intros count s acc Hf; [lia|]. cbn [parse_numbers].
    destruct (count =? 0).
    { cbn. split; [lia|]. exists []. rewrite app_nil_r. split; [reflexivity|]. split; [constructor|right; reflexivity]. }
    pose proof (parseLength_ends E Hlen s) as H. destruct (parseLength E s) as [[tmp s1]| | | |]; try exact I; [|exact H].
    cbn [obind ends fst snd] in *. destruct H as (H1 & H2 & H3 & H4 & H5).
    assert (Hroom : (room s1 + 1 <= room s)%nat) by (unfold room, len in *; lia).
    eapply ends_weaken; [|apply IH; lia]. cbn. intros [l s2]. cbn. intros (H6 & new & -> & HF & Hn).
    split; [lia|]. exists (u32 tmp :: new). rewrite <- app_assoc. split; [reflexivity|]. split.
    - constructor; [pose proof (u32_lt tmp); rewrite W32_val in *; lia|exact HF].
    - left. cbn. destruct Hn as [Hn| ->]; [lia|]. cbn. unfold room, len in *. lia.
  Qed.

  Lemma si_construct_ends fuel : forall count s acc, (room s + 2 <= fuel)%nat ->
    Forall (fun e => Forall (fun n => n < 2 ^ 32) (snd e) /\ len (snd e) <= 2 ^ 31) (si_info acc) ->
    ends (si_construct_loop E fuel count s acc)
      (fun x => Forall (fun e => Forall (fun n => n < 2 ^ 32) (snd e) /\ len (snd e) <= 2 ^ 31) (si_info x)).
  Proof.
    induction fuel as [|f IH]; intros count s acc Hf Hacc; [lia|]. cbn [si_construct_loop].
    destruct (count =? 0); [exact Hacc|].
    pose proof (parseLength_ends E Hlen s) as H. destruct (parseLength E s) as [[id s1]| | | |]; try exact I; [|exact H].
    cbn [obind ends fst snd] in *. destruct H as (H1 & H2 & H3 & H4 & H5).
    pose proof (parseLength_ends E Hlen s1) as G. destruct (parseLength E s1) as [[bl s2]| | | |]; try exact I; [|exact G].
    cbn [obind ends fst snd] in *. destruct G as (G1 & G2 & G3 & G4 & G5).
    assert (Hroom : (room s2 + 2 <= room s)%nat) by (unfold room, len in *; lia).
    eapply ends_bind; [apply parse_numbers_ends; lia|]. intros [blocks s3] (K1 & new & Knew & K2 & K3). cbn [fst snd] in *. subst blocks. cbn [app] in *.
    destruct (assoc_find _ _ _); [exact I|]. apply IH; [unfold room, len in *; lia|]. cbn. apply Forall_app. split; [exact Hacc|].
    constructor; [|constructor]. cbn. split; [exact K2|]. destruct K3 as [K3| ->]; [|vm_compute; discriminate].
    change (2 ^ 31) with 2147483648 in *. unfold room, len in *. lia.
  Qed.

  Lemma SplitInfo_Construct_ends fuel : (length (r_content E) + 3 <= fuel)%nat ->
    ends (SplitInfo_Construct E fuel)
      (fun x => Forall (fun e => Forall (fun n => n < 2 ^ 32) (snd e) /\ len (snd e) <= 2 ^ 31) (si_info x)).
  Proof.
    intros Hf. unfold SplitInfo_Construct. eapply ends_bind; [apply parseLength_ends; exact Hlen|].
    intros [count s] _. apply si_construct_ends; [unfold room; lia|constructor].
  Qed.

  Lemma view_find_ends k l : ends (view_find E k l) (fun _ => True).
  Proof.
    induction l as [|[v id] l IH]; [exact I|]. cbn. eapply ends_bind; [apply (read_range_ends _ _ _ (fun _ => True)); auto|].
    intros b _. destruct (bytes_eqb k b); [exact I|exact IH].
  Qed.

  Lemma sm_construct_ends buf fuel : forall count s acc, (room s + 1 <= fuel)%nat ->
    ends (sm_construct_loop E buf fuel count s acc) (fun _ => True).
  Proof.
    induction fuel as [|f IH]; intros count s acc Hf; [lia|]. cbn [sm_construct_loop].
    destruct (count =? 0); [exact I|].
    pose proof (parseLength_ends E Hlen s) as H. destruct (parseLength E s) as [[kl s1]| | | |]; try exact I; [|exact H].
    cbn [obind ends fst snd] in *. destruct H as (H1 & H2 & H3 & H4 & H5).
    unfold curAddr. destruct (r_size E <=? idx s1); [exact I|]. cbn [obind].
    set (s2 := skip kl (add_off kl s1)).
    pose proof (parseLength_ends E Hlen s2) as G. destruct (parseLength E s2) as [[id s3]| | | |]; try exact I; [|exact G].
    cbn [obind ends fst snd] in *. destruct G as (G1 & G2 & G3 & G4 & G5).
    eapply ends_bind; [apply (read_range_ends _ _ _ (fun _ => kl = 0 \/ r_base E + idx s1 + kl <= len (r_content E) + 1)); auto|].
    intros k Hk. eapply ends_bind; [apply view_find_ends|]. intros found _. apply IH.
    assert (idx s1 <= r_size E) by lia.
    assert (Hs2 : idx s2 = idx s1 + kl \/ (kl = 0 /\ idx s2 = u64 (idx s1))).
    { unfold s2. cbn. destruct Hk as [->|Hk]; [right; split; [reflexivity|now rewrite N.add_0_r]|].
      left. apply u64_small. rewrite W64_val. change (2 ^ 31) with 2147483648 in *. lia. }
    destruct Hs2 as [Hs2|[-> Hs2]]; [unfold room, len in *; lia|].
    assert (u64 (idx s1) = idx s1).
    { apply u64_small. rewrite W64_val.
      change (2 ^ 31) with 2147483648 in *. lia. }
    unfold room, len in *. lia.
  Qed.
End Tables.

Lemma StringMap_Construct_ends E buf fuel : len (r_content E) < 2 ^ 31 -> (length (r_content E) + 3 <= fuel)%nat ->
  ends (StringMap_Construct E buf fuel) (fun _ => True).
Proof.
  intros Hlen Hf. unfold StringMap_Construct. eapply ends_bind; [apply parseLength_ends; exact Hlen|].
  intros [count s] _. eapply ends_bind; [apply sm_construct_ends; [exact Hlen|unfold room; lia]|]. intros; exact I.
Qed.

Lemma secondary_env_ends c content t :
  ends (secondary_env c content t) (fun x => r_content (fst x) = content).
Proof.
  unfold secondary_env, parseLength_str. destruct (_ <=? _); [exact I|].
  eapply ends_bind with (Q1 := fun _ => True); [|intros; reflexivity].
  eapply ends_bind; [apply decode_ends|]. intros [v n] _. destruct (_ <? _); exact I.
Qed.

Definition ok_split (x : split_info) : Prop :=
  Forall (fun e => Forall (fun n => n < 2 ^ 32) (snd e) /\ len (snd e) <= 2 ^ 31) (si_info x).

Lemma initFromContent_ends c fuel content buf : len content < 2 ^ 31 -> (length content + 3 <= fuel)%nat ->
  ends (initFromContent c fuel content buf)
    (fun sc => ok_split (sc_split sc) /\
               (b2n (nth 8 content x00) = SeriTypeToChar REPLACE -> exists m, sc_map sc = Some m)).
Proof.
  intros Hlen Hf. unfold initFromContent. destruct (_ <? _); [exact I|].
  eapply ends_bind with (Q1 := fun _ => True); [unfold ParseTotalSize; destruct (_ <? _); exact I|]. intros t _.
  eapply ends_bind with (Q1 := fun x => ok_split (snd x) /\ (b2n (nth 8 content x00) = SeriTypeToChar REPLACE -> exists m, fst x = Some m)).
  - destruct (N.eqb_spec (b2n (nth 8 content x00)) (SeriTypeToChar NORMAL)) as [He|He].
    + eapply ends_bind; [apply secondary_env_ends|]. intros x Hx.
      eapply ends_bind; [apply SplitInfo_Construct_ends; rewrite Hx; assumption|]. intros si Hsi. cbn. split; [exact Hsi|].
      intros Hr. rewrite Hr in He. discriminate.
    + destruct (_ =? _); [|exact I].
      eapply ends_bind; [apply secondary_env_ends|]. intros x Hx.
      eapply ends_bind; [apply StringMap_Construct_ends; rewrite Hx; assumption|]. intros sm _.
      eapply ends_bind; [apply secondary_env_ends|]. intros y Hy.
      eapply ends_bind; [apply SplitInfo_Construct_ends; rewrite Hy; assumption|]. intros si Hsi. cbn. split; [exact Hsi|]. eauto.
  - intros [m si] [H1 H2]. cbn [fst snd] in *. destruct (_ =? 0); [cbn; auto|]. destruct (_ =? 10); [cbn; auto|exact I].
Qed.

Lemma getter_nf c m id : getter c m id <> Fuel.
Proof. unfold getter, GetStr. destruct m as [m|]; [|discriminate]. destruct (assoc_find _ _ _); discriminate. Qed.


Lemma mapview_take_ends mem items k : ends (MapView_take mem items k) (fun _ => True).
Proof.
  induction items as [|[v o] l IH]; cbn [MapView_take]; [exact I|].
  eapply ends_bind with (Q1 := fun _ => True).
  - unfold read_view. destruct (mem (v_buf v)); [|exact I]. apply (read_range_ends _ _ _ (fun _ => True)); auto.
  - intros b _. destruct (bytes_eqb b k); [exact I|]. eapply ends_bind; [exact IH|]. intros [? ?] _. exact I.
Qed.

Lemma take_root_ends content o : ends (take_root content o) (fun _ => True).
Proof.
  unfold take_root. destruct o; try exact I. eapply ends_bind; [apply mapview_take_ends|]. intros; exact I.
Qed.

Lemma Parse_ends c fuel content buf p po :
  len content < 2 ^ 31 -> (length content + 3 <= fuel)%nat ->
  (tame (root_env c content) \/ (b2n (nth 8 content x00) = SeriTypeToChar REPLACE /\ po_ref po = false)) ->
  Parse c fuel content buf p po <> Fuel.
Proof.
  intros Hlen Hf Ht.
  cut (ends (Parse c fuel content buf p po) (fun _ => True)); [intros H HF; now rewrite HF in H|].
  unfold Parse. eapply ends_bind; [apply initFromContent_ends; assumption|]. intros sc (Hsi & Hm).
  assert (Ht' : tame (b_env (doc_env c content buf sc)) \/ (b_map (doc_env c content buf sc) = true /\ po_ref po = false)).
  { destruct Ht as [Ht|[Ht Hr]]; [left; exact Ht|right]. split; [|exact Hr]. destruct (Hm Ht) as (m & Em). cbn. now rewrite Em. }
  assert (HN : nf (getter c (sc_map sc)) (NormalParse_prog (doc_env c content buf sc) fuel (po_ref po) p (sc_total sc)) (fun _ => True)).
  { unfold NormalParse_prog. eapply nf_bind.
    - apply valueParse_nf with (s := {| idx := meta_size; off := meta_size |}); auto.
      + apply getter_nf.
      + unfold left_. cbn. unfold len. lia.
    - intros [root s] _. destruct (negb _); [apply nf_fail; discriminate|]. apply nf_lift, take_root_ends. }
  unfold Parse_prog. destruct (po_type po); [exact HN|]. destruct (sc_need_to_split sc); [|exact HN].
  unfold CoroParse_prog. eapply nf_bind.
  - apply blocks_nf; auto.
    + apply getter_nf.
    + vm_compute. discriminate.
    + unfold left_, at_. cbn. unfold len. lia.
  - intros [root e] _. apply nf_lift, take_root_ends.
Qed.

(** ** Small varints *)

(** No nine consecutive bytes all have their top bit set. *)
Definition short_varints (content : bytes) : Prop :=
  forall i, exists j, (j < 9)%nat /\ b2n (nth (i + j) content x00) < 128.

Lemma u64_le n : u64 n <= n.
Proof. unfold u64. apply N.mod_le. rewrite W64_val. discriminate. Qed.
Lemma land127_lt n : N.land n 127 < 128.
Proof. change 127 with (N.ones 7). rewrite N.land_ones. apply N.mod_lt. discriminate. Qed.
Lemma land128_small n : n < 128 -> N.land n 128 = 0.
Proof.
  intros H. apply N.bits_inj. intros i. rewrite N.land_spec, N.bits_0. destruct (N.eqb_spec i 7) as [->|Hi].
  - rewrite (N.bits_above_log2 n 7); [reflexivity|]. destruct (N.eq_dec n 0) as [->|Hn]; [cbn; lia|].
    apply N.log2_lt_pow2; [lia|exact H].
  - change 128 with (2 ^ 7). rewrite (N.pow2_bits_false 7 i) by congruence. apply andb_false_r.
Qed.

Lemma read_byte_nth content i b : read_byte content i = Ok b -> b = nth (N.to_nat i) content x00.
Proof.
  unfold read_byte. destruct (N.ltb_spec i (len content)); [congruence|].
  destruct (N.eqb_spec i (len content)) as [->|]; [|discriminate]. intros [= <-].
  symmetry. apply nth_overflow. unfold len. lia.
Qed.

Lemma decode_small c content bl fuel : forall ptr k r v n,
  r < 2 ^ (7 * N.of_nat k) -> (k < 9)%nat ->
  (exists j, (j < 9 - k)%nat /\ b2n (nth (N.to_nat ptr + j) content x00) < 128) ->
  varint_decode_loop c fuel content ptr (N.of_nat k) bl (7 * N.of_nat k) r = Ok (v, n) -> v < 2 ^ 63.
Proof.
  induction fuel as [|f IH]; intros ptr k r v n Hr Hk Hj; cbn [varint_decode_loop]; [discriminate|].
  destruct (read_byte content ptr) as [b| | | |] eqn:Hb; try discriminate. cbn [obind].
  apply read_byte_nth in Hb. destruct (N.ltb_spec (7 * N.of_nat k) 64); cbn [negb]; [|lia].
  set (r' := u64 _).
  assert (Hr' : r' < 2 ^ (7 * N.of_nat (S k))).
  { unfold r'. eapply N.le_lt_trans; [apply u64_le|].
    assert (H1 : N.shiftl (N.land (b2n b) 127) (7 * N.of_nat k) <= 127 * 2 ^ (7 * N.of_nat k)).
    { rewrite N.shiftl_mul_pow2. apply N.mul_le_mono_r. pose proof (land127_lt (b2n b)). lia. }
    assert (H2 : u64 (N.shiftl (N.land (b2n b) 127) (7 * N.of_nat k)) <= 127 * 2 ^ (7 * N.of_nat k)).
    { etransitivity; [apply u64_le|exact H1]. }
    replace (7 * N.of_nat (S k)) with (7 * N.of_nat k + 7) by lia. rewrite N.pow_add_r. change (2 ^ 7) with 128. clear - Hr H2. revert H2. generalize (u64 (N.shiftl (N.land (b2n b) 127) (7 * N.of_nat k))). revert Hr. generalize (2 ^ (7 * N.of_nat k)). intros P HP x Hx. lia. }
  destruct (N.land (b2n b) 128 =? 0) eqn:Hl.
  - intros [= <- _]. eapply N.lt_le_trans; [exact Hr'|]. apply N.pow_le_mono_r; lia.
  - destruct (negb _ && negb _); [discriminate|]. intros HD.
    destruct Hj as (j & Hj & Hn). destruct j as [|j].
    { rewrite Nat.add_0_r, <- Hb in Hn. apply land128_small in Hn. apply N.eqb_neq in Hl. congruence. }
    apply (IH (ptr + 1) (S k) r' v n); try assumption; [lia| |].
    + exists j. split; [lia|]. replace (N.to_nat (ptr + 1) + j)%nat with (N.to_nat ptr + S j)%nat by lia. exact Hn.
    + replace (N.of_nat (S k)) with (N.of_nat k + 1) by lia. replace (7 * (N.of_nat k + 1)) with (7 * N.of_nat k + 7) by lia. exact HD.
Qed.

Lemma short_tame c content base size : short_varints content ->
  tame {| r_cfg := c; r_content := content; r_base := base; r_size := size |}.
Proof.
  intros HS s n s'. unfold parseLength. destruct (check_empty _ _); try discriminate. cbn [obind].
  destruct (curAddr _ _) as [addr| | | |]; try discriminate. cbn [obind].
  destruct (varint_decode _ _ _ _) as [[v m]| | | |] eqn:Hv; try discriminate. cbn [obind].
  destruct (check_oor _ _); try discriminate. cbn. intros [= <- _].
  unfold varint_decode in Hv. eapply (decode_small _ _ _ 12 addr 0); [| |apply HS|exact Hv]; [cbn; lia|lia].
Qed.
