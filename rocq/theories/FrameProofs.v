(** * What a successful parse read does not change when bytes are added behind.

    The lemmas compare the runs of the parsers on a buffer and on a longer buffer
    that starts with it.  They hold for arbitrary bytes. *)
From Verif Require Import Base BaseLemmas ModelVarint ModelData ModelSecondary ModelObject
  ModelParse ModelWrapper Spec VarintProofs NumProofs SeriProofs ObjInd ParseLemmas ParaProofs.
From Coq Require Import ZifyBool ZifyNat ZifyN.

Lemma read_byte_ext content X i b : i < len content -> read_byte content i = Ok b -> read_byte (content ++ X) i = Ok b.
Proof.
  unfold read_byte. rewrite len_app. intros Hi. replace (i <? len content) with true by lia.
  replace (i <? len content + len X) with true by lia. intros [= <-]. f_equal.
  apply app_nth1. unfold len in Hi. lia.
Qed.

Lemma decode_loop_ext c content X bl1 bl2 : (ndebug c = true \/ (bl1 <= bl2)%Z) ->
  forall fuel ptr k bits r v n, k + N.of_nat fuel < 256 ->
  varint_decode_loop c fuel content ptr k bl1 bits r = Ok (v, n) -> ptr + n <= len content + k ->
  varint_decode_loop c fuel (content ++ X) ptr k bl2 bits r = Ok (v, n) /\ k < n.
Proof.
  intros Hbl. induction fuel as [|f IH]; intros ptr k bits r v n Hk; cbn [varint_decode_loop]; [discriminate|].
  intros H Hn. apply obind_ok in H as (b & Hb & H).
  assert (Hgo : k < n -> ptr < len content) by lia.
  destruct (negb (bits <? 64)) eqn:Hbits; [discriminate|].
  destruct (N.land (b2n b) 128 =? 0) eqn:Hl.
  - injection H as <- <-. rewrite N.mod_small in * by lia. rewrite (read_byte_ext content X ptr b) by (auto; lia).
    cbn [obind]. rewrite Hl. split; [reflexivity|lia].
  - destruct (negb (ndebug c) && negb (Z.of_N (k + 1) <? bl1)%Z) eqn:Hd; [discriminate|].
    apply IH in H as [H Hlt]; [|lia|lia].
    rewrite (read_byte_ext content X ptr b) by (auto; lia). cbn [obind]. rewrite Hl.
    replace (negb (ndebug c) && negb (Z.of_N (k + 1) <? bl2)%Z) with false.
    + split; [exact H|lia].
    + destruct (ndebug c); [reflexivity|]. destruct Hbl as [Hbl|Hbl]; [discriminate Hbl|]. cbn in *. lia.
Qed.

Lemma decode_ext c content X addr bl1 bl2 v n : (ndebug c = true \/ (bl1 <= bl2)%Z) ->
  varint_decode c content addr bl1 = Ok (v, n) -> addr + n <= len content ->
  varint_decode c (content ++ X) addr bl2 = Ok (v, n) /\ 0 < n.
Proof. intros Hbl H Hn. unfold varint_decode in *. eapply decode_loop_ext; eauto; lia. Qed.

Lemma decode_small c content addr bl v n : varint_decode c content addr bl = Ok (v, n) -> n < 256.
Proof.
  unfold varint_decode.
  assert (G : forall fuel ptr k bits r, varint_decode_loop c fuel content ptr k bl bits r = Ok (v, n) -> n < 256); [|apply G].
  clear addr. induction fuel as [|f IH]; intros ptr k bits r; cbn [varint_decode_loop]; [discriminate|].
  intros H. apply obind_ok in H as (b & _ & H). destruct (negb _); [discriminate|].
  destruct (_ =? 0); [injection H as <- <-; apply N.mod_lt; lia|]. destruct (_ && _); [discriminate|]. eauto.
Qed.

Lemma read_range_ext content X a n s : read_range content a n = Ok s -> (n = 0 \/ a + n <= len content) ->
  read_range (content ++ X) a n = Ok s.
Proof.
  unfold read_range. destruct (N.eqb_spec n 0) as [->|Hn]; [auto|]. intros H [|Ha]; [lia|].
  replace (a + n <=? len content + 1) with true in H by lia. rewrite len_app.
  replace (a + n <=? len content + len X + 1) with true by lia. injection H as <-. f_equal.
  unfold slice. rewrite <- app_assoc.
  rewrite !skipn_app, !firstn_app, skipn_length. unfold len in Ha.
  replace (N.to_nat n - (length content - N.to_nat a))%nat with 0%nat by lia. reflexivity.
Qed.

Lemma read_range_bound content a n s : read_range content a n = Ok s -> n = 0 \/ a + n <= len content + 1.
Proof.
  unfold read_range. destruct (N.eqb_spec n 0); [auto|]. destruct (N.leb_spec (a + n) (len content + 1)); [auto|discriminate].
Qed.

Section Ext.
  Variables E1 E2 : penv.
  Variable X : bytes.
  Let R1 := b_env E1.
  Let R2 := b_env E2.
  Let C1 := r_content R1.
  Hypothesis Hcfg : r_cfg R2 = r_cfg R1.
  Hypothesis Hcont : r_content R2 = r_content R1 ++ X.
  Hypothesis Hb1 : r_base R1 = 0.
  Hypothesis Hb2 : r_base R2 = 0.
  Hypothesis Hs1 : r_size R1 = len (r_content R1).
  Hypothesis Hs2 : r_size R2 = len (r_content R2).
  Hypothesis Hbuf : b_buf E2 = b_buf E1.
  Hypothesis Hmap : b_map E2 = b_map E1.
  Hypothesis HL : lim (r_cfg R2) (len (r_content R2)).

  (** A view that does not touch the terminator of the shorter buffer. *)
  Definition solid (v : view) : Prop :=
    v_len v = 0 \/ v_off v + v_len v <= len C1 \/ len C1 + 1 < v_off v + v_len v.

  Variables get1 get2 : N -> outcome view.
  Hypothesis Hget : forall id v, get1 id = Ok v -> get2 id = Ok v /\ solid v.

  Lemma size_le : r_size R1 <= r_size R2 /\ r_size R2 < 2 ^ 32.
  Proof.
    rewrite Hs1, Hs2. split; [rewrite Hcont, len_app; lia|]. apply lim_W32 in HL. rewrite W32_val in HL. exact HL.
  Qed.

  Lemma read_local_ext v s : solid v -> read_local R1 v = Ok s -> read_local R2 v = Ok s.
  Proof.
    intros Hv H. unfold read_local in *. rewrite Hcont. apply read_range_ext; [exact H|].
    apply read_range_bound in H. fold C1 in H |- *. destruct Hv as [Hv|[Hv|Hv]]; lia.
  Qed.

  Lemma curAddr_ok s a : curAddr R1 s = Ok a -> a = idx s /\ idx s < r_size R1 /\ curAddr R2 s = Ok a.
  Proof.
    pose proof size_le. unfold curAddr. destruct (N.leb_spec (r_size R1) (idx s)); [discriminate|].
    intros [= <-]. rewrite Hb1, Hb2. replace (r_size R2 <=? idx s) with false by lia. repeat split; lia.
  Qed.

  Lemma check_oor_ok s : check_oor R1 s = Ok tt -> idx s <= r_size R1 /\ check_oor R2 s = Ok tt.
  Proof.
    pose proof size_le. unfold check_oor. destruct (N.ltb_spec (r_size R1) (idx s)); [discriminate|].
    intros _. replace (r_size R2 <? idx s) with false by lia. split; [lia|reflexivity].
  Qed.

  Lemma check_empty_ok s : idx s < r_size R1 -> check_empty R2 s = Ok tt /\
    (ndebug (r_cfg R2) = true \/ (to_int32 (remain R1 s) <= to_int32 (remain R2 s))%Z).
  Proof.
    intros Hi. pose proof size_le as [HA HB]. change (2 ^ 32) with 4294967296 in HB.
    unfold check_empty, remain.
    rewrite !sub64_small by (rewrite ?W64_val; lia).
    rewrite !to_int64_small by (change (2 ^ 63) with 9223372036854775808; lia).
    split; [replace (_ <=? 0)%Z with false by lia; reflexivity|].
    destruct (ndebug (r_cfg R2)) eqn:Hnd; [now left|right]. unfold lim in HL. rewrite Hnd in HL. rewrite <- Hs2 in HL.
    change (2 ^ 31) with 2147483648 in HL. rewrite !to_int32_small by lia. lia.
  Qed.

  Lemma parseLength_ext s x : parseLength R1 s = Ok x ->
    parseLength R2 s = Ok x /\ idx s < r_size R1 /\ idx (snd x) <= r_size R1.
  Proof.
    pose proof size_le as [HA HB]. change (2 ^ 32) with 4294967296 in HB. unfold parseLength. intros H.
    apply obind_ok in H as ([] & _ & H). apply obind_ok in H as (a & Ha & H).
    apply curAddr_ok in Ha as (-> & Hi & Ha). destruct (check_empty_ok s Hi) as [-> Hbl]. cbn [obind]. rewrite Ha. cbn [obind].
    apply obind_ok in H as ([v n] & Hv & H). apply obind_ok in H as ([] & Ho & H).
    apply check_oor_ok in Ho as [Ho Ho2]. cbn [skip idx] in Ho.
    pose proof (decode_small _ _ _ _ _ _ Hv) as Hn.
    rewrite u64_small in Ho by (rewrite W64_val; lia).
    rewrite Hcfg, Hcont in *. destruct (decode_ext _ _ X _ _ (to_int32 (remain R2 s)) _ _ Hbl Hv) as [-> _]; [rewrite <- Hs1; exact Ho|].
    cbn [obind]. rewrite Ho2. cbn [obind]. injection H as <-. split; [reflexivity|]. split; [exact Hi|].
    cbn. rewrite u64_small by (rewrite W64_val; lia). exact Ho.
  Qed.

  Lemma tag_ext {A} s (f : byte -> rstate -> outcome A) x :
    obind (check_empty R1 s) (fun _ => obind (curAddr R1 s) (fun a => obind (read_byte (r_content R1) a) (fun b =>
      obind (check_oor R1 (skip 1 s)) (fun _ => f b (add_off 1 (skip 1 s)))))) = Ok x ->
    obind (check_empty R2 s) (fun _ => obind (curAddr R2 s) (fun a => obind (read_byte (r_content R2) a) (fun b =>
      obind (check_oor R2 (skip 1 s)) (fun _ => f b (add_off 1 (skip 1 s)))))) = Ok x /\ idx s < r_size R1.
  Proof.
    intros H. apply obind_ok in H as ([] & _ & H). apply obind_ok in H as (a & Ha & H).
    apply curAddr_ok in Ha as (-> & Hi & Ha). destruct (check_empty_ok s Hi) as [-> _]. cbn [obind]. rewrite Ha. cbn [obind].
    apply obind_ok in H as (b & Hb & H). apply obind_ok in H as ([] & Ho & H). apply check_oor_ok in Ho as [_ Ho].
    rewrite Hcont, (read_byte_ext _ X _ b) by (auto; rewrite <- Hs1; exact Hi). cbn [obind]. rewrite Ho. auto.
  Qed.

  Lemma parseDataType_ext s x : parseDataType R1 s = Ok x -> parseDataType R2 s = Ok x.
  Proof. intros H. apply (tag_ext s (fun b s2 => Ok (b2n b, s2))) in H as [H _]. exact H. Qed.
  Lemma parseObjectType_ext s x : parseObjectType R1 s = Ok x -> parseObjectType R2 s = Ok x.
  Proof.
    intros H. apply (tag_ext s (fun b s2 => match CharToObjectType (N.land (b2n b) 127) with None => Throw ERuntime | Some t => Ok (t, s2) end)) in H as [H _]. exact H.
  Qed.
  Lemma parseObjectType_split_ext s x : parseObjectType_split R1 s = Ok x -> parseObjectType_split R2 s = Ok x /\ idx s < r_size R1.
  Proof.
    intros H. apply (tag_ext s (fun b s2 => match CharToObjectType (N.land (b2n b) 127) with None => Throw ERuntime
      | Some t => Ok (t, negb (N.shiftr (N.land (b2n b) 128) 1 =? 0), s2) end)) in H. exact H.
  Qed.

  Lemma parse_num_ext t a n d : parse_num (r_cfg R1) (r_content R1) t a n = Ok d -> a + n <= len C1 ->
    parse_num (r_cfg R2) (r_content R2) t a n = Ok d.
  Proof.
    intros H Ha. unfold parse_num in *. rewrite Hcfg, Hcont.
    destruct (negb _ && negb _); [discriminate|]. destruct (_ <? _); [discriminate|].
    apply obind_ok in H as (m & Hm & H). rewrite (read_range_ext _ X _ _ m) by (auto). exact H.
  Qed.

  (** ** Computations *)
  Definition ext {A} (p1 p2 : prog A) : Prop := forall r, run get1 p1 = Ok r -> run get2 p2 = Ok r.

  Lemma ext_bind {A B} (p1 p2 : prog A) (f1 f2 : A -> prog B) :
    ext p1 p2 -> (forall a, run get1 p1 = Ok a -> ext (f1 a) (f2 a)) -> ext (pbind p1 f1) (pbind p2 f2).
  Proof.
    intros H1 H2 r. rewrite !run_bind. intros H. apply obind_ok in H as (a & Ha & H). rewrite (H1 a Ha). cbn. now apply H2.
  Qed.
  Lemma ext_lift {A B} (x1 x2 : outcome A) (f1 f2 : A -> prog B) :
    (forall a, x1 = Ok a -> x2 = Ok a /\ ext (f1 a) (f2 a)) -> ext (pbind (lift x1) f1) (pbind (lift x2) f2).
  Proof.
    intros H r. rewrite !run_bind, !run_lift. intros Hr. apply obind_ok in Hr as (a & Ha & Hr).
    destruct (H a Ha) as [-> Hx]. cbn. now apply Hx.
  Qed.
  Lemma ext_refl_ret {A} (a : A) : ext (PRet a) (PRet a).
  Proof. intros r H; exact H. Qed.
  Lemma ext_fail {A} f (p : prog A) : ext (PFail f) p.
  Proof. intros r H. destruct f; discriminate H. Qed.
  Lemma ext_getstr {A} id (k1 k2 : view -> prog A) :
    (forall v, solid v -> ext (k1 v) (k2 v)) -> ext (PGetStr id k1) (PGetStr id k2).
  Proof.
    intros H r. cbn [run]. intros Hr. apply obind_ok in Hr as (v & Hv & Hr). apply Hget in Hv as [-> Hs]. cbn. now apply H.
  Qed.

  Lemma Data_ext pr s : ext (Data_valueParse E1 pr s) (Data_valueParse E2 pr s).
  Proof.
    pose proof size_le as [HA HB]. change (2 ^ 32) with 4294967296 in HB.
    unfold Data_valueParse. fold R1 R2. apply ext_lift. intros [dt s1] H1. split; [now apply parseDataType_ext|].
    destruct (negb (valid_data_type dt)); [apply ext_fail|]. rewrite Hmap.
    case_eq ((dt =? BRIDGE_STRING) && b_map E1); intros Hbm.
    - apply ext_lift. intros [id s2] H2. apply parseLength_ext in H2 as (H2 & _). split; [exact H2|].
      apply ext_getstr. intros v Hv. destruct pr; [apply ext_refl_ret|]. apply ext_lift.
      intros s0 Hr. split; [now apply read_local_ext|apply ext_refl_ret].
    - apply ext_lift. intros [size s2] H2. apply parseLength_ext in H2 as (H2 & _). split; [exact H2|].
      apply ext_lift. intros a Ha. apply curAddr_ok in Ha as (-> & Hi & Ha). split; [exact Ha|].
      intros r. rewrite !run_bind, !run_lift. intros H. apply obind_ok in H as (d & Hd & H).
      rewrite !run_bind, !run_lift in H. apply obind_ok in H as ([] & Ho & H).
      apply check_oor_ok in Ho as [Ho Ho2]. cbn [skip idx] in Ho.
      enough ((if pr then parseData_view (r_cfg R2) (r_content R2) (b_buf E2) dt (idx s2) size
               else parseData (r_cfg R2) (r_content R2) dt (idx s2) size) = Ok d) as ->.
      { cbn [obind]. rewrite run_bind, run_lift, Ho2. exact H. }
      assert (Hsz : size <= len C1 + 1 -> idx s2 + size <= len C1).
      { intros Hsz. assert (HC : len C1 = r_size R1) by (symmetry; exact Hs1). rewrite u64_small in Ho by (rewrite W64_val; lia). lia. }
      destruct pr.
      + unfold parseData_view in *. rewrite Hbuf. destruct (_ || _); [exact Hd|]. destruct (num_of_dt dt); [|discriminate].
        apply parse_num_ext; [exact Hd|]. apply Hsz. unfold parse_num in Hd. destruct (negb _ && negb _); [discriminate|].
        destruct (_ <? _); [discriminate|]. apply obind_ok in Hd as (m & Hm & _). apply read_range_bound in Hm. fold C1 in Hm. lia.
      + unfold parseData in *. destruct (_ || _); [|destruct (dt =? BRIDGE_STRING)].
        * unfold omap in *. apply obind_ok in Hd as (m & Hm & Hd). rewrite Hcont, (read_range_ext _ X _ _ m); [exact Hd|exact Hm|].
          apply read_range_bound in Hm. fold C1 in Hm |- *. lia.
        * unfold omap in *. apply obind_ok in Hd as (m & Hm & Hd). rewrite Hcont, (read_range_ext _ X _ _ m); [exact Hd|exact Hm|].
          apply read_range_bound in Hm. fold C1 in Hm |- *. lia.
        * destruct (num_of_dt dt); [|discriminate].
          apply parse_num_ext; [exact Hd|]. apply Hsz. unfold parse_num in Hd. destruct (negb _ && negb _); [discriminate|].
          destruct (_ <? _); [discriminate|]. apply obind_ok in Hd as (m & Hm & _). apply read_range_bound in Hm. fold C1 in Hm. lia.
  Qed.

  Lemma parse_key_ext s x : run get1 (parse_key E1 s) = Ok x -> run get2 (parse_key E2 s) = Ok x /\ solid (fst x).
  Proof.
    pose proof size_le as [HA HB]. change (2 ^ 32) with 4294967296 in HB.
    unfold parse_key. fold R1 R2. rewrite Hmap. case_eq (b_map E1); intros Hbm.
    - rewrite !run_bind, !run_lift. intros H. apply obind_ok in H as ([id s1] & H1 & H).
      apply parseLength_ext in H1 as (-> & _). cbn [obind run] in *. apply obind_ok in H as (v & Hv & H).
      apply Hget in Hv as [-> Hs]. cbn in *. injection H as <-. auto.
    - rewrite !run_bind, !run_lift. intros H. apply obind_ok in H as ([kl s1] & H1 & H).
      apply parseLength_ext in H1 as (-> & _). cbn [obind]. rewrite !run_bind, !run_lift in *.
      apply obind_ok in H as (a & Ha & H). apply curAddr_ok in Ha as (-> & Hi & ->). cbn [obind].
      rewrite !run_bind, !run_lift in *. apply obind_ok in H as ([] & Ho & H). apply check_oor_ok in Ho as [Ho ->].
      cbn [run obind] in *. rewrite Hbuf. injection H as <-. split; [reflexivity|]. unfold solid. cbn.
      cbn [skip idx] in Ho. assert (HC : len C1 = r_size R1) by (symmetry; exact Hs1). rewrite HC. destruct (N.leb_spec (idx s1 + kl) (r_size R1 + 1)); [|lia].
      rewrite u64_small in Ho by (rewrite W64_val; lia). lia.
  Qed.

  Lemma valueParse_ext p pr fuel :
    (forall t s, ext (valueParse E1 p pr fuel t s) (valueParse E2 p pr fuel t s)) /\
    (forall n s acc, ext (array_loop E1 p pr fuel n s acc) (array_loop E2 p pr fuel n s acc)) /\
    (forall n s acc, ext (map_loop E1 p pr fuel n s acc) (map_loop E2 p pr fuel n s acc)) /\
    (forall n s acc, ext (mapview_loop E1 p pr fuel n s acc) (mapview_loop E2 p pr fuel n s acc)).
  Proof.
    induction fuel as [|f (IHv & IHa & IHm & IHw)].
    { repeat split; intros; cbn; apply ext_fail. }
    split; [|split; [|split]].
    - intros t s. cbn [valueParse]. fold R1 R2. destruct t.
      + apply Data_ext.
      + apply ext_lift. intros [n s1] H1. apply parseLength_ext in H1 as (H1 & _). split; [exact H1|].
        apply ext_lift. intros [id s2] H2. apply parseLength_ext in H2 as (H2 & _). split; [exact H2|].
        destruct pr.
        * apply ext_bind; [apply IHw|]. intros [items s3] _. apply ext_refl_ret.
        * apply ext_lift. intros [] H3. apply check_oor_ok in H3 as [_ H3]. split; [exact H3|].
          apply ext_bind; [apply IHm|]. intros [items s3] _. apply ext_refl_ret.
      + apply ext_lift. intros [n s1] H1. apply parseLength_ext in H1 as (H1 & _). split; [exact H1|].
        apply ext_lift. intros [id s2] H2. apply parseLength_ext in H2 as (H2 & _). split; [exact H2|].
        apply ext_bind; [apply IHa|]. intros [items s3] _. apply ext_refl_ret.
    - intros n s acc. cbn [array_loop]. fold R1 R2. destruct (n =? 0); [apply ext_refl_ret|].
      apply ext_lift. intros [t s1] H1. split; [now apply parseObjectType_ext|].
      apply ext_bind; [apply IHv|]. intros [o s2] _. apply IHa.
    - intros n s acc. cbn [map_loop]. fold R1 R2. destruct (n =? 0); [apply ext_refl_ret|].
      apply ext_bind; [intros x Hx; now apply parse_key_ext|]. intros [kv s1] H1. apply parse_key_ext in H1 as [_ Hsol].
      apply ext_lift. intros [t s2] H2. split; [now apply parseObjectType_ext|].
      apply ext_bind; [apply IHv|]. intros [o s3] _.
      apply ext_lift. intros key Hk. split; [now apply read_local_ext|]. apply IHm.
    - intros n s acc. cbn [mapview_loop]. fold R1 R2. destruct (n =? 0); [apply ext_refl_ret|].
      apply ext_bind; [intros x Hx; now apply parse_key_ext|]. intros [kv s1] H1.
      apply ext_lift. intros [t s2] H2. split; [now apply parseObjectType_ext|].
      apply ext_bind; [apply IHv|]. intros [o s3] _. apply IHw.
  Qed.

  (** ** The parallel parser *)
  Definition all_done (rs : list (outcome block)) : Prop := Forall (fun r => exists b, r = Ok b) rs.

  Lemma all_done_no_failure rs : all_done rs -> hard_failure rs = None.
  Proof. induction 1 as [|r rs [b ->] _ IH]; [reflexivity|exact IH]. Qed.

  Lemma ext_par {A} (ts1 ts2 : list (prog block)) (k : list (outcome block) -> prog A) :
    Forall2 ext ts1 ts2 -> (forall rs r, run get1 (k rs) = Ok r -> all_done rs /\ run get2 (k rs) = Ok r) ->
    ext (PPar ts1 k) (PPar ts2 k).
  Proof.
    intros HT HK r. rewrite !run_PPar. cbv zeta.
    destruct (hard_failure _) as [f|] eqn:Hf; [destruct f; discriminate|].
    intros Hr. apply HK in Hr as [Hd Hr].
    assert (Heq : map (fun t => run get2 t) ts2 = map (fun t => run get1 t) ts1).
    { clear -HT Hd. unfold all_done in Hd. rewrite Forall_map in Hd. induction HT as [|t1 t2 ts1 ts2 Ht HT IH]; [reflexivity|].
      inversion Hd as [|? ? [b Hb] Hd']; subst. cbn. rewrite (IH Hd'), Hb. now rewrite (Ht b Hb). }
    rewrite Heq, Hf. exact Hr.
  Qed.

  Lemma merge_all_done {A} (f : A -> outcome block -> outcome A) :
    (forall a r a', f a r = Ok a' -> exists b, r = Ok b) ->
    forall rs acc x, merge_all f acc rs = Ok x -> all_done rs.
  Proof.
    intros Hf. induction rs as [|r rs IH]; intros acc x H; [constructor|]. cbn in H.
    apply obind_ok in H as (a & Ha & H). constructor; eauto. eapply IH; eauto.
  Qed.

  Lemma block_key_ext s x : run get1 (block_key E1 s) = Ok x ->
    run get2 (block_key E2 s) = Ok x /\ (idx (snd x) < r_size R1 -> solid (fst x)).
  Proof.
    pose proof size_le as [HA HB]. change (2 ^ 32) with 4294967296 in HB.
    unfold block_key. fold R1 R2. rewrite Hmap. case_eq (b_map E1); intros Hbm.
    - rewrite !run_bind, !run_lift. intros H. apply obind_ok in H as ([id s1] & H1 & H).
      apply parseLength_ext in H1 as (-> & _). cbn [obind run] in *. apply obind_ok in H as (v & Hv & H).
      apply Hget in Hv as [-> Hs]. cbn in *. injection H as <-. auto.
    - rewrite !run_bind, !run_lift. intros H. apply obind_ok in H as ([kl s1] & H1 & H).
      apply parseLength_ext in H1 as (-> & _). cbn [obind]. rewrite !run_bind, !run_lift in *.
      apply obind_ok in H as (a & Ha & H). apply curAddr_ok in Ha as (-> & Hi & ->). cbn [obind run] in *.
      rewrite Hbuf. injection H as <-. split; [reflexivity|]. unfold solid. cbn.
      assert (HC : len C1 = r_size R1) by (symmetry; exact Hs1). rewrite HC.
      assert (u32 kl < 4294967296) by (apply N.mod_lt; discriminate).
      rewrite u64_small by (rewrite W64_val; lia). lia.
  Qed.

  Lemma Para_ext si fuel :
    (forall pr os, ext (ParseArray E1 si fuel pr os) (ParseArray E2 si fuel pr os)) /\
    (forall pr os, ext (ParseMap E1 si fuel pr os) (ParseMap E2 si fuel pr os)) /\
    (forall pr s, ext (block_value E1 si fuel pr s) (block_value E2 si fuel pr s)) /\
    (forall pr e s acc n, ext (ParseArrayBlock E1 si fuel pr e s acc n) (ParseArrayBlock E2 si fuel pr e s acc n)) /\
    (forall e s acc n, ext (ParseMapBlock E1 si fuel e s acc n) (ParseMapBlock E2 si fuel e s acc n)) /\
    (forall e s acc n, ext (ParseMapViewBlock E1 si fuel e s acc n) (ParseMapViewBlock E2 si fuel e s acc n)).
  Proof.
    induction fuel as [|f (IHa & IHm & IHv & IHab & IHmb & IHwb)].
    { repeat split; intros; cbn; apply ext_fail. }
    assert (HF2 : forall (l : list (N * N)) (g1 g2 : N * N -> prog block), (forall x, ext (g1 x) (g2 x)) -> Forall2 ext (map g1 l) (map g2 l)).
    { induction l as [|x l IHl]; intros; cbn; constructor; auto. }
    split; [|split; [|split; [|split; [|split]]]].
    - intros pr os. cbn [ParseArray]. fold R1 R2.
      apply ext_lift. intros [n s1] H1. apply parseLength_ext in H1 as (H1 & _). split; [exact H1|].
      apply ext_lift. intros [id s2] H2. apply parseLength_ext in H2 as (H2 & _). split; [exact H2|].
      apply ext_lift. intros bi H3. split; [exact H3|]. destruct (ranges (idx s2) bi) as [rs last].
      apply ext_par; [apply HF2; intros x; apply IHab|]. intros rs' r. rewrite !run_bind, !run_lift. intros H.
      apply obind_ok in H as ([items size] & Hm & H). split; [|rewrite Hm; exact H].
      apply merge_all_done in Hm; [unfold all_done in *; apply Forall_rev in Hm; now rewrite rev_involutive in Hm|].
      intros a r0 a' Ha. unfold merge_arr in Ha. apply obind_ok in Ha as (b & Hb & _). eauto.
    - intros pr os. cbn [ParseMap]. fold R1 R2.
      apply ext_lift. intros [n s1] H1. apply parseLength_ext in H1 as (H1 & _). split; [exact H1|].
      apply ext_lift. intros [id s2] H2. apply parseLength_ext in H2 as (H2 & _). split; [exact H2|].
      apply ext_lift. intros bi H3. split; [exact H3|]. destruct (ranges (idx s2) bi) as [rs last]. destruct pr.
      + apply ext_par; [apply HF2; intros x; apply IHwb|]. intros rs' r. rewrite !run_bind, !run_lift. intros H.
        apply obind_ok in H as ([items size] & Hm & H). split; [|rewrite Hm; exact H].
        apply merge_all_done in Hm; [exact Hm|].
        intros a r0 a' Ha. unfold merge_mapview in Ha. apply obind_ok in Ha as (b & Hb & _). eauto.
      + apply ext_par; [apply HF2; intros x; apply IHmb|]. intros rs' r. rewrite !run_bind, !run_lift. intros H.
        apply obind_ok in H as ([items size] & Hm & H). split; [|rewrite Hm; exact H].
        apply merge_all_done in Hm; [exact Hm|].
        intros a r0 a' Ha. unfold merge_map in Ha. apply obind_ok in Ha as (b & Hb & _). eauto.
    - intros pr s. cbn [block_value]. fold R1 R2.
      apply ext_lift. intros [[t nts] s1] H1. apply parseObjectType_split_ext in H1 as [H1 _]. split; [exact H1|].
      destruct nts; [destruct t|].
      + apply ext_fail.
      + apply ext_bind; [apply IHm|]. intros [o e] _. apply ext_refl_ret.
      + apply ext_bind; [apply IHa|]. intros [o e] _. apply ext_refl_ret.
      + apply valueParse_ext.
    - intros pr e s acc n. cbn [ParseArrayBlock]. destruct (off s <? e); [|apply ext_refl_ret].
      apply ext_bind; [apply IHv|]. intros [o s1] _. apply IHab.
    - intros e s acc n. cbn [ParseMapBlock]. fold R1 R2. destruct (off s <? e); [|apply ext_refl_ret].
      apply ext_bind; [intros x Hx; now apply block_key_ext|]. intros [kv s1] H1. apply block_key_ext in H1 as [_ Hsol].
      cbn [fst snd] in Hsol. intros r. rewrite !run_bind, !run_lift. intros H. apply obind_ok in H as (key & Hk & H).
      assert (Hi : idx s1 < r_size R1).
      { rewrite run_bind in H. apply obind_ok in H as ([o s2] & Ho & H).
        destruct f as [|f']; [discriminate Ho|]. cbn [block_value] in Ho. rewrite run_bind, run_lift in Ho.
        apply obind_ok in Ho as ([[t nts] s3] & Ht & _). now apply parseObjectType_split_ext in Ht as [_ Ht]. }
      rewrite (read_local_ext kv key (Hsol Hi) Hk). cbn [obind].
      refine (ext_bind _ _ _ _ (IHv false s1) _ r H). intros [o s2] _. apply IHmb.
    - intros e s acc n. cbn [ParseMapViewBlock]. destruct (off s <? e); [|apply ext_refl_ret].
      apply ext_bind; [intros x Hx; now apply block_key_ext|]. intros [kv s1] H1.
      apply ext_bind; [apply IHv|]. intros [o s2] _. apply IHwb.
  Qed.
  (** ** Keys of an in-situ root map *)
  Definition solid_keys (l : list (view * obj)) : Prop := Forall (fun e => solid (fst e)) l.

  Lemma mapview_loop_solid p pr fuel : forall n s acc x, solid_keys acc ->
    run get1 (mapview_loop E1 p pr fuel n s acc) = Ok x -> solid_keys (fst x).
  Proof.
    induction fuel as [|f IH]; intros n s acc x Ha; cbn [mapview_loop]; [discriminate|].
    destruct (n =? 0); [intros [= <-]; exact Ha|]. rewrite run_bind. intros H. apply obind_ok in H as ([kv s1] & H1 & H).
    apply parse_key_ext in H1 as [_ Hsol]. rewrite run_bind, run_lift in H. apply obind_ok in H as ([t s2] & _ & H).
    rewrite run_bind in H. apply obind_ok in H as ([o s3] & _ & H). apply IH in H; [exact H|]. constructor; [exact Hsol|exact Ha].
  Qed.

  Lemma MapViewBlock_solid si fuel : forall e s acc n b, solid_keys acc ->
    run get1 (ParseMapViewBlock E1 si fuel e s acc n) = Ok b -> exists items c, b = BMapView items c /\ solid_keys items.
  Proof.
    induction fuel as [|f IH]; intros e s acc n b Ha; cbn [ParseMapViewBlock]; [discriminate|].
    destruct (off s <? e).
    - rewrite run_bind. intros H. apply obind_ok in H as ([kv s1] & H1 & H). apply block_key_ext in H1 as [_ Hsol]. cbn [fst snd] in Hsol.
      assert (Hi : idx s1 < r_size R1).
      { rewrite run_bind in H. apply obind_ok in H as ([o s2] & Ho & H).
        destruct f as [|f']; [discriminate Ho|]. cbn [block_value] in Ho. rewrite run_bind, run_lift in Ho.
        apply obind_ok in Ho as ([[t nts] s3] & Ht & _). now apply parseObjectType_split_ext in Ht as [_ Ht]. }
      rewrite run_bind in H. apply obind_ok in H as ([o s2] & _ & H). eapply IH; [|exact H].
      constructor; [exact (Hsol Hi)|exact Ha].
    - intros [= <-]. do 2 eexists. split; [reflexivity|]. unfold solid_keys in *. now apply Forall_rev.
  Qed.

  Lemma merge_mapview_solid rs : forall acc x,
    Forall (fun r => forall b, r = Ok b -> exists items c, b = BMapView items c /\ solid_keys items) rs ->
    solid_keys (fst acc) -> merge_all merge_mapview acc rs = Ok x -> solid_keys (fst x).
  Proof.
    induction rs as [|r rs IH]; intros acc x HF Ha H; cbn in H; [injection H as <-; exact Ha|].
    inversion HF as [|? ? Hr HF']; subst. apply obind_ok in H as (acc' & Hm & H). eapply IH; [exact HF'| |exact H].
    unfold merge_mapview in Hm. apply obind_ok in Hm as (b & Hb & Hm). destruct (Hr b Hb) as (items & n & -> & Hi).
    injection Hm as <-. destruct items; [exact Ha|]. cbn [fst]. unfold solid_keys. apply Forall_app. split; [exact Hi|exact Ha].
  Qed.

  Lemma root_solid_normal p pr fuel t s x : run get1 (valueParse E1 p pr fuel t s) = Ok x ->
    match fst x with OMapView _ _ items => solid_keys items | _ => True end.
  Proof.
    destruct fuel as [|f]; [discriminate|]. cbn [valueParse]. intros H. destruct t.
    - destruct x as [o s']. cbn [fst]. destruct o; try exact I. exfalso. revert H. unfold Data_valueParse.
      rewrite run_bind, run_lift. intros H. apply obind_ok in H as ([dt s1] & _ & H).
      destruct (negb _); [discriminate|]. destruct (_ && _).
      + rewrite run_bind, run_lift in H. apply obind_ok in H as ([id s2] & _ & H). cbn [run] in H.
        apply obind_ok in H as (v & _ & H). destruct pr; [discriminate H|].
        rewrite run_bind, run_lift in H. apply obind_ok in H as (s3 & _ & H). discriminate H.
      + rewrite run_bind, run_lift in H. apply obind_ok in H as ([id s2] & _ & H).
        rewrite run_bind, run_lift in H. apply obind_ok in H as (a & _ & H).
        rewrite run_bind, run_lift in H. apply obind_ok in H as (d & _ & H).
        rewrite run_bind, run_lift in H. apply obind_ok in H as ([] & _ & H). cbn in H. destruct pr; discriminate H.
    - rewrite run_bind, run_lift in H. apply obind_ok in H as ([n s1] & _ & H).
      rewrite run_bind, run_lift in H. apply obind_ok in H as ([id s2] & _ & H). destruct pr.
      + rewrite run_bind in H. apply obind_ok in H as ([items s3] & H3 & H). injection H as <-. cbn [fst].
        eapply mapview_loop_solid in H3; [exact H3|constructor].
      + rewrite run_bind, run_lift in H. apply obind_ok in H as ([] & _ & H).
        rewrite run_bind in H. apply obind_ok in H as ([items s3] & H3 & H). injection H as <-. exact I.
    - rewrite run_bind, run_lift in H. apply obind_ok in H as ([n s1] & _ & H).
      rewrite run_bind, run_lift in H. apply obind_ok in H as ([id s2] & _ & H).
      rewrite run_bind in H. apply obind_ok in H as ([items s3] & H3 & H). injection H as <-. exact I.
  Qed.

  Lemma root_solid_para si pr fuel os x : run get1 (ParseMap E1 si fuel pr os) = Ok x ->
    match fst x with OMapView _ _ items => solid_keys items | _ => True end.
  Proof.
    destruct fuel as [|f]; [discriminate|]. cbn [ParseMap]. intros H.
    rewrite run_bind, run_lift in H. apply obind_ok in H as ([n s1] & _ & H).
    rewrite run_bind, run_lift in H. apply obind_ok in H as ([id s2] & _ & H).
    rewrite run_bind, run_lift in H. apply obind_ok in H as (bi & _ & H).
    destruct (ranges (idx s2) bi) as [rs last]. destruct pr.
    - rewrite run_PPar in H. destruct (hard_failure _) as [g|]; [destruct g; discriminate|].
      rewrite run_bind, run_lift in H. apply obind_ok in H as ([items size] & Hm & H). injection H as <-. cbn [fst].
      apply merge_mapview_solid in Hm; [exact Hm| |constructor].
      apply Forall_forall. intros r Hr b ->. apply in_map_iff in Hr as (t & Ht & Hin). apply in_map_iff in Hin as (be & <- & _).
      refine (MapViewBlock_solid si f _ _ [] _ _ _ Ht). constructor.
    - rewrite run_PPar in H. destruct (hard_failure _) as [g|]; [destruct g; discriminate|].
      rewrite run_bind, run_lift in H. apply obind_ok in H as ([items size] & Hm & H). injection H as <-. exact I.
  Qed.

  Lemma take_root_ext root o : match root with OMapView _ _ items => solid_keys items | _ => True end ->
    take_root (r_content R1) root = Ok o -> take_root (r_content R2) root = Ok o.
  Proof.
    destruct root as [| | | | |q n items]; cbn [take_root]; auto. intros Hs H. apply obind_ok in H as (x & Hx & H).
    enough (MapView_take (fun _ => Some (r_content R2)) items root_key = Ok x) as -> by exact H. clear H.
    revert x Hx. induction Hs as [|[v w] items Hv Hs IH]; intros x; cbn [MapView_take]; [auto|].
    unfold read_view at 1. intros H. apply obind_ok in H as (b & Hb & H).
    unfold read_view at 1. cbn [fst] in Hv. pose proof (read_local_ext v b Hv Hb) as Hr. unfold read_local in Hr. rewrite Hr. cbn [obind].
    destruct (bytes_eqb b root_key); [exact H|]. apply obind_ok in H as (y & Hy & H). rewrite (IH y Hy). exact H.
  Qed.

  Lemma Normal_ext fuel pr p total : ext (NormalParse_prog E1 fuel pr p total) (NormalParse_prog E2 fuel pr p total).
  Proof.
    unfold NormalParse_prog. apply ext_bind; [apply valueParse_ext|]. intros [root s] Hr.
    destruct (negb _); [apply ext_fail|]. apply root_solid_normal in Hr. cbn [fst] in Hr.
    intros o. rewrite !run_lift. now apply take_root_ext.
  Qed.

  Lemma Coro_ext si fuel pr : ext (CoroParse_prog E1 si fuel pr) (CoroParse_prog E2 si fuel pr).
  Proof.
    unfold CoroParse_prog. apply ext_bind; [apply Para_ext|]. intros [root s] Hr.
    apply root_solid_para in Hr. cbn [fst] in Hr. intros o. rewrite !run_lift. now apply take_root_ext.
  Qed.
End Ext.

(** ** The auxiliary tables *)
Section TabExt.
  Variables T1 T2 : renv.
  Variable X : bytes.
  Hypothesis Hcfg : r_cfg T2 = r_cfg T1.
  Hypothesis Hcont : r_content T2 = r_content T1 ++ X.
  Hypothesis Hbase : r_base T2 = r_base T1.
  Hypothesis Hsize : r_size T2 = r_size T1.
  Hypothesis Hin : r_base T1 + r_size T1 <= len (r_content T1).
  Hypothesis HL : len (r_content T1) < 2 ^ 32.

  Lemma tab_parseLength s x : parseLength T1 s = Ok x -> parseLength T2 s = Ok x /\ idx s < r_size T1 /\ idx (snd x) <= r_size T1.
  Proof.
    change (2 ^ 32) with 4294967296 in HL. unfold parseLength, check_empty, remain, curAddr, check_oor.
    rewrite Hsize, Hbase, Hcfg. intros H.
    apply obind_ok in H as ([] & He & H). rewrite He. cbn [obind].
    destruct (N.leb_spec (r_size T1) (idx s)) as [|Hi]; [discriminate|]. cbn [obind] in *.
    apply obind_ok in H as ([v n] & Hv & H). pose proof (decode_small _ _ _ _ _ _ Hv) as Hn.
    cbn [skip idx] in H. rewrite u64_small in * by (rewrite W64_val; lia).
    destruct (N.ltb_spec (r_size T1) (idx s + n)) as [|Ho]; [discriminate|]. cbn [obind] in H.
    rewrite Hcont. edestruct (decode_ext (r_cfg T1) (r_content T1) X) as [-> _]; [right; apply Z.le_refl|exact Hv|lia|].
    cbn [obind]. cbn [skip idx] in *. rewrite u64_small by (rewrite W64_val; lia). replace (_ <? _) with false by lia.
    cbn [obind]. injection H as <-. split; [reflexivity|]. cbn. rewrite u64_small by (rewrite W64_val; lia). lia.
  Qed.

  Definition tab_view (v : view) : Prop := v_off v + v_len v <= len (r_content T1).

  Lemma tab_read_local v s : tab_view v -> read_local T1 v = Ok s -> read_local T2 v = Ok s.
  Proof. intros Hv H. unfold read_local in *. rewrite Hcont. apply read_range_ext; auto. Qed.

  Lemma tab_view_find s l x : Forall (fun e => tab_view (fst e)) l -> view_find T1 s l = Ok x -> view_find T2 s l = Ok x.
  Proof.
    induction 1 as [|[v id] l Hv HF IH]; cbn [view_find]; [auto|]. intros H. apply obind_ok in H as (b & Hb & H).
    rewrite (tab_read_local v b Hv Hb). cbn [obind]. destruct (bytes_eqb s b); auto.
  Qed.

  Lemma tab_sm_loop buf fuel : forall count s acc l, Forall (fun e => tab_view (fst e)) acc ->
    sm_construct_loop T1 buf fuel count s acc = Ok l ->
    sm_construct_loop T2 buf fuel count s acc = Ok l /\ Forall (fun e => tab_view (fst e)) l.
  Proof.
    change (2 ^ 32) with 4294967296 in HL.
    induction fuel as [|f IH]; intros count s acc l Hacc; cbn [sm_construct_loop]; [discriminate|].
    destruct (count =? 0); [intros [= <-]; auto|]. intros H.
    apply obind_ok in H as ([kl s1] & H1 & H). apply tab_parseLength in H1 as (-> & Hi1 & Hi2). cbn [obind snd] in *.
    apply obind_ok in H as (a & Ha & H). unfold curAddr in Ha |- *. rewrite Hsize, Hbase.
    destruct (N.leb_spec (r_size T1) (idx s1)) as [|Hi3]; [discriminate|]. injection Ha as <-. cbn [obind].
    apply obind_ok in H as ([id s3] & H3 & H). apply tab_parseLength in H3 as (-> & Hi4 & _). cbn [obind].
    apply obind_ok in H as (k & Hk & H).
    cbn [skip add_off idx] in Hi4.
    assert (Hv : tab_view {| v_buf := buf; v_off := r_base T1 + idx s1; v_len := kl |}).
    { unfold tab_view. cbn. pose proof Hk as Hk'. unfold read_local in Hk'. apply read_range_bound in Hk'. cbn in Hk'.
      destruct Hk' as [->|Hk']; [lia|]. rewrite u64_small in Hi4 by (rewrite W64_val; lia). lia. }
    rewrite (tab_read_local _ k Hv Hk). cbn [obind].
    apply obind_ok in H as (fo & Hf & H). rewrite (tab_view_find k acc fo Hacc Hf). cbn [obind].
    apply IH in H; [exact H|]. destruct fo; [exact Hacc|]. apply Forall_app. split; [exact Hacc|]. constructor; [exact Hv|constructor].
  Qed.

  Lemma tab_StringMap buf fuel m : StringMap_Construct T1 buf fuel = Ok m ->
    StringMap_Construct T2 buf fuel = Ok m /\ Forall (fun e => tab_view (fst e)) (sm_map m) /\ sm_re m = None.
  Proof.
    unfold StringMap_Construct. intros H. apply obind_ok in H as ([count s] & H1 & H).
    apply tab_parseLength in H1 as (-> & _). cbn [obind]. apply obind_ok in H as (l & Hl & H).
    apply tab_sm_loop in Hl as [-> Hl]; [|constructor]. cbn [obind]. injection H as <-. auto.
  Qed.

  Lemma tab_numbers fuel : forall count s acc x, parse_numbers T1 fuel count s acc = Ok x -> parse_numbers T2 fuel count s acc = Ok x.
  Proof.
    induction fuel as [|f IH]; intros count s acc x; cbn [parse_numbers]; [discriminate|].
    destruct (count =? 0); [auto|]. intros H. apply obind_ok in H as ([t s1] & H1 & H).
    apply tab_parseLength in H1 as (-> & _). cbn [obind]. auto.
  Qed.

  Lemma tab_si_loop fuel : forall count s acc x, si_construct_loop T1 fuel count s acc = Ok x -> si_construct_loop T2 fuel count s acc = Ok x.
  Proof.
    induction fuel as [|f IH]; intros count s acc x; cbn [si_construct_loop]; [discriminate|].
    destruct (count =? 0); [auto|]. intros H. apply obind_ok in H as ([id s1] & H1 & H).
    apply tab_parseLength in H1 as (-> & _). cbn [obind]. apply obind_ok in H as ([b s2] & H2 & H).
    apply tab_parseLength in H2 as (-> & _). cbn [obind]. apply obind_ok in H as ([bi s3] & H3 & H).
    rewrite (tab_numbers _ _ _ _ _ H3). cbn [obind]. destruct (assoc_find _ _ _); [discriminate|]. auto.
  Qed.

  Lemma tab_SplitInfo fuel x : SplitInfo_Construct T1 fuel = Ok x -> SplitInfo_Construct T2 fuel = Ok x.
  Proof.
    unfold SplitInfo_Construct. intros H. apply obind_ok in H as ([count s] & H1 & H).
    apply tab_parseLength in H1 as (-> & _). cbn [obind]. now apply tab_si_loop.
  Qed.
End TabExt.

(** A table that ends inside the buffer. *)
Lemma secondary_ext c content X t E q :
  secondary_env c content t = Ok (E, q) -> lim c (len (content ++ X)) ->
  exists E', secondary_env c (content ++ X) t = Ok (E', q) /\
    r_cfg E' = r_cfg E /\ r_content E' = content ++ X /\ r_content E = content /\ r_base E' = r_base E /\ r_size E' = r_size E /\
    t < len content /\ r_base E <= len content /\ r_cfg E = c /\ q = u64 (r_base E + r_size E).
Proof.
  intros H HL. pose proof (lim_W32 _ _ HL) as HW. rewrite W32_val in HW. unfold secondary_env, parseLength_str in *.
  apply obind_ok in H as ([L n] & HP & H). rewrite len_app in *.
  destruct (N.leb_spec (len content) t) as [|Ht]; [discriminate|].
  apply obind_ok in HP as ([v k] & Hd & HP). pose proof (decode_small _ _ _ _ _ _ Hd) as Hk.
  rewrite u64_small in HP by (rewrite W64_val; lia).
  destruct (N.ltb_spec (len content) (t + k)) as [|Hle]; [discriminate|]. injection HP as <- <-.
  replace (len content + len X <=? t) with false by lia.
  edestruct (decode_ext c content X) as [-> _]; [|exact Hd|exact Hle|].
  { rewrite !sub64_small by (rewrite ?W64_val; lia). rewrite !to_int64_small by (change (2 ^ 63) with 9223372036854775808; lia).
    destruct (ndebug c) eqn:Hnd; [now left|right]. unfold lim in HL. rewrite Hnd in HL. change (2 ^ 31) with 2147483648 in HL.
    rewrite !to_int32_small by lia. lia. }
  cbn [obind]. rewrite u64_small by (rewrite W64_val; lia). replace (_ <? t + k) with false by lia. cbn [obind fst snd] in *.
  injection H as <- <-. eexists. split; [reflexivity|]. cbn.
  rewrite !(u64_small (t + k)) by (rewrite W64_val; lia). repeat split; lia.
Qed.
