(** * Property C80: the parallel parser on hostile block tables. *)
From Verif Require Import Base BaseLemmas ModelVarint ModelData ModelSecondary ModelObject
  ModelParse ModelWrapper Spec SpecApi VarintProofs Wire NumProofs SeriProofs SeriProofs2 DocProofs ObjInd ParseLemmas
  NormalProofs SecondaryProofs ValueProofs ParaProofs RoundTrip GeneralProofs ApiProofs Samples PropRoundTrip PropDocument PropHostile FrameProofs PropTamper
  PropContainers PropCanonical Lenient LenientProofs LenientTables PropLenient PropAmplify.
From Coq Require Import ZifyBool ZifyNat ZifyN.

(** One level of the family: read from its first or from its second byte it is an
    array split into two blocks of one byte each, the first bytes of the next level. *)
Definition level : bytes := str [130; 130; 0; 1].
Definition leaf : bytes := str [0; 0; 0; 0].
Fixpoint tower (k : nat) : bytes := match k with O => leaf | S k' => level ++ tower k' end.
Definition tower_info : list (N * list N) := [(0, [1]); (1, [1; 1])].
Definition tower_body (k : nat) : bytes := str [1] ++ str [0] ++ (str [4] ++ root_key) ++ tower k.
Definition tower_doc (k : nat) : bytes :=
  be_bytes 8 (10 + len (tower_body k)) ++ [n2b 0] ++ [n2b 10] ++ tower_body k ++ section (split_bytes tower_info).

Lemma tower_len k : len (tower k) = 4 * N.of_nat k + 4.
Proof. induction k as [|k IH]; [reflexivity|]. cbn [tower]. rewrite len_app, IH. change (len level) with 4. lia. Qed.
Lemma tower_doc_len k : len (tower_doc k) = 4 * N.of_nat k + 30.
Proof.
  unfold tower_doc, tower_body. rewrite !len_app, tower_len, be_bytes_len, !len_cons. change (len (@nil byte)) with 0.
  change (len (str [1])) with 1. change (len (str [0])) with 1. change (len (str [4])) with 1. change (len root_key) with 4.
  change (len (section (split_bytes tower_info))) with 9. lia.
Qed.

Section Tower.
  Variable E : penv.
  Variable si : split_info.
  Variable get : N -> outcome view.
  Variable parse_ref : bool.
  Notation R := (b_env E).
  Notation content := (r_content (b_env E)).
  Hypothesis Hbase : r_base R = 0.
  Hypothesis Hsize : r_size R = len content.
  Hypothesis Hlim : lim (r_cfg R) (len content).
  Hypothesis Hmap : ModelParse.b_map E = false.
  Hypothesis Hsi : si_info si = tower_info.

  Lemma split_tag i x t fl : stands content i [x] -> b2n x mod 128 = ObjectTypeToChar t -> (b2n x <? 128) = negb fl ->
    parseObjectType_split R (at_ i) = Ok (t, fl, at_ (i + 1)).
  Proof using Hbase Hsize Hlim Hmap get.
    intros Hs Ht Hfl. pose proof (stands_len _ _ _ Hs) as Hl. rewrite len_cons, len_nil in Hl. unfold parseObjectType_split.
    rewrite check_empty_at by (try (rewrite Hsize; exact Hlim); rewrite ?Hsize; lia). cbn [obind].
    rewrite curAddr_at by (rewrite Hsize; lia). cbn [obind]. rewrite Hbase, N.add_0_l.
    assert (read_byte content i = Ok x) as -> by (apply read_byte_stands; [lia|exact Hs]). cbn [obind].
    rewrite (skip_at R) by (try (rewrite Hsize; exact Hlim); rewrite ?Hsize; lia). rewrite ParseLemmas.check_oor_ok by (cbn; rewrite Hsize; lia). cbn [obind].
    rewrite (add_off_at R) by (try (rewrite Hsize; exact Hlim); rewrite ?Hsize; lia). rewrite land127 by apply b2n_lt.
    apply CharToObjectType_inv in Ht. rewrite Ht. do 3 f_equal.
    clear - Hfl. destruct x; destruct fl; vm_compute in Hfl |- *; congruence.
  Qed.

  Lemma leaf_value i : stands content i (str [0; 0; 0]) -> i + 3 < len content -> forall f, (2 <= f)%nat ->
    exists o, run get (block_value E si f parse_ref (at_ i)) = Ok (o, at_ (i + 3)) /\ nodes o = 1.
  Proof using Hbase Hsize Hlim Hmap.
    intros Hs Hlt f Hf. destruct f as [|[|f]]; [lia|lia|]. rewrite block_value_S, run_bind, run_lift.
    pose proof (lim_W32 _ _ Hlim) as HW. rewrite W32_val in HW.
    change (str [0; 0; 0]) with ([n2b 0] ++ [n2b 0] ++ str [0]) in Hs.
    rewrite (split_tag i (n2b 0) TData false) by (try reflexivity; eapply stands_l; exact Hs). cbn [obind].
    apply stands_r in Hs. change (len [n2b 0]) with 1 in Hs. cbn [valueParse]. unfold Data_valueParse.
    rewrite run_bind, run_lift. rewrite (parseDataType_complete E Hbase Hsize Hlim (i + 1) (n2b 0)) by (eapply stands_l; exact Hs). cbn [obind].
    change (b2n (n2b 0)) with 0. cbn [valid_data_type negb]. change (valid_data_type 0) with true. cbn [negb]. change (0 =? BRIDGE_STRING) with false. cbn [andb].
    rewrite run_bind, run_lift. apply stands_r in Hs. change (len [n2b 0]) with 1 in Hs.
    rewrite (parseLength_complete E Hbase Hsize Hlim (i + 1 + 1) 0 (str [0])); [|vint_tac|exact Hs]. cbn [obind]. change (len (str [0])) with 1.
    rewrite run_bind, run_lift. rewrite curAddr_at by (rewrite Hsize; lia). cbn [obind].
    rewrite run_bind, run_lift.
    assert (Hd : exists d, (if parse_ref then parseData_view (r_cfg R) content (b_buf E) 0 (r_base R + (i + 1 + 1 + 1)) 0
                            else parseData (r_cfg R) content 0 (r_base R + (i + 1 + 1 + 1)) 0) = Ok d).
    { destruct parse_ref; eexists; [reflexivity|]. unfold parseData. cbn [orb]. change (0 =? BRIDGE_BYTES) with true. cbn [orb]. unfold read_range. reflexivity. }
    destruct Hd as [d ->]. cbn [obind]. rewrite run_bind, run_lift.
    rewrite ParseLemmas.check_oor_ok by (cbn; rewrite u64_small by (rewrite W64_val; lia); rewrite Hsize; lia). cbn [obind run].
    eexists. split.
    - do 2 f_equal. unfold add_off, skip, at_. cbn. rewrite !u64_small by (rewrite W64_val; lia). f_equal; lia.
    - now destruct parse_ref.
  Qed.

  (** Reading one byte range as a block of an array. *)
  Lemma one_block f i e o s : run get (block_value E si f parse_ref (at_ i)) = Ok (o, s) -> i < e -> e <= off s ->
    (1 <= f)%nat ->
    run get (ParseArrayBlock E si (S f) parse_ref e (at_ i) [] 0) = Ok (BArr [o] 1).
  Proof using Hbase Hsize Hlim Hmap get.
    intros H H1 H2 Hf. rewrite ParseArrayBlock_S. cbn [off at_]. replace (i <? e) with true by lia. rewrite run_bind, H. cbn [obind].
    destruct f as [|f]; [lia|]. rewrite ParseArrayBlock_S. replace (off s <? e) with false by lia. reflexivity.
  Qed.

  Definition floor_of (k : nat) (i d : N) (f : nat) : Prop :=
    exists o s, run get (block_value E si f parse_ref (at_ (i + d))) = Ok (o, s) /\ i + 2 <= off s /\ nodes o = 2 ^ (N.of_nat k + 1) - 1.

  Lemma tower_value k : forall i f, stands content i (tower k) -> i + len (tower k) < len content -> (3 * k + 2 <= f)%nat ->
    floor_of k i 0 f /\ floor_of k i 1 f.
  Proof using Hbase Hsize Hlim Hmap Hsi.
    pose proof (lim_W32 _ _ Hlim) as HW. rewrite W32_val in HW.
    induction k as [|k IH]; intros i f Hs Hlt Hf.
    - change (tower 0) with leaf in *. change (len leaf) with 4 in Hlt.
      split.
      + destruct (leaf_value (i + 0)) with (f := f) as (o & Ho & Hn); [|lia|lia|].
        * rewrite N.add_0_r. change leaf with (str [0; 0; 0] ++ str [0]) in Hs. eapply stands_l; exact Hs.
        * exists o, (at_ (i + 0 + 3)). split; [exact Ho|]. split; [cbn [off at_]; lia|]. now rewrite Hn.
      + destruct (leaf_value (i + 1)) with (f := f) as (o & Ho & Hn); [|lia|lia|].
        * change leaf with (str [0] ++ str [0; 0; 0]) in Hs. eapply stands_r in Hs. exact Hs.
        * exists o, (at_ (i + 1 + 3)). split; [exact Ho|]. split; [cbn [off at_]; lia|]. now rewrite Hn.
    - cbn [tower] in Hs, Hlt. rewrite len_app in Hlt. change (len level) with 4 in Hlt.
      destruct f as [|[|[|f]]]; [lia|lia|lia|].
      pose proof (stands_r _ _ _ _ Hs) as Ht. change (len level) with 4 in Ht. apply stands_l in Hs.
      destruct (IH (i + 4) f Ht) as [(o0 & s0 & R0 & F0 & N0) (o1 & s1 & R1 & F1 & N1)]; [lia|lia|].
      rewrite N.add_0_r in R0.
      assert (B0 : run get (ParseArrayBlock E si (S f) parse_ref (i + 5) (at_ (i + 4)) [] 0) = Ok (BArr [o0] 1))
        by (apply one_block with (s := s0); [exact R0|lia|lia|lia]).
      assert (B1 : run get (ParseArrayBlock E si (S f) parse_ref (i + 6) (at_ (i + 5)) [] 0) = Ok (BArr [o1] 1)).
      { apply one_block with (s := s1); [replace (i + 5) with (i + 4 + 1) by lia; exact R1|lia|lia|lia]. }
      assert (HA : forall j n b, vint n b -> stands content j b -> stands content (j + len b) (str [1]) -> j + len b + 1 = i + 4 ->
                 run get (ParseArray E si (S (S f)) parse_ref j) = Ok (OArray CoroFrame 2 [o0; o1], i + 6)).
      { intros j n b Hv Hb H1 Hj. rewrite ParseArray_S. cbv zeta. change {| idx := j; off := j |} with (at_ j).
        rewrite run_bind, run_lift. rewrite (parseLength_complete E Hbase Hsize Hlim j n b Hv Hb). cbn [obind].
        rewrite run_bind, run_lift. rewrite (parseLength_complete E Hbase Hsize Hlim (j + len b) 1 (str [1])); [|vint_tac|exact H1]. cbn [obind].
        rewrite run_bind, run_lift. unfold GetBlockInfoFromId. rewrite Hsi. change (assoc_find N.eqb (u32 1) tower_info) with (Some [1; 1]). cbn [obind].
        cbn [ranges idx at_]. change (len (str [1])) with 1. rewrite Hj.
        rewrite !u64_small by (rewrite W64_val; rewrite ?u64_small by (rewrite W64_val; lia); lia).
        replace (i + 4 + 1) with (i + 5) by lia. replace (i + 5 + 1) with (i + 6) by lia.
        rewrite run_PPar. cbn [map fst snd]. change {| idx := i + 4; off := i + 4 |} with (at_ (i + 4)). change {| idx := i + 5; off := i + 5 |} with (at_ (i + 5)).
        rewrite B0, B1. reflexivity. }
      assert (Hn : nodes (OArray CoroFrame 2 [o0; o1]) = 2 ^ (N.of_nat (S k) + 1) - 1).
      { cbn [nodes map fold_right]. rewrite N0, N1. replace (N.of_nat (S k) + 1) with (1 + (N.of_nat k + 1)) by lia. rewrite (N.pow_add_r 2 1 (N.of_nat k + 1)). change (2 ^ 1) with 2.
        assert (H2 : 2 ^ (N.of_nat k + 1) <> 0) by (apply N.pow_nonzero; discriminate). revert H2. generalize (2 ^ (N.of_nat k + 1)). clear. intros m Hm.
        lia. }
      assert (HV : forall d n b, stands content (i + d) [n2b 130] -> vint n b -> stands content (i + d + 1) b -> stands content (i + d + 1 + len b) (str [1]) ->
                 d + 1 + len b + 1 = 4 -> floor_of (S k) i d (S (S (S f)))).
      { intros d n b H0 Hv Hb H1 Hd. exists (OArray CoroFrame 2 [o0; o1]), (at_ (i + 6)). split; [|split; [cbn [off at_]; lia|exact Hn]].
        rewrite block_value_S, run_bind, run_lift. rewrite (split_tag (i + d) (n2b 130) TArray true) by (auto; reflexivity). cbn [obind]. cbn [idx at_].
        rewrite run_bind. rewrite (HA (i + d + 1) n b); auto; lia. }
      split.
      + apply (HV 0 2 (str [130; 0])); try reflexivity.
        * rewrite N.add_0_r. change level with ([n2b 130] ++ str [130; 0; 1]) in Hs. eapply stands_l; exact Hs.
        * vint_tac.
        * rewrite N.add_0_r. change level with ([n2b 130] ++ str [130; 0] ++ str [1]) in Hs. apply stands_r, stands_l in Hs. exact Hs.
        * rewrite N.add_0_r. change level with ([n2b 130] ++ str [130; 0] ++ str [1]) in Hs. apply stands_r, stands_r in Hs. exact Hs.
      + apply (HV 1 0 (str [0])); try reflexivity.
        * change level with ([n2b 130] ++ [n2b 130] ++ str [0; 1]) in Hs. apply stands_r, stands_l in Hs. exact Hs.
        * vint_tac.
        * change level with (str [130; 130] ++ str [0] ++ str [1]) in Hs. apply stands_r, stands_l in Hs.
          replace (i + 1 + 1) with (i + 2) by lia. exact Hs.
        * change level with (str [130; 130; 0] ++ str [1]) in Hs. apply stands_r in Hs. change (len (str [0])) with 1. replace (i + 1 + 1 + 1) with (i + 3) by lia. exact Hs.
  Qed.
End Tower.

Lemma tower_value_root E si get (pr : bool) k : r_base (b_env E) = 0 -> r_size (b_env E) = len (r_content (b_env E)) ->
  lim (r_cfg (b_env E)) (len (r_content (b_env E))) -> ModelParse.b_map E = false -> si_info si = tower_info ->
  stands (r_content (b_env E)) 10 (tower_body k) -> 10 + len (tower_body k) < len (r_content (b_env E)) ->
  forall f, (3 * k + 6 <= f)%nat ->
  exists o sz e, nodes o = 2 ^ (N.of_nat k + 1) - 1 /\
    (if pr then exists v, read_local (b_env E) v = Ok root_key /\ v_buf v = b_buf E /\ run get (ParseMap E si f pr 10) = Ok (OMapView CoroFrame sz [(v, o)], e)
     else run get (ParseMap E si f pr 10) = Ok (OMap CoroFrame sz [(root_key, o)], e)).
Proof.
  intros Hbase Hsize Hlim Hmap Hsi Hs Hlt f Hf. pose proof (lim_W32 _ _ Hlim) as HW. rewrite W32_val in HW.
  destruct f as [|[|[|f]]]; [lia|lia|lia|].
  unfold tower_body in Hs. 
  set (C := r_content (b_env E)) in *.
  assert (Hlt2 : 17 + len (tower k) < len C).
  { unfold tower_body in Hlt. rewrite !len_app in Hlt. change (len (str [1])) with 1 in Hlt. change (len (str [0])) with 1 in Hlt. change (len (str [4])) with 1 in Hlt. change (len root_key) with 4 in Hlt. lia. }
  clear Hlt.
  pose proof (stands_l _ _ _ _ Hs) as S1. apply stands_r in Hs. change (10 + len (str [1])) with 11 in Hs.
  pose proof (stands_l _ _ _ _ Hs) as S2. apply stands_r in Hs. change (11 + len (str [0])) with 12 in Hs.
  pose proof (stands_l _ _ _ _ Hs) as S3. apply stands_r in Hs. change (12 + len (str [4] ++ root_key)) with 17 in Hs.
  pose proof (stands_l _ _ _ _ S3) as S4. apply stands_r in S3. change (12 + len (str [4])) with 13 in S3.
  pose proof (tower_len k) as Htl.
  destruct (tower_value E si get pr Hbase Hsize Hlim Hmap Hsi k 17 (S f) Hs Hlt2) as [(o & s & Ho & Hoff & Hn) _]; [lia|].
  change (17 + 0) with 17 in Ho.
  set (v := {| v_buf := b_buf E; v_off := r_base (b_env E) + 13; v_len := 4 |}).
  assert (Hv : read_local (b_env E) v = Ok root_key).
  { unfold read_local, v. cbn [v_off v_len]. rewrite Hbase. exact (read_range_stands _ _ _ S3). }
  assert (Hk : run get (block_key E (at_ 12)) = Ok (v, at_ 17)).
  { unfold block_key. rewrite Hmap. rewrite run_bind, run_lift. rewrite (parseLength_complete E Hbase Hsize Hlim 12 4 (str [4])); [|vint_tac|exact S4].
    cbn [obind]. change (12 + len (str [4])) with 13. change (u32 4) with 4. rewrite run_bind, run_lift. rewrite curAddr_at by (rewrite Hsize; fold C; lia). reflexivity. }
  exists o, 1, 13. split; [exact Hn|].
  rewrite ParseMap_S. cbv zeta. change {| idx := 10; off := 10 |} with (at_ 10).
  rewrite !run_bind, !run_lift. rewrite (parseLength_complete E Hbase Hsize Hlim 10 1 (str [1])); [|vint_tac|exact S1]. cbn [obind].
  change (10 + len (str [1])) with 11.
  rewrite !run_bind, !run_lift. rewrite (parseLength_complete E Hbase Hsize Hlim 11 0 (str [0])); [|vint_tac|exact S2]. cbn [obind].
  change (11 + len (str [0])) with 12. rewrite !run_bind, !run_lift.
  unfold GetBlockInfoFromId. rewrite Hsi. change (assoc_find N.eqb (u32 0) tower_info) with (Some [1]). cbn [obind].
  change (ranges (idx (at_ 12)) [1]) with ([(12, 13)], 13).
  destruct pr.
  - exists v. split; [exact Hv|]. split; [reflexivity|]. cbn iota. rewrite run_PPar. cbn [map fst snd]. change {| idx := 12; off := 12 |} with (at_ 12).
    rewrite ParseMapViewBlock_S. cbn [off at_]. change (12 <? 13) with true. cbn iota. rewrite run_bind, Hk. cbn [obind]. rewrite run_bind, Ho. cbn [obind].
    rewrite ParseMapViewBlock_S. replace (off s <? 13) with false by lia. reflexivity.
  - cbn iota. rewrite run_PPar. cbn [map fst snd]. change {| idx := 12; off := 12 |} with (at_ 12).
    rewrite ParseMapBlock_S. cbn [off at_]. change (12 <? 13) with true. cbn iota. rewrite run_bind, Hk. cbn [obind]. rewrite run_bind, run_lift, Hv. cbn [obind].
    rewrite run_bind, Ho. cbn [obind].
    rewrite ParseMapBlock_S. replace (off s <? 13) with false by lia. reflexivity.
Qed.

Lemma tower_init c k buf fuel : sane c -> fits c (tower_doc k) -> (length (tower_doc k) <= fuel)%nat ->
  exists sc, initFromContent c fuel (tower_doc k) buf = Ok sc /\ sc_map sc = None /\ sc_need_to_split sc = true /\ si_info (sc_split sc) = tower_info.
Proof.
  intros Hsane HL Hf. assert (HL' : lim c (len (tower_doc k))) by exact HL. clear HL.
  set (hd := be_bytes 8 (10 + len (tower_body k)) ++ [n2b 0] ++ [n2b 10]).
  assert (Hb8 : length (be_bytes 8 (10 + len (tower_body k))) = 8%nat)
    by (pose proof (be_bytes_len 8 (10 + len (tower_body k))); unfold len in *; lia).
  assert (Hd : tower_doc k = (hd ++ tower_body k) ++ section (split_bytes tower_info) ++ []).
  { unfold tower_doc, hd. rewrite app_nil_r, <- !app_assoc. reflexivity. }
  pose proof (tower_doc_len k) as Hlen. pose proof (lim_W32 _ _ HL') as HW. rewrite W32_val in HW.
  assert (Hhb : len (hd ++ tower_body k) = 10 + len (tower_body k)).
  { rewrite len_app. unfold hd. rewrite !len_app, be_bytes_len, !len_cons. change (len (@nil byte)) with 0. lia. }
  unfold initFromContent, meta_size. replace (len (tower_doc k) <? 10) with false by lia.
  unfold ParseTotalSize. replace (len (tower_doc k) <? 8) with false by lia. cbn [obind].
  assert (firstn 8 (tower_doc k) = be_bytes 8 (10 + len (tower_body k))) as ->.
  { unfold tower_doc. apply firstn_app_exact. exact Hb8. }
  assert (nth 8 (tower_doc k) x00 = n2b 0 /\ nth 9 (tower_doc k) x00 = n2b 10) as [-> ->].
  { unfold tower_doc. split; rewrite app_nth2; rewrite Hb8; try lia; reflexivity. }
  rewrite num_of_wire_be.
  2:{ change (2 ^ (8 * 8)) with 18446744073709551616. rewrite <- Hhb. rewrite Hd, len_app in HW. lia. }
  change (b2n (n2b 0) =? SeriTypeToChar NORMAL) with true. cbn iota.
  destruct (secondary_env_ok c (hd ++ tower_body k) (split_bytes tower_info) []) as (E & HE & E1 & E2 & E3 & E4).
  { rewrite <- Hd. exact HL'. }
  rewrite <- Hd, Hhb in HE. rewrite HE. cbn [obind fst snd].
  destruct (SplitInfo_Construct_ok E fuel tower_info ((hd ++ tower_body k) ++ venc (len (split_bytes tower_info))) []) as (si & S1 & S2 & _).
  - rewrite E2. rewrite app_nil_r. unfold section. now rewrite <- !app_assoc.
  - exact E3.
  - exact E4.
  - rewrite E1, E4. eapply lim_le; [|exact HL']. rewrite Hlen. change (len (split_bytes tower_info)) with 8. lia.
  - unfold info_ok, tower_info. rewrite W32_val. repeat constructor.
  - unfold tower_info. cbn. repeat constructor; cbn; intuition discriminate.
  - reflexivity.
  - unfold len in Hlen. change (length (split_bytes tower_info)) with 8%nat. lia.
  - rewrite S1. cbn [obind fst snd]. change (b2n (n2b 10)) with 10. cbn [N.eqb Pos.eqb]. eexists. split; [reflexivity|]. cbn. auto.
Qed.

(** C80 is false of the code: for every [k] a document of [4 k + 30] bytes makes the
    parallel parser, copying or in place, build [2^(k+1) - 1] nodes. *)
Theorem C80_parallel_size_refuted : forall c buf p k pr, sane c ->
  4 * N.of_nat k + 30 < 2 ^ 31 ->
  exists content o, len content = 4 * N.of_nat k + 30 /\
    Parse c (length content) content buf p {| po_type := Coroutine; po_ref := pr |} = Ok o /\
    nodes o = 2 ^ (N.of_nat k + 1) - 1.
Proof.
  intros c buf p k pr Hsane Hk. exists (tower_doc k). pose proof (tower_doc_len k) as Hlen.
  assert (HL : fits c (tower_doc k)).
  { unfold fits. rewrite Hlen. change (2 ^ 31) with 2147483648 in *. change (2 ^ 32) with 4294967296. destruct (ndebug c); lia. }
  destruct (tower_init c k buf (length (tower_doc k)) Hsane HL (le_n _)) as (sc & Hsc & M & S & I).
  assert (HE : stands (tower_doc k) 10 (tower_body k)).
  { exists (be_bytes 8 (10 + len (tower_body k)) ++ [n2b 0] ++ [n2b 10]), (section (split_bytes tower_info)). split; [unfold tower_doc; now rewrite <- !app_assoc|].
    rewrite !len_app, be_bytes_len. reflexivity. }
  destruct (tower_value_root (doc_env c (tower_doc k) buf sc) (sc_split sc) (getter c (sc_map sc)) pr k) with (f := length (tower_doc k))
    as (o & sz & e & Hn & HP); auto.
  - cbn. now rewrite M.
  - cbn [doc_env b_env root_env r_content]. rewrite Hlen. pose proof (tower_len k). unfold tower_body. rewrite !len_app.
    change (len (str [1])) with 1. change (len (str [0])) with 1. change (len (str [4])) with 1. change (len root_key) with 4. lia.
  - unfold len in Hlen. lia.
  - exists o. split; [exact Hlen|]. split; [|exact Hn]. unfold Parse. rewrite Hsc. cbn [obind]. unfold Parse_prog. cbn [po_type po_ref]. rewrite S.
    unfold CoroParse_prog. rewrite run_bind. unfold meta_size. destruct pr.
    + destruct HP as (v & Hv & Hb & ->). cbn [obind]. rewrite run_lift. unfold take_root. unfold MapView_take.
      cbn. unfold read_view. cbn. unfold read_local in Hv. cbn in Hv. rewrite Hv. cbn. reflexivity.
    + rewrite HP. cbn [obind]. rewrite run_lift. reflexivity.
Qed.

(** ** Documents the library writes *)
Lemma fold_add_perm l l' : Permutation l l' -> fold_right N.add 0 l = fold_right N.add 0 l'.
Proof. induction 1; cbn [fold_right]; lia. Qed.

Lemma nodes_denotes mem o : forall v, denotes mem o v -> nodes o = vnodes v.
Proof.
  induction o as [|dt s|dt s|p n l IH|p n l IH|p n l IH] using obj_ind'; intros v H; inversion H; subst; cbn [nodes vnodes]; try reflexivity; f_equal.
  - rewrite <- (fold_add_rev (map vnodes l0)), <- map_rev. clear H.
    match goal with HF : Forall2 _ l (rev l0) |- _ => revert HF end. generalize (rev l0). clear l0. induction IH as [|x l Hx _ IHl]; intros r HF; inversion HF; subst; [reflexivity|].
    cbn [map fold_right]. f_equal; auto.
  - clear H. match goal with HF : Forall2 _ l l0 |- _ => revert l0 HF end. induction IH as [|x l Hx _ IHl]; intros r HF; inversion HF; subst; [reflexivity|].
    cbn [map fold_right]. f_equal; [apply Hx; tauto|auto].
  - clear H. match goal with HF : Forall2 _ l l0 |- _ => revert l0 HF end. induction IH as [|x l Hx _ IHl]; intros r HF; inversion HF; subst; [reflexivity|].
    cbn [map fold_right]. f_equal; [apply Hx; tauto|auto].
Qed.

Lemma vnodes_same v : forall v', same_content v v' -> vnodes v = vnodes v'.
Proof.
  induction v as [x|l IH|l IH] using value_ind'; intros v' H; inversion H; subst; cbn [vnodes]; [reflexivity| |]; f_equal.
  - clear H. match goal with HF : Forall2 _ l ?r |- _ => revert r HF end. induction IH as [|x l Hx _ IHl]; intros r HF; inversion HF; subst; [reflexivity|].
    cbn [map fold_right]. f_equal; auto.
  - match goal with HP : Permutation l ?m, HF : Forall2 _ ?m ?r |- _ => rename HP into HP0; rename HF into HF0; rename m into m1; rename r into r1 end.
    assert (IH' : Forall (fun e => forall v', same_content (snd e) v' -> vnodes (snd e) = vnodes v') m1).
    { rewrite <- HP0. exact IH. }
    rewrite (fold_add_perm _ _ (Permutation_map (fun e => vnodes (snd e)) HP0)). clear - IH' HF0.
    revert r1 HF0. induction IH' as [|x m1 Hx _ IHl]; intros r HF; inversion HF; subst; [reflexivity|].
    cbn [map fold_right]. f_equal; [apply Hx; tauto|auto].
Qed.

(** What is true: a document the library has written is parsed in parallel into no
    more nodes than a third of its bytes, and a document that is not marked as split
    behaves as in C78 and C79. *)
Theorem C80_library_documents_partial : forall cs cp mem ty p o v content buf fuel p' pr,
  sane cs -> sane cp -> denotes mem o v -> (pr = true -> no_custom v) ->
  Serialize cs mem ty p o = Ok content -> fits cp content -> (length content <= fuel)%nat ->
  exists o', Parse cp fuel content buf p' {| po_type := Coroutine; po_ref := pr |} = Ok o' /\ 3 * nodes o' + 10 <= len content.
Proof.
  intros cs cp mem ty p o v content buf fuel p' pr Hcs Hcp Hd Hnc Hs Hf Hfuel.
  destruct (transport cs cp mem ty p o v content [] buf fuel p' {| po_type := Coroutine; po_ref := pr |}) as (o' & v' & HP & Hsc & _ & Hr & _); auto.
  { now rewrite app_nil_r. }
  destruct (transport cs cp mem ty p o v content [] buf fuel p' sequential) as (o1 & v1 & HP1 & Hsc1 & _ & Hr1 & _); auto; try discriminate.
  { now rewrite app_nil_r. }
  rewrite app_nil_r in *. exists o'. split; [exact HP|].
  rewrite (nodes_denotes (fun b => if Nat.eqb b buf then Some content else None) o' v'); [|apply Hr; intros _; now rewrite Nat.eqb_refl].
  rewrite <- (vnodes_same _ _ Hsc), (vnodes_same _ _ Hsc1). rewrite <- (nodes_denotes (fun _ => None) o1 v1); [|apply Hr1; discriminate].
  apply (C79_any_document_quadratic_partial cp fuel content buf p' o1 Hcp Hf HP1).
Qed.

Theorem C80_unsplit_partial : forall c fuel content buf p o, sane c -> fits c content ->
  b2n (nth 9 content x00) = 0 -> Parse c fuel content buf p {| po_type := Coroutine; po_ref := false |} = Ok o ->
  3 * nodes o + 10 <= len content /\ stored o <= (len content + 2) * len content.
Proof.
  intros c fuel content buf p o Hsane HL H9 H.
  assert (H' : Parse c fuel content buf p sequential = Ok o).
  { unfold Parse in *. apply obind_ok in H as (sc & Hsc & H). rewrite Hsc. cbn [obind]. unfold Parse_prog in *. cbn [po_type po_ref] in *.
    assert (Hn : sc_need_to_split sc = false).
    { clear H. unfold initFromContent in Hsc. destruct (len content <? meta_size); [discriminate|]. apply obind_ok in Hsc as (t & _ & Hsc).
      apply obind_ok in Hsc as (x & _ & Hsc). rewrite H9 in Hsc. cbn in Hsc. injection Hsc as <-. reflexivity. }
    now rewrite Hn in H. }
  destruct (C79_any_document_quadratic_partial c fuel content buf p o Hsane HL H') as (A & _ & B). auto.
Qed.

Example C80_met : exists o', Parse x86_release 200 (sample_doc x86_debug NORMAL) 7 p1 {| po_type := Coroutine; po_ref := false |} = Ok o' /\
  len (sample_doc x86_debug NORMAL) > 40.
Proof. eexists. split; [vm_compute; reflexivity|]. vm_compute. reflexivity. Qed.

(** 46 bytes, 31 nodes. *)
Example C80_tower : exists o, Parse x86_release 46 (tower_doc 4) 7 p1 {| po_type := Coroutine; po_ref := false |} = Ok o /\ nodes o = 31 /\ len (tower_doc 4) = 46.
Proof. eexists. split; [vm_compute; reflexivity|]. split; reflexivity. Qed.
