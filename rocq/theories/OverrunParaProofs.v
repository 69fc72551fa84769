(** * The parallel parser and the specification of [OverrunPara.v]. *)
From Verif Require Import Base BaseLemmas ModelVarint ModelData ModelSecondary ModelObject
  ModelParse ModelWrapper Spec SpecApi VarintProofs Wire NumProofs SeriProofs SeriProofs2 DocProofs ObjInd ParseLemmas
  NormalProofs SecondaryProofs ValueProofs ParaProofs GeneralProofs FrameProofs TermProofs
  Lenient LenientPara LenientProofs LenientTables LenientRef PropLenient LenientParaProofs PropInsitu InsituSim InsituBack PropInsituPara Overrun OverrunProofs OverrunPara.
From Coq Require Import ZifyBool ZifyNat ZifyN.

Scheme sh_ind := Induction for split_harms Sort Prop
  with bh_ind := Induction for block_harms Sort Prop
  with ch_ind := Induction for child_harms Sort Prop.
Combined Scheme harms_mut from sh_ind, bh_ind, ch_ind.

Lemma hard_out (l : list (outcome ModelParse.block)) f h : hard_failure l = Some f -> @fail_out obj f = out h -> exists r, In r l /\ r = out h.
Proof.
  induction l as [|r l IH]; [discriminate|]. cbn [hard_failure]. intros H1 H2.
  assert (G : hard_failure l = Some f -> exists r', In r' (r :: l) /\ r' = out h) by (intros H; destruct (IH H H2) as (r' & ? & ?); exists r'; split; [now right|assumption]).
  destruct r; try (apply G; exact H1); injection H1 as <-; destruct h; try discriminate; (eexists; split; [now left|reflexivity]).
Qed.
Lemma hard_some (l : list (outcome ModelParse.block)) r h : In r l -> r = out h -> ~ In Fuel l -> exists f h', hard_failure l = Some f /\ forall A, @fail_out A f = out h'.
Proof.
  induction l as [|x l IH]; [intros []|]. intros Hin Hr HF. cbn [hard_failure].
  destruct x as [b|e| | |]; try (exfalso; apply HF; now left); [| |exists FAbort, FailedAssert; auto|exists FUB, Undefined; auto];
    (destruct Hin as [<-|Hin]; [now destruct h|apply IH; auto; intros ?; apply HF; now right]).
Qed.
Lemma hard_none (l : list (outcome ModelParse.block)) : hard_failure l = None -> Forall (fun r => (exists b, r = Ok b) \/ exists e, r = Throw e) l.
Proof.
  induction l as [|x l IH]; [constructor|]. cbn [hard_failure]. destruct x; try discriminate; intros H; constructor; eauto.
Qed.
Lemma merge_out {A} (mrg : A -> outcome ModelParse.block -> outcome A) h l :
  (forall acc r, In r l -> mrg acc r <> out h) -> forall acc, merge_all mrg acc l <> out h.
Proof.
  induction l as [|r l IH]; intros H acc; cbn [merge_all]; [now destruct h|]. intros HO. apply obind_out in HO as [HO|(a & _ & HO)].
  - now apply H in HO; [|left].
  - revert HO. apply IH. intros; apply H; now right.
Qed.

Section ParaOut.
  Variable E : penv.
  Variable si : split_info.
  Variable get : N -> outcome view.
  Variable D : option (N -> option bytes).
  Variable pr : bool.
  Notation R := (b_env E).
  Notation content := (r_content (b_env E)).
  Notation strict := (negb (ndebug (r_cfg (b_env E)))).
  Notation copying := (negb pr).
  Notation T := (si_info si).
  Hypothesis Hbase : r_base R = 0.
  Hypothesis Hsize : r_size R = len content.
  Hypothesis Hlim : lim (r_cfg R) (len content).
  Hypothesis Hmap : ModelParse.b_map E = match D with Some _ => true | None => false end.
  Hypothesis Hsound : forall d id v s, D = Some d -> get id = Ok v -> read_local R v = Ok s -> d id = Some s.
  Hypothesis Hcomplete : forall d id s, D = Some d -> d id = Some s -> exists v, get id = Ok v /\ read_local R v = Ok s /\ v_buf v = b_buf E.
  Hypothesis Hsafe : forall id, (D <> None -> forall h, get id <> out h) /\ forall v, get id = Ok v -> v_buf v = b_buf E /\ exists s, read_local R v = Ok s.
  Hypothesis Hsmall : small_numbers content.
  Hypothesis Hsi : forall id l, In (id, l) T -> Forall (fun x => x < 2 ^ 32) l /\ len l <= len content.

  Notation bad_field := (bad_field strict content).
  Notation harms := (harms copying strict D content).
  Notation split_harms room := (split_harms copying strict D T content room).
  Notation block_harms room := (block_harms copying strict D T content room).
  Notation child_harms room := (child_harms copying strict D T content room).

  Lemma field_out' h i : parseLength R (at_ i) = out h -> bad_field h i.
  Proof using Hbase Hsize Hlim.
    clear - Hbase Hsize Hlim.
    intros H. destruct (N.leb_spec i (len content)); [now apply (field_out E Hbase Hsize Hlim)|]. exfalso.
    unfold parseLength in H. apply obind_out in H as [H|(? & _ & H)].
    - unfold check_empty in H. destruct (_ <=? _)%Z; destruct h; discriminate.
    - apply obind_out in H as [H|(a & Ha & _)]; [now apply (curaddr_out E) in H|]. unfold curAddr in Ha. rewrite Hsize in Ha. cbn [idx at_] in Ha.
      replace (len content <=? i) with true in Ha by lia. discriminate.
  Qed.
  Lemma splittype_out h s : parseObjectType_split R s <> out h.
  Proof using Hbase Hsize.
    clear - Hbase Hsize.
    intros H. unfold parseObjectType_split in H. apply obind_out in H as [H|(? & _ & H)]; [unfold check_empty in H; destruct (_ <=? _)%Z; destruct h; discriminate|].
    apply obind_out in H as [H|(a & Ha & H)]; [now apply (curaddr_out E) in H|]. unfold curAddr in Ha.
    destruct (N.leb_spec (r_size R) (idx s)); [discriminate|]. injection Ha as <-.
    apply obind_out in H as [H|(b & _ & H)]; [unfold read_byte in H; rewrite Hbase, Hsize in *; replace (0 + idx s <? len content) with true in H by lia; destruct h; discriminate|].
    apply obind_out in H as [H|(? & _ & H)]; [now apply (oor_out E) in H|]. destruct (CharToObjectType _); destruct h; discriminate.
  Qed.
  Lemma u32_mod n : u32 n = n mod 2 ^ 32. Proof. reflexivity. Qed.

  Lemma block_of_ranges : forall sizes b lo hi, b + len sizes * 2 ^ 32 < 2 ^ 64 -> Forall (fun x => x < 2 ^ 32) sizes ->
    In (lo, hi) (fst (ranges b sizes)) <-> block_of b sizes lo hi.
  Proof.
    clear. change (2 ^ 64) with 18446744073709551616. change (2 ^ 32) with 4294967296.
    induction sizes as [|n sizes IH]; intros b lo hi Hb HF.
    - split; [intros []|]. intros (x & m & y & Hx & _). destruct x; discriminate.
    - inversion HF as [|? ? Hn HF']; subst. rewrite len_cons in Hb. rewrite ranges_cons'. cbn [fst In]. rewrite u64_small by (rewrite W64_val; lia).
      rewrite IH by (auto; lia). split.
      + intros [[= <- <-]|(x & m & y & -> & -> & ->)]; [exists [], n, sizes; cbn; repeat split; lia|exists (n :: x), m, y; cbn; repeat split; lia].
      + intros ([|z x] & m & y & Hx & -> & ->); cbn in Hx |- *; injection Hx as -> ->; [left; f_equal; lia|right; exists x, m, y; repeat split; lia].
  Qed.

  Lemma blockkey_out h i : run get (block_key E (at_ i)) = out h -> bad_field h i.
  Proof.
    intros H. unfold block_key in H. rewrite Hmap in H. destruct D as [d|] eqn:HD.
    - rewrite run_bind, run_lift in H. apply obind_out in H as [H|([id s1] & _ & H)]; [now apply field_out'|]. cbn [run] in H.
      apply obind_out in H as [H|(v & _ & H)]; [|now apply ok_out in H]. exfalso. destruct (Hsafe (u32 id)) as [G _]. now apply G in H; [|discriminate].
    - rewrite run_bind, run_lift in H. apply obind_out in H as [H|([n s1] & _ & H)]; [now apply field_out'|].
      rewrite run_bind, run_lift in H. apply obind_out in H as [H|(a & _ & H)]; [now apply (curaddr_out E) in H|now apply ok_out in H].
  Qed.

  (** A key whose characters are not there. *)
  Lemma readkey_out h i kv s : run get (block_key E (at_ i)) = Ok (kv, s) -> read_local R kv = out h ->
    h = Undefined /\ D = None /\ exists n a, number_at content i n a /\ a < len content /\ past_buffer content a (n mod 2 ^ 32).
  Proof.
    intros H Hr. unfold block_key in H. rewrite Hmap in H. destruct D as [d|] eqn:HD.
    - rewrite run_bind, run_lift in H. apply obind_ok in H as ([id s1] & _ & H). cbn [run] in H. apply obind_ok in H as (v & Hg & [= -> _]).
      destruct (Hsafe (u32 id)) as [_ G]. destruct (G _ Hg) as (_ & x & Hx). rewrite Hx in Hr. now destruct h.
    - rewrite run_bind, run_lift in H. apply obind_ok in H as ([n s1] & Hn & H). apply (length_sound E Hbase Hsize Hlim) in Hn as (b & Hv & Hs & -> & Hl & _).
      rewrite run_bind, run_lift in H. apply obind_ok in H as (a & Ha & [= <- _]). unfold curAddr in Ha. rewrite Hsize, Hbase in Ha. cbn [idx at_] in Ha.
      destruct (N.leb_spec (len content) (i + len b)); [discriminate|]. injection Ha as <-. unfold read_local in Hr. cbn [v_off v_len] in Hr. rewrite N.add_0_l in Hr.
      apply (range_out E) in Hr as [-> Hp]; [|lia]. split; [reflexivity|]. split; [reflexivity|]. exists n, (i + len b). split; [exists b; auto|]. split; [lia|exact Hp].
  Qed.

  Lemma value_done fuel i o s : run get (block_value E si fuel pr (at_ i)) = Ok (o, s) ->
    exists v j, pval content strict D T i v j /\ readable copying v /\ s = at_ j.
  Proof.
    intros H. assert (G : exists o', run get (block_value E si fuel false (at_ i)) = Ok (o', s) /\ (pr = true -> custom_obj o' = false)).
    { destruct pr; [|exists o; split; [exact H|discriminate]].
      destruct (para_back E si get Hbase Hsize Hlim (fun id v => proj2 (Hsafe id) v) (tame_small E Hbase Hsize Hlim Hsmall) fuel) as (_ & _ & PB & _).
      apply PB in H as (o' & j & H & He & _). exists o'. split; [exact H|]. intros _. eapply echo_no_custom; exact He. }
    destruct G as (o' & Ho & Hc). destruct (para_sound E si get D Hbase Hsize Hlim Hmap Hsound Hsi fuel) as (_ & _ & PV & _).
    apply PV in Ho as (v & j & Hv & -> & -> & _). exists v, j. split; [exact Hv|]. split; [|reflexivity].
    intros Hp. apply has_custom_no. rewrite <- (custom_tree CoroFrame). apply Hc. now destruct pr.
  Qed.

  Lemma ablock_shape fuel : forall pr' e s acc n r, run get (ParseArrayBlock E si fuel pr' e s acc n) = Ok r -> exists l m, r = BArr l m.
  Proof using Type.
    induction fuel as [|f IH]; intros pr' e s acc n r H; [discriminate|]. rewrite ParseArrayBlock_S in H. destruct (off s <? e); [|injection H as <-; eauto].
    rewrite run_bind in H. apply obind_ok in H as ([o s'] & _ & H). eauto.
  Qed.
  Lemma mblock_shape fuel : forall e s acc n r, run get (ParseMapBlock E si fuel e s acc n) = Ok r -> exists l m, r = BMap l m.
  Proof using Type.
    induction fuel as [|f IH]; intros e s acc n r H; [discriminate|]. rewrite ParseMapBlock_S in H. destruct (off s <? e); [|injection H as <-; eauto].
    rewrite run_bind in H. apply obind_ok in H as ([o s'] & _ & H). rewrite run_bind, run_lift in H. apply obind_ok in H as (k & _ & H).
    rewrite run_bind in H. apply obind_ok in H as ([o' s2] & _ & H). eauto.
  Qed.
  Lemma vblock_shape fuel : forall e s acc n r, run get (ParseMapViewBlock E si fuel e s acc n) = Ok r -> exists l m, r = BMapView l m.
  Proof using Type.
    induction fuel as [|f IH]; intros e s acc n r H; [discriminate|]. rewrite ParseMapViewBlock_S in H. destruct (off s <? e); [|injection H as <-; eauto].
    rewrite run_bind in H. apply obind_ok in H as ([o s'] & _ & H).
    rewrite run_bind in H. apply obind_ok in H as ([o' s2] & _ & H). eauto.
  Qed.

  (** A container: count, id, blocks. *)
  Lemma container_out {A} h t i (task : N -> N -> prog ModelParse.block) (k : N -> list (outcome ModelParse.block) -> prog A) : t <> TData ->
    (forall lo hi, run get (task lo hi) = out h -> block_harms content h t lo hi) ->
    (forall last rs, hard_failure (map (fun be => run get (task (fst be) (snd be))) rs) = None ->
       run get (k last (map (fun be => run get (task (fst be) (snd be))) rs)) <> out h) ->
    run get ('(_, s1) <- lift (parseLength R (at_ i)) ;;
             '(id, s2) <- lift (parseLength R s1) ;;
             block_info <- lift (GetBlockInfoFromId si (u32 id)) ;;
             let (rs, last) := ranges (idx s2) block_info in
             PPar (map (fun be => task (fst be) (snd be)) rs) (k last))%prog = out h ->
    split_harms content h t i.
  Proof.
    intros Ht Htask Hk H. rewrite run_bind, run_lift in H. apply obind_out in H as [H|([n s1] & Hn & H)]; [apply sh_count; auto using field_out'|].
    apply (length_sound E Hbase Hsize Hlim) in Hn as (b & Hv & Hs & -> & Hl & Hp).
    assert (Hna : number_at content i n (i + len b)) by (exists b; auto).
    rewrite run_bind, run_lift in H. apply obind_out in H as [H|([id s2] & Hn & H)]; [apply sh_id with (n := n) (a := i + len b); auto using field_out'|].
    apply (length_sound E Hbase Hsize Hlim) in Hn as (b2 & Hv2 & Hs2 & -> & Hl2 & Hp2).
    assert (Hnb : number_at content (i + len b) id (i + len b + len b2)) by (exists b2; auto).
    rewrite run_bind, run_lift in H. apply obind_out in H as [H|(sizes & Hin & H)]; [unfold GetBlockInfoFromId in H; destruct (assoc_find _ _ _); destruct h; discriminate|].
    apply info_sound in Hin. destruct (Hsi _ _ Hin) as [HF32 Hcount]. cbn [idx at_] in H.
    destruct (ranges (i + len b + len b2) sizes) as [rs last] eqn:Hr. rewrite run_PPar in H.
    rewrite map_map in H. destruct (hard_failure _) as [f|] eqn:Hh; [|now apply Hk in H].
    assert (Hf : @fail_out obj f = out h) by (destruct f, h; cbn in H |- *; congruence).
    destruct (hard_out _ _ _ Hh Hf) as (r & Hri & Hro). apply in_map_iff in Hri as ([lo hi] & Hrun & Hbe). cbn [fst snd] in Hrun.
    eapply sh_block; [exact Ht|exact Hna|exact Hnb|exact Hin| |].
    - apply block_of_ranges; [|exact HF32|rewrite Hr; exact Hbe].
      pose proof (HW E Hlim). change (2 ^ 64) with 18446744073709551616. change (2 ^ 32) with 4294967296. nia.
    - apply Htask. congruence.
  Qed.

  Lemma para_out h fuel :
    (forall i, run get (ParseArray E si fuel pr i) = out h -> split_harms content h TArray i) /\
    (forall i, run get (ParseMap E si fuel pr i) = out h -> split_harms content h TMap i) /\
    (forall i, run get (block_value E si fuel pr (at_ i)) = out h -> child_harms content h i) /\
    (forall e i acc n, run get (ParseArrayBlock E si fuel pr e (at_ i) acc n) = out h -> block_harms content h TArray i e) /\
    (forall e i acc n, pr = false -> run get (ParseMapBlock E si fuel e (at_ i) acc n) = out h -> block_harms content h TMap i e) /\
    (forall e i acc n, pr = true -> run get (ParseMapViewBlock E si fuel e (at_ i) acc n) = out h -> block_harms content h TMap i e).
  Proof.
    induction fuel as [|f (IHA & IHM & IHV & IHAB & IHMB & IHVB)]; [repeat split; intros; exfalso; match goal with H : run _ _ = _ |- _ => cbn in H; now destruct h end|].
    split; [|split; [|split; [|split; [|split]]]].
    - intros i H. rewrite ParseArray_S in H. cbv zeta in H. change {| idx := i; off := i |} with (at_ i) in H.
      eapply (container_out h TArray i (fun lo hi => ParseArrayBlock E si f pr hi (at_ lo) [] 0)
               (fun last objs => '(items, size) <- lift (merge_all merge_arr ([], 0) (rev objs)) ;; PRet (OArray CoroFrame size items, last))%prog); [discriminate| | |exact H].
      + intros lo hi. apply IHAB.
      + intros last rs Hh. rewrite run_bind, run_lift. intros HO. apply obind_out in HO as [HO|([] & _ & HO)]; [|now apply ok_out in HO].
        revert HO. apply merge_out. intros acc r Hin. apply in_rev in Hin. apply hard_none in Hh. rewrite Forall_forall in Hh. pose proof (Hh r Hin) as [(b & ->)|(e & ->)]; [|now destruct h].
        apply in_map_iff in Hin as (be & Hb & _). apply ablock_shape in Hb as (l & m & ->). cbn. now destruct h.
    - intros i H. rewrite ParseMap_S in H. cbv zeta in H. change {| idx := i; off := i |} with (at_ i) in H.
      assert (Hpr : pr = true \/ pr = false) by (destruct pr; auto). destruct Hpr as [Hpr|Hpr]; rewrite Hpr in H.
      + eapply (container_out h TMap i (fun lo hi => ParseMapViewBlock E si f hi (at_ lo) [] 0)
               (fun last objs => '(items, size) <- lift (merge_all merge_mapview ([], 0) objs) ;; PRet (OMapView CoroFrame size items, last))%prog); [discriminate| | |exact H].
        * intros lo hi. now apply IHVB.
        * intros last rs Hh. rewrite run_bind, run_lift. intros HO. apply obind_out in HO as [HO|([] & _ & HO)]; [|now apply ok_out in HO].
          revert HO. apply merge_out. intros acc r Hin. apply hard_none in Hh. rewrite Forall_forall in Hh. pose proof (Hh r Hin) as [(b & ->)|(e & ->)]; [|now destruct h].
          apply in_map_iff in Hin as (be & Hb & _). apply vblock_shape in Hb as (l & m & ->). cbn. now destruct h.
      + eapply (container_out h TMap i (fun lo hi => ParseMapBlock E si f hi (at_ lo) [] 0)
               (fun last objs => '(items, size) <- lift (merge_all merge_map ([], 0) objs) ;; PRet (OMap CoroFrame size items, last))%prog); [discriminate| | |exact H].
        * intros lo hi. now apply IHMB.
        * intros last rs Hh. rewrite run_bind, run_lift. intros HO. apply obind_out in HO as [HO|([] & _ & HO)]; [|now apply ok_out in HO].
          revert HO. apply merge_out. intros acc r Hin. apply hard_none in Hh. rewrite Forall_forall in Hh. pose proof (Hh r Hin) as [(b & ->)|(e & ->)]; [|now destruct h].
          apply in_map_iff in Hin as (be & Hb & _). apply mblock_shape in Hb as (l & m & ->). cbn. now destruct h.
    - intros i H. rewrite block_value_S in H. rewrite run_bind, run_lift in H. apply obind_out in H as [H|([[t fl] s1] & Ht & H)]; [now apply splittype_out in H|].
      apply (tag_sound E Hbase Hsize Hlim) in Ht as (x & Hx & Ht & Hfl & -> & Hi). destruct fl.
      + apply (tag_split _ _ Ht) in Hfl. cbn [idx at_] in H. destruct t; [now apply throw_out in H| |];
          rewrite run_bind in H; (apply obind_out in H as [H|([] & _ & H)]; [|now apply ok_out in H]); eapply ch_split; eauto.
      + destruct (values_out E get D CoroFrame pr Hbase Hsize Hlim Hmap Hsound) with (h := h) (fuel := f) as (VO & _); auto.
        { intros HD id. destruct (Hsafe id) as [G1 G2]. split; [now apply G1|]. intros v Hg. now apply G2. }
        apply VO in H; [|lia]. eapply ch_whole; eauto. rewrite <- Ht. symmetry. apply N.mod_small. cbn in Hfl. lia.
    - intros e i acc n H. rewrite ParseArrayBlock_S in H. cbn [off at_] in H. destruct (N.ltb_spec i e); [|now apply ok_out in H].
      rewrite run_bind in H. apply obind_out in H as [H|([o s] & Hv & H)]; [apply bh_element; auto|].
      apply value_done in Hv as (v & j & Hv & Hc & ->). eapply bh_elements; eauto.
    - intros e i acc n Hpr H. rewrite ParseMapBlock_S in H. cbn [off at_] in H. destruct (N.ltb_spec i e); [|now apply ok_out in H].
      rewrite run_bind in H. apply obind_out in H as [H|([kv s] & Hk & H)]; [apply bh_key; auto using blockkey_out|].
      rewrite run_bind, run_lift in H. apply obind_out in H as [H|(key & Hr & H)].
      { destruct (readkey_out _ _ _ _ Hk H) as (-> & HD & m & a & H1 & H2 & H3). eapply bh_key_end; eauto. now rewrite Hpr. }
      rewrite <- Hpr in H. rewrite run_bind in H.
      assert (Hj : exists j, pkey content D i key j /\ s = at_ j).
      { assert (Htg : exists t fl s2, parseObjectType_split R s = Ok (t, fl, s2)).
        { clear - H Hbase Hsize. apply obind_out in H as [H|([o s'] & H & _)]; (destruct f as [|f]; [now destruct h|]); rewrite block_value_S in H; rewrite run_bind, run_lift in H.
          - apply obind_out in H as [H|([[t fl] s2] & H & _)]; [now apply splittype_out in H|eauto].
          - apply obind_ok in H as ([[t fl] s2] & H & _). eauto. }
        destruct Htg as (t & fl & s2 & Htg). destruct (blockkey_sound E get D Hbase Hsize Hlim Hmap Hsound _ _ _ _ _ _ _ Hk Hr Htg) as (j & Hkey & -> & _). eauto. }
      destruct Hj as (j & Hkey & ->). apply obind_out in H as [H|([o s'] & Hv & H)]; [eapply bh_entry; eauto|].
      apply value_done in Hv as (v & j' & Hv & Hc & ->). eapply bh_entries; eauto.
    - intros e i acc n Hpr H. rewrite ParseMapViewBlock_S in H. cbn [off at_] in H. destruct (N.ltb_spec i e); [|now apply ok_out in H].
      rewrite run_bind in H. apply obind_out in H as [H|([kv s] & Hk & H)]; [apply bh_key; auto using blockkey_out|].
      rewrite <- Hpr in H. rewrite run_bind in H.
      assert (Hj : exists key j, pkey content D i key j /\ s = at_ j).
      { assert (Htg : exists t fl s2, parseObjectType_split R s = Ok (t, fl, s2)).
        { clear - H Hbase Hsize. apply obind_out in H as [H|([o s'] & H & _)]; (destruct f as [|f]; [now destruct h|]); rewrite block_value_S in H; rewrite run_bind, run_lift in H.
          - apply obind_out in H as [H|([[t fl] s2] & H & _)]; [now apply splittype_out in H|eauto].
          - apply obind_ok in H as ([[t fl] s2] & H & _). eauto. }
        destruct Htg as (t & fl & s2 & Htg).
        destruct (blockkey_back E get Hbase Hsize Hlim (fun id v => proj2 (Hsafe id) v) _ _ _ _ _ _ Hk Htg) as (_ & (key & Hr) & _).
        destruct (blockkey_sound E get D Hbase Hsize Hlim Hmap Hsound _ _ _ _ _ _ _ Hk Hr Htg) as (j & Hkey & -> & _). eauto. }
      destruct Hj as (key & j & Hkey & ->). apply obind_out in H as [H|([o s'] & Hv & H)]; [eapply bh_entry; eauto|].
      apply value_done in Hv as (v & j' & Hv & Hc & ->). eapply bh_entries; eauto.
  Qed.
End ParaOut.

Section ParaLeads.
  Variable E : penv.
  Variable si : split_info.
  Variable get : N -> outcome view.
  Variable D : option (N -> option bytes).
  Variable pr : bool.
  Variables room tail : bytes.
  Notation R := (b_env E).
  Notation content := (r_content (b_env E)).
  Notation strict := (negb (ndebug (r_cfg (b_env E)))).
  Notation copying := (negb pr).
  Notation T := (si_info si).
  Hypothesis Hbase : r_base R = 0.
  Hypothesis Hsize : r_size R = len content.
  Hypothesis Hlim : lim (r_cfg R) (len content).
  Hypothesis Hlen : len content < 2 ^ 31.
  Hypothesis Hmap : ModelParse.b_map E = match D with Some _ => true | None => false end.
  Hypothesis Hsound : forall d id v s, D = Some d -> get id = Ok v -> read_local R v = Ok s -> d id = Some s.
  Hypothesis Hcomplete : forall d id s, D = Some d -> d id = Some s -> exists v, get id = Ok v /\ read_local R v = Ok s /\ v_buf v = b_buf E.
  Hypothesis Hsafe : forall id, (D <> None -> forall h, get id <> out h) /\ forall v, get id = Ok v -> v_buf v = b_buf E /\ exists s, read_local R v = Ok s.
  Hypothesis Hgetf : forall id, get id <> Fuel.
  Hypothesis Hsmall : small_numbers content.
  Hypothesis Hsi : forall id l, In (id, l) T -> Forall (fun x => x < 2 ^ 32) l /\ len l <= len content.
  Hypothesis Hnd : NoDup (map fst T).
  Hypothesis Hroom : content = room ++ tail.
  Hypothesis Htail : tail <> [].

  Notation split_harms := (split_harms copying strict D T content room).
  Notation block_harms := (block_harms copying strict D T content room).
  Notation child_harms := (child_harms copying strict D T content room).

  Lemma number_ok i n a : number_at content i n a -> parseLength R (at_ i) = Ok (n, at_ a).
  Proof using Hbase Hsize Hlim. clear - Hbase Hsize Hlim. intros (b & Hv & Hs & ->). apply (parseLength_complete E Hbase Hsize Hlim); auto. Qed.

  Lemma ends_fuel {A} (x : outcome A) Q : ends x Q -> x <> Fuel.
  Proof using Type. intros H ->. exact H. Qed.

  Lemma nofuel : let bound fuel i := (length content + 2 <= fuel + N.to_nat i)%nat in forall fuel,
    (forall e i, bound fuel i -> (2 <= fuel)%nat -> run get (ParseArrayBlock E si fuel pr e (at_ i) [] 0) <> Fuel) /\
    (forall e i, pr = false -> bound fuel i -> (2 <= fuel)%nat -> run get (ParseMapBlock E si fuel e (at_ i) [] 0) <> Fuel) /\
    (forall e i, pr = true -> bound fuel i -> (2 <= fuel)%nat -> run get (ParseMapViewBlock E si fuel e (at_ i) [] 0) <> Fuel).
  Proof.
    intros bound fuel. destruct (blocks_nf E get Hgetf Hlen Hbase Hsize pr) with (si := si) (fuel := fuel) as (_ & _ & BA & BM & BV).
    { left. exact (tame_small E Hbase Hsize Hlim Hsmall). }
    { apply Forall_forall. intros [id l] Hin. cbn [snd]. destruct (Hsi id l Hin) as [H1 H2]. split; [exact H1|]. lia. }
    assert (HL : forall i, bound fuel i -> (2 <= fuel)%nat -> (left_ E (at_ i) + 2 <= fuel)%nat).
    { intros i Hb H2. unfold bound in Hb. unfold left_. cbn [idx at_]. rewrite Hsize. unfold len. lia. }
    split; [|split]; intros; eapply ends_fuel; [apply BA|apply BM|apply BV]; auto.
  Qed.

  Lemma value_ok fuel i v j : pval room strict D T i v j -> readable copying v -> len content - i <= N.of_nat fuel ->
    exists o, run get (block_value E si fuel pr (at_ i)) = Ok (o, at_ j).
  Proof.
    intros Hv Hc Hf. destruct (para_complete E si get D room tail Hbase Hsize Hlim Hmap) with (fuel := fuel) as (_ & _ & PV & _); auto.
    { intros d id s HD Hd. destruct (Hcomplete d id s HD Hd) as (w & G1 & G2 & _). eauto. }
    specialize (PV i v j Hv Hf). destruct pr eqn:Hpr; [|eauto].
    destruct (para_sim E si get (fun id v Hg => proj1 (proj2 (Hsafe id) v Hg)) fuel) as (_ & _ & PS & _). apply PS in PV.
    rewrite custom_tree in PV. specialize (Hc eq_refl). apply has_custom_no in Hc. rewrite Hc in PV. destruct PV as (o & Ho & _). eauto.
  Qed.

  Lemma key_ok i k j : pkey room D i k j -> exists kv, run get (block_key E (at_ i)) = Ok (kv, at_ j) /\ read_local R kv = Ok k.
  Proof.
    intros Hk. eapply (blockkey_complete E get D room tail Hbase Hsize Hlim Hmap); eauto.
    intros d id s HD Hd. destruct (Hcomplete d id s HD Hd) as (w & G1 & G2 & _). eauto.
  Qed.
  Lemma key_ok' i k j : pkey content D i k j -> j < len content -> exists kv, run get (block_key E (at_ i)) = Ok (kv, at_ j) /\ read_local R kv = Ok k.
  Proof.
    intros Hk Hj. assert (Hne : content <> []).
    { intros Hn. rewrite Hn in Hj. rewrite len_nil in Hj. lia. }
    destruct (exists_last Hne) as (room' & x & Hx).
    assert (G : forall b, Overrun.found content i b -> i + len b < len content -> Overrun.found room' i b).
    { clear - Hx. intros b (A & B & HA & Hl) Hlt. rewrite HA, !len_app in Hlt. destruct (@exists_last _ B) as (B' & y & ->); [intros ->; rewrite len_nil in Hlt; lia|].
      rewrite HA in Hx. rewrite !app_assoc in Hx. apply app_inj_tail in Hx as [<- _]. exists A, B'. rewrite <- app_assoc. auto. }
    apply (blockkey_complete E get D room' [x] Hbase Hsize Hlim Hmap); auto; try discriminate.
    - intros d id s HD Hd. destruct (Hcomplete d id s HD Hd) as (w & G1 & G2 & _). eauto.
    - destruct Hk as [i n l k H1 H2 H3 H4|d i id l k H1 H2 H3 H4]; [eapply pk_plain; eauto; now apply G|eapply pk_dict; eauto; now apply G].
  Qed.

  Lemma container_leads {A} i n a id b sizes lo hi (task : N -> N -> prog ModelParse.block) (k : N -> list (outcome ModelParse.block) -> prog A) :
    number_at content i n a -> number_at content a id b -> In (id mod 2 ^ 32, sizes) T -> block_of b sizes lo hi ->
    (exists h, run get (task lo hi) = out h) -> (forall lo hi, b <= lo -> run get (task lo hi) <> Fuel) ->
    exists h, run get ('(_, s1) <- lift (parseLength R (at_ i)) ;;
             '(id, s2) <- lift (parseLength R s1) ;;
             block_info <- lift (GetBlockInfoFromId si (u32 id)) ;;
             let (rs, last) := ranges (idx s2) block_info in
             PPar (map (fun be => task (fst be) (snd be)) rs) (k last))%prog = out h.
  Proof.
    intros Hn Hid Hin Hb (h & Hh) HF. rewrite run_bind, run_lift, (number_ok _ _ _ Hn). cbn [obind].
    rewrite run_bind, run_lift, (number_ok _ _ _ Hid). cbn [obind]. rewrite run_bind, run_lift, u32_mod, (info_complete si Hnd _ _ Hin). cbn [obind idx at_].
    destruct (Hsi _ _ Hin) as [HF32 Hcount]. pose proof (number_at_pos _ _ _ _ Hid) as Hpos.
    assert (Hcap : b + len sizes * 2 ^ 32 < 2 ^ 64).
    { change (2 ^ 64) with 18446744073709551616. change (2 ^ 32) with 4294967296. change (2 ^ 31) with 2147483648 in Hlen. lia. }
    apply block_of_ranges in Hb; auto.
    assert (HG : Forall (fun be => b <= fst be) (fst (ranges b sizes))).
    { apply Forall_forall. intros [lo0 hi0] H0. apply block_of_ranges in H0 as (x & m & y & _ & -> & _); auto. cbn. lia. }
    destruct (ranges b sizes) as [rs last]. cbn [fst snd] in *. rewrite run_PPar, map_map.
    destruct (hard_some (map (fun be => run get (task (fst be) (snd be))) rs) (run get (task lo hi)) h) as (f & h' & -> & Hf).
    - apply in_map_iff. exists (lo, hi). auto.
    - exact Hh.
    - intros Hin'. apply in_map_iff in Hin' as (be & Hbe & Hin'). rewrite Forall_forall in HG. apply HG in Hin'. now apply HF in Hbe.
    - exists h'. apply Hf.
  Qed.

  Lemma bfield_pos h i : bad_field strict content h i -> i < len content.
  Proof using Type. clear. intros H. destruct H as [i [H _] _|i k _ H1 _ [H2 _] _]; lia. Qed.
  Lemma child_pos h i : child_harms h i -> i < len content.
  Proof. intros [i' x t _ Hs _|i' x t _ Hs _]; apply stands_len in Hs; rewrite len_cons in Hs; lia. Qed.

  Lemma para_leads h :
    (forall t i, split_harms h t i -> forall fuel, (length content + 2 < fuel + N.to_nat i)%nat ->
       (t = TArray -> exists h', run get (ParseArray E si fuel pr i) = out h') /\ (t = TMap -> exists h', run get (ParseMap E si fuel pr i) = out h')) /\
    (forall t i e, block_harms h t i e -> forall fuel, (length content + 3 < fuel + N.to_nat i)%nat ->
       (t = TArray -> forall acc n, exists h', run get (ParseArrayBlock E si fuel pr e (at_ i) acc n) = out h') /\
       (t = TMap -> pr = false -> forall acc n, exists h', run get (ParseMapBlock E si fuel e (at_ i) acc n) = out h') /\
       (t = TMap -> pr = true -> forall acc n, exists h', run get (ParseMapViewBlock E si fuel e (at_ i) acc n) = out h')) /\
    (forall i, child_harms h i -> forall fuel, (length content + 2 < fuel + N.to_nat i)%nat ->
       exists h', run get (block_value E si fuel pr (at_ i)) = out h').
  Proof.
    apply harms_mut.
    - intros t i Ht Hb fuel Hf. pose proof (bfield_pos h i Hb) as Hi. destruct fuel as [|f]; [unfold len in *; lia|].
      split; intros ->; exists h; [rewrite ParseArray_S|rewrite ParseMap_S]; cbv zeta; change {| idx := i; off := i |} with (at_ i);
        rewrite run_bind, run_lift, (field_bad E Hbase Hsize Hlim h i Hb); apply out_bind.
    - intros t i n a Ht Hn Hb fuel Hf. pose proof (number_at_pos _ _ _ _ Hn) as Hi. destruct fuel as [|f]; [unfold len in *; lia|].
      split; intros ->; exists h; [rewrite ParseArray_S|rewrite ParseMap_S]; cbv zeta; change {| idx := i; off := i |} with (at_ i);
        rewrite run_bind, run_lift, (number_ok _ _ _ Hn); cbn [obind]; rewrite run_bind, run_lift, (field_bad E Hbase Hsize Hlim h a Hb); apply out_bind.
    - intros t i n a id b sizes lo hi Ht Hn Hid Hin Hb HB IH fuel Hf. pose proof (number_at_pos _ _ _ _ Hn) as Hi. pose proof (number_at_pos _ _ _ _ Hid) as Hi2.
      destruct fuel as [|f]; [unfold len in *; lia|]. assert (Hlo : b <= lo) by (destruct Hb as (x & m & y & _ & -> & _); lia).
      destruct (IH f) as (IH1 & IH2 & IH3); [unfold len in *; lia|]. destruct (nofuel f) as (NA & NM & NV).
      assert (HFu : forall lo0, b <= lo0 -> (length content + 2 <= f + N.to_nat lo0)%nat /\ (2 <= f)%nat) by (intros; unfold len in *; lia).
      split; intros ->; [rewrite ParseArray_S|rewrite ParseMap_S]; cbv zeta; change {| idx := i; off := i |} with (at_ i).
      + eapply (container_leads i n a id b sizes lo hi (fun lo hi => ParseArrayBlock E si f pr hi (at_ lo) [] 0)
               (fun last objs => '(items, size) <- lift (merge_all merge_arr ([], 0) (rev objs)) ;; PRet (OArray CoroFrame size items, last))%prog); eauto.
        intros lo0 hi0 H0. destruct (HFu lo0 H0). now apply NA.
      + assert (Hpr : pr = true \/ pr = false) by (destruct pr; auto). destruct Hpr as [Hpr|Hpr]; rewrite Hpr.
        * eapply (container_leads i n a id b sizes lo hi (fun lo hi => ParseMapViewBlock E si f hi (at_ lo) [] 0)
               (fun last objs => '(items, size) <- lift (merge_all merge_mapview ([], 0) objs) ;; PRet (OMapView CoroFrame size items, last))%prog); eauto.
          intros lo0 hi0 H0. destruct (HFu lo0 H0). now apply NV.
        * eapply (container_leads i n a id b sizes lo hi (fun lo hi => ParseMapBlock E si f hi (at_ lo) [] 0)
               (fun last objs => '(items, size) <- lift (merge_all merge_map ([], 0) objs) ;; PRet (OMap CoroFrame size items, last))%prog); eauto.
          intros lo0 hi0 H0. destruct (HFu lo0 H0). now apply NM.
    - intros i e Hie Hc IH fuel Hf. pose proof (child_pos _ _ Hc). destruct fuel as [|f]; [unfold len in *; lia|]. split; [|split; discriminate]. intros _ acc n.
      rewrite ParseArrayBlock_S. cbn [off at_]. replace (i <? e) with true by lia. destruct (IH f) as (h' & Hh); [lia|]. exists h'. rewrite run_bind, Hh. apply out_bind.
    - intros i e v j Hie Hv Hr Hb IH fuel Hf. pose proof (pval_step _ _ _ _ _ _ _ Hv) as [Hij Hil].
      assert (Hrl : len room < len content) by (rewrite Hroom, len_app; destruct tail; [congruence|rewrite len_cons; lia]).
      destruct fuel as [|f]; [unfold len in *; lia|]. split; [|split; discriminate]. intros _ acc n.
      rewrite ParseArrayBlock_S. cbn [off at_]. replace (i <? e) with true by lia. destruct (value_ok f i v j Hv Hr) as (o & Ho); [unfold len in *; lia|].
      rewrite run_bind, Ho. cbn [obind]. destruct (IH f) as (IH1 & _); [lia|]. now apply IH1.
    - intros i e Hie Hb fuel Hf. pose proof (bfield_pos h i Hb) as Hi. destruct fuel as [|f]; [unfold len in *; lia|].
      assert (HK : run get (block_key E (at_ i)) = out h) by (unfold block_key; destruct (ModelParse.b_map E); rewrite run_bind, run_lift, (field_bad E Hbase Hsize Hlim h i Hb); apply out_bind).
      split; [discriminate|]. split; intros _ _ acc n; exists h; [rewrite ParseMapBlock_S|rewrite ParseMapViewBlock_S]; cbn [off at_]; replace (i <? e) with true by lia; rewrite run_bind, HK; apply out_bind.
    - intros i e n a -> Hc HD Hie Hn Ha Hp fuel Hf. pose proof (number_at_pos _ _ _ _ Hn) as Hi. destruct fuel as [|f]; [unfold len in *; lia|].
      split; [discriminate|]. split; intros _ Hpr; [|rewrite Hpr in Hc; discriminate]. intros acc m. exists Undefined.
      rewrite ParseMapBlock_S. cbn [off at_]. replace (i <? e) with true by lia. unfold block_key. rewrite Hmap, HD. rewrite run_bind. rewrite run_bind, run_lift, (number_ok _ _ _ Hn). cbn [obind].
      rewrite run_bind, run_lift, curAddr_at by (rewrite Hsize; lia). cbn [obind run]. rewrite run_bind, run_lift. unfold read_local. cbn [v_off v_len]. rewrite Hbase, N.add_0_l, u32_mod.
      replace (read_range content a (n mod 2 ^ 32)) with (@UB bytes) by (symmetry; apply read_range_ub; [lia|exact Hp]). reflexivity.
    - intros i e k j Hie Hk Hc IH fuel Hf. pose proof (child_pos _ _ Hc). pose proof (pkey_step _ _ _ _ _ Hk) as (Hij & Hil & _). destruct fuel as [|f]; [unfold len in *; lia|].
      destruct (key_ok' i k j Hk ltac:(assumption)) as (kv & HK & HR). destruct (IH f) as (h' & Hh); [lia|].
      split; [discriminate|]. split; intros _ Hpr acc n; exists h'; [rewrite ParseMapBlock_S|rewrite ParseMapViewBlock_S]; cbn [off at_]; replace (i <? e) with true by lia;
        rewrite run_bind, HK; cbn [obind].
      + rewrite run_bind, run_lift, HR. cbn [obind]. rewrite <- Hpr, run_bind, Hh. apply out_bind.
      + rewrite <- Hpr, run_bind, Hh. apply out_bind.
    - intros i e k j v j' Hie Hk Hv Hr Hb IH fuel Hf. pose proof (pkey_step _ _ _ _ _ Hk) as (Hij & Hil & _). pose proof (pval_step _ _ _ _ _ _ _ Hv) as [Hij2 Hil2].
      assert (Hrl : len room < len content) by (rewrite Hroom, len_app; destruct tail; [congruence|rewrite len_cons; lia]).
      destruct fuel as [|f]; [unfold len in *; lia|]. destruct (key_ok i k j Hk) as (kv & HK & HR). destruct (value_ok f j v j' Hv Hr) as (o & Ho); [unfold len in *; lia|].
      destruct (IH f) as (_ & IH2 & IH3); [lia|].
      split; [discriminate|]. split; intros _ Hpr acc n; [rewrite ParseMapBlock_S|rewrite ParseMapViewBlock_S]; cbn [off at_]; replace (i <? e) with true by lia;
        rewrite run_bind, HK; cbn [obind].
      + rewrite run_bind, run_lift, HR. cbn [obind]. rewrite <- Hpr, run_bind, Ho. cbn [obind]. now apply IH2.
      + rewrite <- Hpr, run_bind, Ho. cbn [obind]. now apply IH3.
    - intros i x t Hx Hs Hh fuel Hf. assert (Hi : i < len content) by (apply stands_len in Hs; rewrite len_cons in Hs; lia). destruct fuel as [|f]; [unfold len in *; lia|].
      exists h. rewrite block_value_S, run_bind, run_lift. rewrite (tag_complete E Hbase Hsize Hlim i x t false Hs).
      2:{ rewrite Hx. now destruct t. }
      2:{ rewrite Hx. now destruct t. }
      cbn [obind]. apply (harms_out E get D CoroFrame pr Hbase Hsize Hlim Hmap Hsound Hcomplete) with (h := h); auto; [|lia].
      intros HD id. destruct (Hsafe id) as [G1 G2]. split; [now apply G1|]. intros v Hg. now apply G2.
    - intros i x t Hx Hs Hh IH fuel Hf. assert (Hi : i < len content) by (apply stands_len in Hs; rewrite len_cons in Hs; lia). destruct fuel as [|f]; [unfold len in *; lia|].
      rewrite block_value_S, run_bind, run_lift. rewrite (tag_complete E Hbase Hsize Hlim i x t true Hs).
      2:{ rewrite Hx. now destruct t. }
      2:{ rewrite Hx. now destruct t. }
      cbn [obind idx at_]. destruct (IH f) as [IH1 IH2]; [lia|]. destruct t.
      + exfalso. inversion Hh; congruence.
      + destruct (IH2 eq_refl) as (h' & Hr). exists h'. rewrite run_bind, Hr. apply out_bind.
      + destruct (IH1 eq_refl) as (h' & Hr). exists h'. rewrite run_bind, Hr. apply out_bind.
  Qed.
End ParaLeads.
