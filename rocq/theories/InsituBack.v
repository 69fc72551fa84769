(** * The copying parser follows the in-place parser, when no length field is near 2^64. *)
From Verif Require Import Base BaseLemmas ModelVarint ModelData ModelSecondary ModelObject
  ModelParse ModelWrapper Spec SpecApi NumProofs ObjInd ParseLemmas NormalProofs ParaProofs GeneralProofs
  Lenient LenientProofs LenientRef LenientParaProofs InsituSim.
From Coq Require Import ZifyBool ZifyNat ZifyN.

Section Back.
  Variable E : penv.
  Variable si : split_info.
  Variable get : N -> outcome view.
  Variable p : pool.
  Notation R := (b_env E).
  Notation content := (r_content (b_env E)).
  Notation sh := (echo content (b_buf E)).
  Notation she := (echo_entry content (b_buf E)).
  Hypothesis Hbase : r_base R = 0.
  Hypothesis Hsize : r_size R = len content.
  Hypothesis Hlim : lim (r_cfg R) (len content).
  Hypothesis Hget : forall id v, get id = Ok v -> v_buf v = b_buf E /\ exists s, read_local R v = Ok s.
  Hypothesis Htame : forall s n s', parseLength R s = Ok (n, s') -> n < 2 ^ 63.

  Lemma data_back i o' s' : i <= len content -> run get (Data_valueParse E true (at_ i)) = Ok (o', s') ->
    exists o j, run get (Data_valueParse E false (at_ i)) = Ok (o, s') /\ sh o' o /\ s' = at_ j /\ j <= len content.
  Proof.
    intros Hi. unfold Data_valueParse. intros H. sstep H. destruct x as [dt s1]. same H0.
    destruct (parseDataType_sound E Hbase Hsize Hlim i dt s1 Hi H0) as (x & _ & _ & -> & Hi1). clear H0 x.
    destruct (negb (valid_data_type dt)) eqn:Hv; [discriminate|].
    destruct ((dt =? BRIDGE_STRING) && ModelParse.b_map E) eqn:Hd.
    - sstep H. destruct x as [id s2]. same H0. destruct (parseLength_sound E Hbase Hsize Hlim _ _ _ Hi1 H0) as (b & _ & _ & -> & Hb). clear H0.
      cbn [run] in H |- *. apply obind_ok in H as (v & Hg & H). rewrite Hg. cbn [obind].
      cbn [run] in H. injection H as <- <-. destruct (Hget _ _ Hg) as (Hvb & sx & Hr). same Hr.
      apply andb_true_iff in Hd as [Hd _]. apply N.eqb_eq in Hd. subst dt. cbn [run].
      do 2 eexists. split; [reflexivity|]. split; [constructor; [exact Hvb|exact Hr]|]. split; [reflexivity|exact Hb].
    - sstep H. destruct x as [size s2]. same H0. pose proof (Htame _ _ _ H0) as Hsz. destruct (parseLength_sound E Hbase Hsize Hlim _ _ _ Hi1 H0) as (b & _ & _ & -> & Hb). clear H0.
      sstep H. same H0. apply (curAddr_inv E Hbase Hsize Hlim) in H0 as [-> Hlt]. cbv iota in H |- *.
      sstep H. rename x into d. sstep H. cbn [run] in H. injection H as <- <-.
      destruct (rpayload E get Hbase Hsize Hlim _ _ _ Hlt Hsz H1) as (sx & Hr & _ & _ & P3 & P4).
      unfold parseData_view in H0. unfold parseData.
      destruct (N.eqb_spec dt BRIDGE_CUSTOM) as [->|Hnc]; [discriminate|].
      destruct (N.eqb_spec dt BRIDGE_BYTES) as [->|Hnb].
      { cbn [orb] in H0 |- *. injection H0 as <-. rewrite Hr. unfold omap. rewrite run_bind, run_lift. cbn [obind]. same H1.
        do 2 eexists. split; [reflexivity|]. split; [constructor; [reflexivity|exact Hr]|]. split; [exact P3|exact P4]. }
      destruct (N.eqb_spec dt BRIDGE_STRING) as [->|Hns].
      { cbn [orb] in H0 |- *. injection H0 as <-. rewrite Hr. unfold omap. rewrite run_bind, run_lift. cbn [obind]. same H1.
        do 2 eexists. split; [reflexivity|]. split; [constructor; [reflexivity|exact Hr]|]. split; [exact P3|exact P4]. }
      cbn [orb] in H0 |- *. rewrite run_bind, run_lift, H0. cbn [obind]. same H1. do 2 eexists. split; [reflexivity|]. split; [|split; [exact P3|exact P4]].
      destruct (num_of_dt dt) as [t|] in H0; [|discriminate]. unfold parse_num in H0. destruct (_ && _) in H0; [discriminate|]. destruct (_ <? _) in H0; [discriminate|].
      apply obind_ok in H0 as (m & _ & [= <-]). now constructor.
  Qed.

  Lemma key_back i kv s1 : i <= len content -> run get (parse_key E (at_ i)) = Ok (kv, s1) ->
    v_buf kv = b_buf E /\ (exists key, read_local R kv = Ok key) /\ exists j, s1 = at_ j /\ j <= len content.
  Proof.
    intros Hi H. unfold parse_key in H. destruct (ModelParse.b_map E).
    - sstep H. destruct x as [id s2]. destruct (parseLength_sound E Hbase Hsize Hlim _ _ _ Hi H0) as (b & _ & _ & -> & Hb).
      cbn [run] in H. apply obind_ok in H as (v & Hg & [= -> <-]). destruct (Hget _ _ Hg) as [H1 H2]. split; [exact H1|]. split; [exact H2|]. eexists. split; [reflexivity|exact Hb].
    - sstep H. destruct x as [n s2]. pose proof (Htame _ _ _ H0) as Hsz. destruct (parseLength_sound E Hbase Hsize Hlim _ _ _ Hi H0) as (b & _ & _ & -> & Hb).
      sstep H. apply (curAddr_inv E Hbase Hsize Hlim) in H1 as [-> Hlt]. sstep H. cbn [run] in H. injection H as <- <-.
      destruct (rpayload E get Hbase Hsize Hlim _ _ _ Hlt Hsz H1) as (sx & Hr & _ & _ & P3 & P4). split; [reflexivity|]. split; [exists sx; exact Hr|].
      eexists. split; [exact P3|exact P4].
  Qed.

  Lemma values_back fuel :
    (forall t i o' s', i <= len content -> run get (valueParse E p true fuel t (at_ i)) = Ok (o', s') ->
       exists o j, run get (valueParse E p false fuel t (at_ i)) = Ok (o, s') /\ sh o' o /\ s' = at_ j /\ j <= len content) /\
    (forall count i acc accr os s', i <= len content -> run get (array_loop E p true fuel count (at_ i) accr) = Ok (os, s') ->
       exists new' new j, os = new' ++ accr /\ run get (array_loop E p false fuel count (at_ i) acc) = Ok (new ++ acc, s') /\ Forall2 sh new' new /\ s' = at_ j /\ j <= len content) /\
    (forall count i acc accr os s', i <= len content -> run get (mapview_loop E p true fuel count (at_ i) accr) = Ok (os, s') ->
       exists new' new j, os = new' ++ accr /\ run get (map_loop E p false fuel count (at_ i) acc) = Ok (new ++ acc, s') /\ Forall2 she new' new /\ s' = at_ j /\ j <= len content).
  Proof.
    induction fuel as [|f (IHv & IHa & IHm)]; [split; [|split]; intros; discriminate|].
    split; [|split].
    - intros t i o s' Hi H. cbn [valueParse] in H |- *. destruct t.
      + now apply data_back.
      + sstep H. destruct x as [n s1]. same H0. destruct (parseLength_sound E Hbase Hsize Hlim _ _ _ Hi H0) as (b & _ & _ & -> & Hb). clear H0.
        sstep H. destruct x as [id s2]. same H0. destruct (parseLength_sound E Hbase Hsize Hlim _ _ _ Hb H0) as (b2 & _ & _ & -> & Hb2). clear H0. cbv iota in H |- *.
        sstep H. destruct x as [items s3]. cbn [run] in H. injection H as <- <-. rewrite run_bind, run_lift, ParseLemmas.check_oor_ok by (cbn; rewrite Hsize; exact Hb2). cbn [obind].
        apply (IHm n _ [] []) in H0 as (new' & new & j & -> & HN & HF & -> & Hj); [|exact Hb2]. rewrite !app_nil_r in *. same HN. cbn [run].
        do 2 eexists. split; [reflexivity|]. split; [constructor; exact HF|]. split; [reflexivity|exact Hj].
      + sstep H. destruct x as [n s1]. same H0. destruct (parseLength_sound E Hbase Hsize Hlim _ _ _ Hi H0) as (b & _ & _ & -> & Hb). clear H0.
        sstep H. destruct x as [id s2]. same H0. destruct (parseLength_sound E Hbase Hsize Hlim _ _ _ Hb H0) as (b2 & _ & _ & -> & Hb2). clear H0.
        sstep H. destruct x as [items s3]. cbn [run] in H. injection H as <- <-.
        apply (IHa n _ [] []) in H0 as (new' & new & j & -> & HN & HF & -> & Hj); [|exact Hb2]. rewrite !app_nil_r in *. same HN. cbn [run].
        do 2 eexists. split; [reflexivity|]. split; [constructor; now apply Forall2_rev|]. split; [reflexivity|exact Hj].
    - intros count i acc accr os s' Hi H. cbn [array_loop] in H |- *. destruct (count =? 0).
      { cbn [run] in H |- *. injection H as <- <-. exists [], [], i. split; [reflexivity|]. split; [reflexivity|]. split; [constructor|]. auto. }
      sstep H. destruct x as [t s1]. same H0. destruct (parseObjectType_sound E Hbase Hsize Hlim _ _ _ Hi H0) as (tg & _ & _ & -> & Hi1). clear H0.
      sstep H. destruct x as [o' s2]. apply IHv in H0 as (o & j & Ho & He & -> & Hj); [|exact Hi1]. same Ho.
      apply (IHa (count - 1) j (o :: acc) (o' :: accr)) in H as (new' & new & j' & -> & HN & HF & -> & Hj'); [|exact Hj]. rewrite HN.
      exists (new' ++ [o']), (new ++ [o]), j'. rewrite <- !app_assoc. split; [reflexivity|]. split; [reflexivity|]. split; [apply Forall2_app; auto|auto].
    - intros count i acc accr os s' Hi H. cbn [map_loop mapview_loop] in H |- *. destruct (count =? 0).
      { cbn [run] in H |- *. injection H as <- <-. exists [], [], i. split; [reflexivity|]. split; [reflexivity|]. split; [constructor|]. auto. }
      sstep H. destruct x as [kv s1]. rewrite run_bind, H0. cbn [obind]. apply key_back in H0 as (Hkv & (key & Hkey) & j0 & -> & Hj0); [|exact Hi].
      sstep H. destruct x as [t s2]. same H0. destruct (parseObjectType_sound E Hbase Hsize Hlim _ _ _ Hj0 H0) as (tg & _ & _ & -> & Hi1). clear H0.
      sstep H. destruct x as [o' s3]. apply IHv in H0 as (o & j & Ho & He & -> & Hj); [|exact Hi1]. same Ho. same Hkey.
      apply (IHm (count - 1) j ((key, o) :: acc) ((kv, o') :: accr)) in H as (new' & new & j' & -> & HN & HF & -> & Hj'); [|exact Hj]. rewrite HN.
      exists (new' ++ [(kv, o')]), (new ++ [(key, o)]), j'. rewrite <- !app_assoc. split; [reflexivity|]. split; [reflexivity|]. split; [|auto].
      apply Forall2_app; [exact HF|]. constructor; [|constructor]. split; [exact Hkv|]. split; [exact Hkey|exact He].
  Qed.
End Back.

(** Blocks, in the other direction. *)
Section ParBack.
  Variable get : N -> outcome view.
  Context {I J : Type}.
  Variable mkF : list I -> N -> block.
  Variable mkT : list J -> N -> block.
  Variable S : J -> I -> Prop.
  Hypothesis mkT_inj : forall a b c d, mkT a b = mkT c d -> a = c /\ b = d.
  Lemma tasks_back : forall tsT tsF,
    Forall2 (fun tT tF => forall r, run get tT = Ok r -> exists items' items n, r = mkT items' n /\ run get tF = Ok (mkF items n) /\ Forall2 S items' items) tsT tsF ->
    forall ic', map (fun t => run get t) tsT = map (fun x => Ok (mkT (fst x) (snd x))) ic' ->
    exists ic, map (fun t => run get t) tsF = map (fun x => Ok (mkF (fst x) (snd x))) ic /\ Forall2 (fun y x => Forall2 S (fst x) (fst y) /\ snd x = snd y) ic ic'.
  Proof using mkT_inj.
    induction 1 as [|tT tF tsT tsF Ht HF IH]; intros [|[its n] ic'] H; try discriminate; cbn [map] in *.
    - exists []. split; [reflexivity|constructor].
    - injection H as H1 H2. destruct (IH _ H2) as (ic & HQ & P). destruct (Ht _ H1) as (items' & items & n' & Heq & HT & HS). apply mkT_inj in Heq as [<- <-].
      exists ((items, n) :: ic). cbn [map fst snd]. rewrite HT, HQ. split; [reflexivity|]. constructor; [split; auto|exact P].
  Qed.
  Lemma hard_ok_pairs (mk : list I -> N -> block) ic : hard_failure (map (fun x => Ok (mk (fst x) (snd x))) ic) = None.
  Proof using. clear. induction ic; cbn; auto. Qed.
  Lemma merge_back (mrgF : list I * N -> outcome block -> outcome (list I * N)) (mrgT : list J * N -> outcome block -> outcome (list J * N)) :
    (forall acc items count, mrgF acc (Ok (mkF items count)) = Ok (match items with [] => acc | _ => (items ++ fst acc, u64 (snd acc + count)) end)) ->
    (forall acc items count, mrgT acc (Ok (mkT items count)) = Ok (match items with [] => acc | _ => (items ++ fst acc, u64 (snd acc + count)) end)) ->
    forall ic ic', Forall2 (fun y x => Forall2 S (fst x) (fst y) /\ snd x = snd y) ic ic' ->
    forall acc' acc n res' m, Forall2 S acc' acc -> merge_all mrgT (acc', n) (map (fun x => Ok (mkT (fst x) (snd x))) ic') = Ok (res', m) ->
    exists res, merge_all mrgF (acc, n) (map (fun x => Ok (mkF (fst x) (snd x))) ic) = Ok (res, m) /\ Forall2 S res' res.
  Proof using.
    clear. intros HmF HmT. induction 1 as [|[a k] [b k'] ic' ic [Hab Hk] HF IH]; intros acc' acc n res m Hacc H; cbn [map merge_all fst snd] in *.
    - injection H as <- <-. exists acc. auto.
    - subst k'. rewrite HmT in H. rewrite HmF. cbn [obind fst snd] in H |- *. destruct Hab as [|x y b a Hxy Hab].
      + eapply IH; eauto.
      + eapply IH; [|exact H]. change (Forall2 S ((x :: b) ++ acc') ((y :: a) ++ acc)). apply Forall2_app; [constructor; auto|exact Hacc].
  Qed.
End ParBack.

Section BackPara.
  Variable E : penv.
  Variable si : split_info.
  Variable get : N -> outcome view.
  Notation R := (b_env E).
  Notation content := (r_content (b_env E)).
  Notation sh := (echo content (b_buf E)).
  Notation she := (echo_entry content (b_buf E)).
  Hypothesis Hbase : r_base R = 0.
  Hypothesis Hsize : r_size R = len content.
  Hypothesis Hlim : lim (r_cfg R) (len content).
  Hypothesis Hget : forall id v, get id = Ok v -> v_buf v = b_buf E /\ exists s, read_local R v = Ok s.
  Hypothesis Htame : forall s n s', parseLength R s = Ok (n, s') -> n < 2 ^ 63.

  Lemma blockkey_back i kv s1 t fl s2 : run get (block_key E (at_ i)) = Ok (kv, s1) -> parseObjectType_split R s1 = Ok (t, fl, s2) ->
    v_buf kv = b_buf E /\ (exists key, read_local R kv = Ok key) /\ exists j, s1 = at_ j.
  Proof using Hbase Hsize Hlim Hget.
    clear Htame. intros H Ht. pose proof (HW E Hlim) as HW. unfold block_key in H. destruct (ModelParse.b_map E).
    - sstep H. destruct x as [id s']. apply (length_sound E Hbase Hsize Hlim) in H0 as (b & _ & _ & -> & Hl & Hp).
      cbn [run] in H. apply obind_ok in H as (v & Hg & [= -> <-]). destruct (Hget _ _ Hg) as [H1 H2]. split; [exact H1|]. split; [exact H2|]. eauto.
    - sstep H. destruct x as [n s']. apply (length_sound E Hbase Hsize Hlim) in H0 as (b & _ & _ & -> & Hl & Hp).
      sstep H. apply (curAddr_inv E Hbase Hsize Hlim) in H0 as [-> Hlt]. cbn [run] in H. injection H as <- <-.
      assert (Hu : u32 n < 4294967296) by (unfold u32; rewrite W32_val; apply N.mod_lt; discriminate).
      assert (Hst : add_off (u32 n) (skip (u32 n) (at_ (i + len b))) = at_ (i + len b + u32 n)).
      { unfold add_off, skip, at_. cbn. rewrite u64_small by (rewrite W64_val; lia). reflexivity. }
      rewrite Hst in Ht |- *. apply (tag_sound E Hbase Hsize Hlim) in Ht as (x & _ & _ & _ & _ & Hin).
      split; [reflexivity|]. split; [|eauto]. unfold read_local. cbn [v_off v_len]. apply read_range_in. lia.
  Qed.

  Lemma para_back fuel :
    (forall i o' j, run get (ParseArray E si fuel true i) = Ok (o', j) ->
       exists o, run get (ParseArray E si fuel false i) = Ok (o, j) /\ sh o' o) /\
    (forall i o' j, run get (ParseMap E si fuel true i) = Ok (o', j) ->
       exists o, run get (ParseMap E si fuel false i) = Ok (o, j) /\ sh o' o) /\
    (forall i o' s', run get (block_value E si fuel true (at_ i)) = Ok (o', s') ->
       exists o j, run get (block_value E si fuel false (at_ i)) = Ok (o, s') /\ sh o' o /\ s' = at_ j) /\
    (forall e i acc accr n r, run get (ParseArrayBlock E si fuel true e (at_ i) accr n) = Ok r ->
       exists new' new m, r = BArr (rev accr ++ new') m /\ run get (ParseArrayBlock E si fuel false e (at_ i) acc n) = Ok (BArr (rev acc ++ new) m) /\ Forall2 sh new' new) /\
    (forall e i acc accr n r, run get (ParseMapViewBlock E si fuel e (at_ i) accr n) = Ok r ->
       exists new' new m, r = BMapView (rev accr ++ new') m /\ run get (ParseMapBlock E si fuel e (at_ i) acc n) = Ok (BMap (rev acc ++ new) m) /\ Forall2 she new' new).
  Proof using Hbase Hsize Hlim Hget Htame.
    induction fuel as [|f (IHA & IHM & IHV & IHAB & IHMB)]; [split; [|split; [|split; [|split]]]; intros; discriminate|].
    split; [|split; [|split; [|split]]].
    - intros i o' j H. rewrite ParseArray_S in H |- *. cbv zeta in H |- *.
      sstep H. destruct x as [n s1]. same H0. clear H0. sstep H. destruct x as [id s2]. same H0. clear H0. sstep H. rename x into sizes. same H0. clear H0.
      destruct (ranges (idx s2) sizes) as [rs last]. rewrite run_PPar in H. destruct (hard_failure _) eqn:Hh; [destruct f0; discriminate|]. clear Hh.
      sstep H. destruct x as [items size]. cbn [run] in H. injection H as <- <-.
      pose proof H0 as Hmg. apply (merge_all_inv' BArr) in H0 as (ic' & Hic).
      2:{ clear. intros acc [[]| | | |] acc' H; cbn in H; try discriminate. eauto. }
      rewrite Hic in Hmg.
      assert (Hic' : map (fun t => run get t) (map (fun be => ParseArrayBlock E si f true (snd be) {| idx := fst be; off := fst be |} [] 0) rs) =
                     map (fun x => Ok (BArr (fst x) (snd x))) (rev ic')).
      { rewrite <- (rev_involutive (map (fun t => run get t) _)). rewrite Hic. now rewrite map_rev. }
      destruct (tasks_back get BArr BArr sh) with (tsT := map (fun be => ParseArrayBlock E si f true (snd be) {| idx := fst be; off := fst be |} [] 0) rs)
        (tsF := map (fun be => ParseArrayBlock E si f false (snd be) {| idx := fst be; off := fst be |} [] 0) rs) (ic' := rev ic') as (ic & Hq & HF).
      { intros ? ? ? ? [= -> ->]; auto. }
      { clear - IHAB. induction rs as [|be rs IH]; cbn [map]; constructor; [|exact IH]. intros r Hr.
        apply (IHAB (snd be) (fst be) [] [] 0) in Hr as (new' & new & m & -> & HN & HF). exists new', new, m. auto. }
      { exact Hic'. }
      rewrite run_PPar, Hq, hard_ok_pairs. rewrite run_bind, run_lift, <- map_rev.
      apply Forall2_rev in HF. rewrite rev_involutive in HF.
      destruct (merge_back BArr BArr sh merge_arr merge_arr) with (1 := fun acc items count => eq_refl (merge_arr acc (Ok (BArr items count)))) (2 := fun acc items count => eq_refl (merge_arr acc (Ok (BArr items count)))) (3 := HF) (4 := Forall2_nil sh) (5 := Hmg) as (res & Hr & HS).
      rewrite Hr. cbn [obind run]. eexists. split; [reflexivity|]. now constructor.
    - intros i o' j H. rewrite ParseMap_S in H |- *. cbv zeta in H |- *.
      sstep H. destruct x as [n s1]. same H0. clear H0. sstep H. destruct x as [id s2]. same H0. clear H0. sstep H. rename x into sizes. same H0. clear H0.
      destruct (ranges (idx s2) sizes) as [rs last]. cbv iota in H |- *. rewrite run_PPar in H. destruct (hard_failure _) eqn:Hh; [destruct f0; discriminate|]. clear Hh.
      sstep H. destruct x as [items size]. cbn [run] in H. injection H as <- <-.
      pose proof H0 as Hmg. apply (merge_all_inv' BMapView) in H0 as (ic' & Hic).
      2:{ clear. intros acc [[]| | | |] acc' H; cbn in H; try discriminate. eauto. }
      rewrite Hic in Hmg.
      destruct (tasks_back get BMap BMapView she) with (tsT := map (fun be => ParseMapViewBlock E si f (snd be) {| idx := fst be; off := fst be |} [] 0) rs)
        (tsF := map (fun be => ParseMapBlock E si f (snd be) {| idx := fst be; off := fst be |} [] 0) rs) (ic' := ic') as (ic & Hq & HF).
      { intros ? ? ? ? [= -> ->]; auto. }
      { clear - IHMB. induction rs as [|be rs IH]; cbn [map]; constructor; [|exact IH]. intros r Hr.
        apply (IHMB (snd be) (fst be) [] [] 0) in Hr as (new' & new & m & -> & HN & HF). exists new', new, m. auto. }
      { exact Hic. }
      rewrite run_PPar, Hq, hard_ok_pairs. rewrite run_bind, run_lift.
      destruct (merge_back BMap BMapView she merge_map merge_mapview) with (1 := fun acc items count => eq_refl (merge_map acc (Ok (BMap items count)))) (2 := fun acc items count => eq_refl (merge_mapview acc (Ok (BMapView items count)))) (3 := HF) (4 := Forall2_nil she) (5 := Hmg) as (res & Hr & HS).
      rewrite Hr. cbn [obind run]. eexists. split; [reflexivity|]. constructor. exact HS.
    - intros i o' s' H. rewrite block_value_S in H |- *. sstep H. destruct x as [[t fl] s1]. same H0. apply (tag_sound E Hbase Hsize Hlim) in H0 as (x & _ & _ & _ & -> & Hin). destruct fl.
      + destruct t; [discriminate| |].
        * sstep H. destruct x0 as [o0 e]. cbn [run] in H. injection H as <- <-. apply IHM in H0 as (o & Ho & He). same Ho. cbn [run]. exists o, e. split; [reflexivity|]. split; [exact He|reflexivity].
        * sstep H. destruct x0 as [o0 e]. cbn [run] in H. injection H as <- <-. apply IHA in H0 as (o & Ho & He). same Ho. cbn [run]. exists o, e. split; [reflexivity|]. split; [exact He|reflexivity].
      + destruct (values_back E get CoroFrame Hbase Hsize Hlim Hget Htame f) as (VS & _ & _). apply VS in H as (o & j & Ho & He & -> & _); [|exact Hin]. eauto.
    - intros e i acc accr n r H. rewrite ParseArrayBlock_S in H |- *. destruct (off (at_ i) <? e).
      + sstep H. destruct x as [o' s1]. apply IHV in H0 as (o & j & Ho & He & ->). same Ho.
        apply (IHAB _ _ (o :: acc) (o' :: accr)) in H as (new' & new & m & -> & HN & HF). rewrite HN. exists (o' :: new'), (o :: new), m. cbn [rev]. rewrite <- !app_assoc.
        split; [reflexivity|]. split; [reflexivity|]. now constructor.
      + cbn [run] in H |- *. injection H as <-. exists [], [], n. rewrite !app_nil_r. split; [reflexivity|]. split; [reflexivity|constructor].
    - intros e i acc accr n r H. rewrite ParseMapViewBlock_S in H. rewrite ParseMapBlock_S. destruct (off (at_ i) <? e).
      + sstep H. destruct x as [kv s1]. rewrite run_bind, H0. cbn [obind].
        sstep H. destruct x as [o' s2]. pose proof H1 as Hbv. destruct f as [|f']; [discriminate|]. rewrite block_value_S in Hbv. rewrite run_bind, run_lift in Hbv. apply obind_ok in Hbv as ([[t fl] s3] & Htag & _).
        destruct (blockkey_back _ _ _ _ _ _ H0 Htag) as (Hkv & (key & Hkey) & j0 & ->). same Hkey. clear Htag t fl s3 H0.
        apply IHV in H1 as (o & j & Ho & He & ->). same Ho.
        apply (IHMB _ _ ((key, o) :: acc) ((kv, o') :: accr)) in H as (new' & new & m & -> & HN & HF). rewrite HN. exists ((kv, o') :: new'), ((key, o) :: new), m. cbn [rev]. rewrite <- !app_assoc.
        split; [reflexivity|]. split; [reflexivity|]. constructor; [|exact HF]. split; [exact Hkv|]. split; [exact Hkey|exact He].
      + cbn [run] in H |- *. injection H as <-. exists [], [], n. rewrite !app_nil_r. split; [reflexivity|]. split; [reflexivity|constructor].
  Qed.
End BackPara.
