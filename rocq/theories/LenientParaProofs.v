(** * The parallel parser and the positional grammar. *)
From Verif Require Import Base BaseLemmas ModelVarint ModelData ModelSecondary ModelObject
  ModelParse ModelWrapper Spec SpecApi VarintProofs Wire NumProofs SeriProofs SeriProofs2 DocProofs ObjInd ParseLemmas
  NormalProofs SecondaryProofs ValueProofs ParaProofs RoundTrip GeneralProofs PropDocument PropHostile FrameProofs PropTamper
  Lenient LenientProofs LenientTables PropLenient LenientPara.
From Coq Require Import ZifyBool ZifyNat ZifyN.

Ltac pstep H := rewrite run_bind, ?run_lift in H; apply obind_ok in H as (? & ? & H).

Lemma found_stands content i b : found content i b <-> stands content i b.
Proof. reflexivity. Qed.

Section MergeSound.
  Context {I : Type}.
  Variable mk : list I -> N -> block.
  Variable mrg : list I * N -> outcome block -> outcome (list I * N).
  Hypothesis Hmrg : forall acc r acc', mrg acc r = Ok acc' -> exists items count, r = Ok (mk items count).
  Lemma merge_all_inv : forall l acc res, merge_all mrg acc l = Ok res -> exists ic, l = map (fun x => Ok (mk (fst x) (snd x))) ic.
  Proof.
    induction l as [|r l IH]; intros acc res H; cbn in H; [exists []; reflexivity|].
    apply obind_ok in H as (acc' & H1 & H2). destruct (Hmrg _ _ _ H1) as (items & count & ->).
    destruct (IH _ _ H2) as (ic & ->). exists ((items, count) :: ic). reflexivity.
  Qed.
End MergeSound.

Section Sound.
  Variable E : penv.
  Variable si : split_info.
  Variable get : N -> outcome view.
  Variable D : option (N -> option bytes).
  Notation R := (b_env E).
  Notation content := (r_content (b_env E)).
  Notation strict := (negb (ndebug (r_cfg (b_env E)))).
  Notation T := (si_info si).
  Hypothesis Hbase : r_base R = 0.
  Hypothesis Hsize : r_size R = len content.
  Hypothesis Hlim : lim (r_cfg R) (len content).
  Hypothesis Hmap : ModelParse.b_map E = match D with Some _ => true | None => false end.
  Hypothesis Hget : forall d id v s, D = Some d -> get id = Ok v -> read_local R v = Ok s -> d id = Some s.
  Hypothesis Hsi : forall id l, In (id, l) T -> Forall (fun x => x < 2 ^ 32) l /\ len l <= len content.

  Notation tree := (tree_of CoroFrame).
  Notation etree := (fun e : bytes * value => (fst e, tree (snd e))).

  Lemma inside_length i n s : parseLength R (at_ i) = Ok (n, s) -> i < len content.
  Proof using Hbase Hsize Hlim.
    clear - Hbase Hsize Hlim.
    unfold parseLength. intros H. apply obind_ok in H as (? & _ & H). apply obind_ok in H as (a & Ha & _).
    unfold curAddr in Ha. rewrite Hsize in Ha. cbn [idx at_] in Ha. destruct (N.leb_spec (len content) i); [discriminate|assumption].
  Qed.
  Lemma inside_tag i x s : parseObjectType_split R (at_ i) = Ok (x, s) -> i < len content.
  Proof using Hbase Hsize Hlim.
    clear - Hbase Hsize Hlim.
    unfold parseObjectType_split. intros H. apply obind_ok in H as (? & _ & H). apply obind_ok in H as (a & Ha & _).
    unfold curAddr in Ha. rewrite Hsize in Ha. cbn [idx at_] in Ha. destruct (N.leb_spec (len content) i); [discriminate|assumption].
  Qed.

  Lemma length_sound i n s : parseLength R (at_ i) = Ok (n, s) ->
    exists b, vint n b /\ stands content i b /\ s = at_ (i + len b) /\ i + len b <= len content /\ 1 <= len b.
  Proof using Hbase Hsize Hlim.
    clear - Hbase Hsize Hlim.
    intros H. pose proof (inside_length _ _ _ H) as Hi. apply (parseLength_sound E Hbase Hsize Hlim) in H as (b & Hv & Hs & -> & Hl); [|lia].
    exists b. pose proof (vint_len _ _ Hv). unfold len in *. repeat split; auto; lia.
  Qed.

  Lemma tag_sound i t fl s : parseObjectType_split R (at_ i) = Ok (t, fl, s) ->
    exists x, stands content i [x] /\ b2n x mod 128 = ObjectTypeToChar t /\ (b2n x <? 128) = negb fl /\ s = at_ (i + 1) /\ i + 1 <= len content.
  Proof using Hbase Hsize Hlim.
    clear - Hbase Hsize Hlim.
    intros H. pose proof (inside_tag _ _ _ H) as Hi. unfold parseObjectType_split in H. apply obind_ok in H as ([] & He & H).
    rewrite curAddr_at in H by (rewrite Hsize; lia). cbn [obind] in H. rewrite Hbase, N.add_0_l in H.
    apply obind_ok in H as (x & Hx & H). rewrite (skip_at R) in H by (try (rewrite Hsize; exact Hlim); rewrite ?Hsize; lia).
    rewrite ParseLemmas.check_oor_ok in H by (cbn; rewrite Hsize; lia). cbn [obind] in H.
    rewrite (add_off_at R) in H by (try (rewrite Hsize; exact Hlim); rewrite ?Hsize; lia). rewrite land127 in H by apply b2n_lt.
    destruct (CharToObjectType (b2n x mod 128)) as [t'|] eqn:Ht; [|discriminate]. injection H as <- <- <-.
    apply CharToObjectType_inv in Ht.
    exists x. split; [now apply read_byte_stands|]. split; [exact Ht|]. split; [|split; [reflexivity|lia]].
    clear. destruct x; reflexivity.
  Qed.

  Lemma tag_split x t : b2n x mod 128 = ObjectTypeToChar t -> (b2n x <? 128) = false -> b2n x = 128 + ObjectTypeToChar t.
  Proof using.
    clear.
    intros H1 H2. pose proof (b2n_lt x). apply N.ltb_ge in H2. rewrite <- H1. symmetry.
    replace (b2n x) with ((b2n x - 128) + 1 * 128) at 1 by lia. rewrite N.mod_add by lia. rewrite N.mod_small by lia. lia.
  Qed.

  Lemma blockkey_sound i kv s1 key t fl s2 : run get (block_key E (at_ i)) = Ok (kv, s1) -> read_local R kv = Ok key ->
    parseObjectType_split R s1 = Ok (t, fl, s2) -> exists j, pkey content D i key j /\ s1 = at_ j /\ i < j /\ i < len content.
  Proof using Hbase Hsize Hlim Hmap Hget.
    clear - Hbase Hsize Hlim Hmap Hget.
    intros H Hr Ht. pose proof (HW E Hlim) as HW. unfold block_key in H. rewrite Hmap in H. destruct D as [d|] eqn:HD.
    - pstep H. destruct x as [id s']. apply length_sound in H0 as (b & Hv & Hs & -> & Hl & Hp).
      cbn [run] in H. apply obind_ok in H as (v & Hg & [= <- <-]).
      exists (i + len b). split; [|split; [reflexivity|lia]]. apply pk_dict with (d := d) (id := id); auto. eapply Hget; eauto.
    - pstep H. destruct x as [n s']. apply length_sound in H0 as (b & Hv & Hs & -> & Hl & Hp).
      pstep H. apply (curAddr_inv E Hbase Hsize Hlim) in H0 as [-> Hlt]. cbn [run] in H. injection H as <- <-.
      assert (Hu : u32 n < 4294967296) by (unfold u32; rewrite W32_val; apply N.mod_lt; discriminate).
      assert (Hst : add_off (u32 n) (skip (u32 n) (at_ (i + len b))) = at_ (i + len b + u32 n)).
      { unfold add_off, skip, at_. cbn. rewrite u64_small by (rewrite W64_val; lia). reflexivity. }
      rewrite Hst in Ht. pose proof (inside_tag _ _ _ Ht) as Hi2.
      unfold read_local in Hr. cbn [v_off v_len] in Hr. apply stands_read in Hr as [Hk Hkl]; [|lia].
      exists (i + len (b ++ key)). split; [|split; [rewrite Hst, len_app; f_equal; lia|rewrite len_app; lia]].
      apply pk_plain with (n := n); auto. now apply stands_app.
  Qed.

  Lemma info_sound id l : GetBlockInfoFromId si id = Ok l -> In (id, l) T.
  Proof using.
    clear.
    unfold GetBlockInfoFromId. destruct (assoc_find N.eqb id T) as [l'|] eqn:Ha; [|discriminate]. intros [= <-].
    revert Ha. induction T as [|[k z] q IH]; cbn; [discriminate|]. destruct (N.eqb_spec id k) as [->|]; [intros [= ->]; now left|auto].
  Qed.

  Lemma ranges_cons' b n l : ranges b (n :: l) = ((b, u64 (b + n)) :: fst (ranges (u64 (b + n)) l), snd (ranges (u64 (b + n)) l)).
  Proof using. clear. cbn. destruct (ranges (u64 (b + n)) l); reflexivity. Qed.

  (** All blocks of a container. *)
  Lemma blocks_sound {V I} (task : N -> rstate -> prog block) (mk : list I -> N -> block) (Q : N -> N -> list V -> Prop)
      (QS : N -> list N -> list (list V) -> N -> Prop) (f : V -> I) :
    (forall i, QS i [] [] i) ->
    (forall i n sizes vs vss j, Q i (i + n) vs -> QS (i + n) sizes vss j -> QS i (n :: sizes) (vs :: vss) j) ->
    (forall a b c d, mk a b = mk c d -> a = c /\ b = d) ->
    (forall i e r, run get (task e (at_ i)) = Ok r -> exists vs, Q i e vs /\ r = mk (map f vs) (len vs) /\ len vs <= len content) ->
    forall sizes i ic, i + len sizes * 2 ^ 32 < 2 ^ 64 -> Forall (fun x => x < 2 ^ 32) sizes ->
      map (fun t => run get t) (map (fun be => task (snd be) {| idx := fst be; off := fst be |}) (fst (ranges i sizes))) = map (fun x => Ok (mk (fst x) (snd x))) ic ->
      exists vss, QS i sizes vss (snd (ranges i sizes)) /\ ic = map (fun vs => (map f vs, len vs)) vss /\ len (concat vss) <= len content * len sizes.
  Proof using.
    clear.
    intros Q0 Q1 Hinj Htask. induction sizes as [|n sizes IH]; intros i ic Hb HF Hm.
    - cbn in Hm. destruct ic; [|discriminate]. exists []. split; [apply Q0|]. split; [reflexivity|]. change (len (concat (@nil (list V)))) with 0. lia.
    - inversion HF as [|? ? Hn HF']; subst. rewrite len_cons in Hb. change (2 ^ 64) with 18446744073709551616 in *. change (2 ^ 32) with 4294967296 in *.
      rewrite ranges_cons' in Hm |- *. cbn [fst snd map] in Hm |- *. rewrite u64_small in Hm |- * by (rewrite W64_val; lia).
      destruct ic as [|[a b] ic]; [discriminate|]. cbn [map fst snd] in Hm. injection Hm as H1 H2.
      destruct (Htask i (i + n) _ H1) as (vs & HQ & Hmk & Hl). apply Hinj in Hmk as [-> ->].
      destruct (IH (i + n) ic) as (vss & HQS & -> & Hls); [lia|exact HF'|exact H2|].
      exists (vs :: vss). split; [now apply Q1|]. split; [reflexivity|]. cbn [concat]. rewrite len_app, len_cons. lia.
  Qed.

  Lemma last_ge sizes : forall i, i + len sizes * 2 ^ 32 < 2 ^ 64 -> Forall (fun x => x < 2 ^ 32) sizes -> i <= snd (ranges i sizes).
  Proof using.
    clear.
    change (2 ^ 64) with 18446744073709551616 in *. change (2 ^ 32) with 4294967296 in *.
    induction sizes as [|n sizes IH]; intros i Hb HF; [cbn; lia|]. inversion HF as [|? ? Hn HF']; subst. rewrite len_cons in Hb.
    rewrite ranges_cons'. cbn [snd]. rewrite u64_small by (rewrite W64_val; lia). etransitivity; [|apply IH; auto; lia]. lia.
  Qed.

  Notation pval' := (pval content strict D T).
  Notation parr' := (parr content strict D T).
  Notation pmap' := (pmap content strict D T).

  Lemma para_sound fuel :
    (forall i o j, run get (ParseArray E si fuel false i) = Ok (o, j) ->
       exists vs, parr' i vs j /\ o = tree (VArr (rev vs)) /\ i < j) /\
    (forall i o j, run get (ParseMap E si fuel false i) = Ok (o, j) ->
       exists es, pmap' i es j /\ o = tree (VMap es) /\ i < j) /\
    (forall i o s, run get (block_value E si fuel false (at_ i)) = Ok (o, s) ->
       exists v j, pval' i v j /\ o = tree v /\ s = at_ j /\ i < j /\ i < len content) /\
    (forall i e acc n r, n + (len content - i) < 2 ^ 64 -> run get (ParseArrayBlock E si fuel false e (at_ i) acc n) = Ok r ->
       exists vs, parr_block content strict D T i e vs /\ r = BArr (rev acc ++ map tree vs) (n + len vs) /\ len vs <= len content - i) /\
    (forall i e acc n r, n + (len content - i) < 2 ^ 64 -> run get (ParseMapBlock E si fuel e (at_ i) acc n) = Ok r ->
       exists es, pmap_block content strict D T i e es /\ r = BMap (rev acc ++ map etree es) (n + len es) /\ len es <= len content - i).
  Proof using Hbase Hsize Hlim Hmap Hget Hsi.
    pose proof (HW E Hlim) as HW.
    assert (P64 : 2 ^ 64 = 18446744073709551616) by reflexivity. assert (P32 : 2 ^ 32 = 4294967296) by reflexivity.
    induction fuel as [|f (IHA & IHM & IHV & IHAB & IHMB)]; [split; [|split; [|split; [|split]]]; intros; discriminate|].
    assert (Hcap : forall i (l : list N), i <= len content -> len l <= len content -> i + len l * 2 ^ 32 < 2 ^ 64 /\ len content * len l < 2 ^ 64).
    { clear - HW P64 P32. intros i l Hi Hl. rewrite P64, P32. split; [lia|]. assert (len content * len l <= 4294967295 * 4294967295); [|lia].
      apply N.mul_le_mono; lia. }
    split; [|split; [|split; [|split]]].
    - intros i o j H. rewrite ParseArray_S in H. change {| idx := i; off := i |} with (at_ i) in H.
      pstep H. destruct x as [n s1]. apply length_sound in H0 as (cnt & Hv & Hs & -> & Hl & Hp).
      pstep H. destruct x as [id s2]. apply length_sound in H0 as (idb & Hv2 & Hs2 & -> & Hl2 & Hp2).
      pstep H. rename x into sizes. apply info_sound in H0 as Hin. destruct (Hsi _ _ Hin) as [HF32 Hcount]. cbn [idx at_] in H.
      destruct (Hcap (i + len cnt + len idb) sizes Hl2 Hcount) as [Hc1 Hc2].
      pose proof (last_ge sizes _ Hc1 HF32) as Hlast.
      destruct (ranges (i + len cnt + len idb) sizes) as [rs last] eqn:Hr. cbn [snd] in Hlast.
      rewrite run_PPar in H. destruct (hard_failure _) eqn:Hh; [destruct f0; discriminate|].
      pstep H. destruct x as [items size]. cbn [run] in H. injection H as <- <-.
      pose proof H1 as Hmg. apply (merge_all_inv BArr) in H1 as (ic & Hic).
      2:{ clear. intros acc [[]| | | |] acc' H; cbn in H; try discriminate. eauto. }
      assert (Hic' : map (fun t => run get t) (map (fun be => ParseArrayBlock E si f false (snd be) {| idx := fst be; off := fst be |} [] 0) rs) =
                     map (fun x => Ok (BArr (fst x) (snd x))) (rev ic)).
      { rewrite <- (rev_involutive (map (fun t => run get t) _)). rewrite Hic. now rewrite map_rev. }
      replace rs with (fst (ranges (i + len cnt + len idb) sizes)) in Hic' by (now rewrite Hr).
      apply (blocks_sound (fun e s => ParseArrayBlock E si f false e s [] 0) BArr (parr_block content strict D T) (parrs content strict D T) tree) in Hic' as (vss & HQS & Hicv & Htot); auto.
      2:{ apply pas_nil. }
      2:{ intros; eapply pas_cons; eauto. }
      2:{ intros ? ? ? ? [= -> ->]; auto. }
      2:{ intros i0 e r Hrun. apply IHAB in Hrun as (vs & P1 & P2 & P3); [|rewrite P64; lia]. exists vs. split; [exact P1|]. split; [exact P2|lia]. }
      rewrite Hr in HQS. cbn [snd] in HQS.
      assert (Heq : ic = map (fun os : list obj => (os, len os)) (map (map tree) (rev vss))).
      { rewrite <- (rev_involutive ic), Hicv, <- map_rev, map_map. apply map_ext. intros vs. now rewrite len_map. }
      rewrite Hic, Heq, map_map in Hmg. cbn [fst snd] in Hmg.
      rewrite (merge_all_ok BArr merge_arr) in Hmg.
      2:{ intros [] its c; reflexivity. }
      2:{ rewrite <- concat_map, len_map, len_concat_rev. rewrite N.add_0_l, W64_val, <- P64. lia. }
      injection Hmg as <- <-. exists (concat vss). split.
      { eapply pa; [exact Hv|exact Hv2| |exact Hin|]; [apply stands_app; auto|rewrite len_app, N.add_assoc; exact HQS]. }
      split; [|lia]. cbn [tree_of]. rewrite len_rev. rewrite app_nil_r, N.add_0_l.
      rewrite <- concat_map, len_map, len_concat_rev, <- !map_rev, !rev_involutive, concat_map. reflexivity.
    - intros i o j H. rewrite ParseMap_S in H. change {| idx := i; off := i |} with (at_ i) in H.
      pstep H. destruct x as [n s1]. apply length_sound in H0 as (cnt & Hv & Hs & -> & Hl & Hp).
      pstep H. destruct x as [id s2]. apply length_sound in H0 as (idb & Hv2 & Hs2 & -> & Hl2 & Hp2).
      pstep H. rename x into sizes. apply info_sound in H0 as Hin. destruct (Hsi _ _ Hin) as [HF32 Hcount]. cbn [idx at_] in H.
      destruct (Hcap (i + len cnt + len idb) sizes Hl2 Hcount) as [Hc1 Hc2].
      pose proof (last_ge sizes _ Hc1 HF32) as Hlast.
      destruct (ranges (i + len cnt + len idb) sizes) as [rs last] eqn:Hr. cbn [snd] in Hlast.
      rewrite run_PPar in H. destruct (hard_failure _) eqn:Hh; [destruct f0; discriminate|].
      pstep H. destruct x as [items size]. cbn [run] in H. injection H as <- <-.
      pose proof H1 as Hmg. apply (merge_all_inv BMap) in H1 as (ic & Hic).
      2:{ clear. intros acc [[]| | | |] acc' H; cbn in H; try discriminate. eauto. }
      pose proof Hic as Hic'.
      replace rs with (fst (ranges (i + len cnt + len idb) sizes)) in Hic' by (now rewrite Hr).
      apply (blocks_sound (fun e s => ParseMapBlock E si f e s [] 0) BMap (pmap_block content strict D T) (pmaps content strict D T) etree) in Hic' as (vss & HQS & Hicv & Htot); auto.
      2:{ apply pms_nil. }
      2:{ intros; eapply pms_cons; eauto. }
      2:{ intros ? ? ? ? [= -> ->]; auto. }
      2:{ intros i0 e r Hrun. apply IHMB in Hrun as (vs & P1 & P2 & P3); [|rewrite P64; lia]. exists vs. split; [exact P1|]. split; [exact P2|lia]. }
      rewrite Hr in HQS. cbn [snd] in HQS.
      assert (Heq : ic = map (fun os : list (bytes * obj) => (os, len os)) (map (map etree) vss)).
      { rewrite Hicv, map_map. apply map_ext. intros vs. now rewrite len_map. }
      rewrite Hic, Heq, map_map in Hmg. cbn [fst snd] in Hmg.
      rewrite (merge_all_ok BMap merge_map) in Hmg.
      2:{ intros [] its c; reflexivity. }
      2:{ rewrite <- concat_map, len_map. rewrite N.add_0_l, W64_val, <- P64. lia. }
      injection Hmg as <- <-. exists (concat (rev vss)). split.
      { eapply pm; [exact Hv|exact Hv2| |exact Hin|]; [apply stands_app; auto|rewrite len_app, N.add_assoc; exact HQS]. }
      split; [|lia]. cbn [tree_of]. rewrite app_nil_r, N.add_0_l, <- map_rev, <- !concat_map, len_map, len_concat_rev. reflexivity.
    - intros i o s H. rewrite block_value_S in H. pstep H. destruct x as [[t fl] s1].
      pose proof (inside_tag _ _ _ H0) as Hi. apply tag_sound in H0 as (x & Hx & Ht & Hfl & -> & Hi1).
      destruct fl.
      + apply (tag_split _ _ Ht) in Hfl. destruct t; [discriminate| |].
        * rewrite run_bind in H. apply obind_ok in H as ([o' e] & H' & [= <- <-]). cbn [idx at_] in H'. apply IHM in H' as (es & P1 & -> & P2).
          exists (VMap es), e. split; [eapply pv_map; eauto|]. repeat split; auto. lia.
        * rewrite run_bind in H. apply obind_ok in H as ([o' e] & H' & [= <- <-]). cbn [idx at_] in H'. apply IHA in H' as (es & P1 & -> & P2).
          exists (VArr (rev es)), e. split; [eapply pv_array; eauto|]. repeat split; auto. lia.
      + destruct (values_sound E get D CoroFrame Hbase Hsize Hlim Hmap Hget f) as (VS & _ & _).
        apply VS in H as (v & b & Hty & Hw & Hst & -> & Hl & ->); [|exact Hi1].
        exists (mirror v), (i + len (x :: b)). split.
        { apply pv_whole; auto; [apply N.ltb_lt; exact Hfl|unfold tagged; now rewrite Hty|now apply stands_cons]. }
        rewrite len_cons. split; [reflexivity|]. split; [f_equal; lia|]. split; [lia|exact Hi].
    - intros i e acc n r Hn H. rewrite ParseArrayBlock_S in H. cbn [off at_] in H. destruct (N.ltb_spec i e) as [Hlt|Hge].
      + rewrite run_bind in H. apply obind_ok in H as ([o s] & Hv & H). apply IHV in Hv as (v & j & Hv & -> & -> & Hij & Hil).
        rewrite P64 in Hn. rewrite u64_small in H by (rewrite W64_val; lia).
        apply IHAB in H as (vs & P1 & -> & P3); [|rewrite P64; lia]. exists (v :: vs). split; [eapply pab_more; eauto|].
        rewrite len_cons. split; [|lia]. cbn [rev map]. rewrite <- app_assoc. cbn [app]. f_equal. lia.
      + cbn [run] in H. injection H as <-. exists []. split; [now constructor|]. cbn [map]. rewrite app_nil_r, len_nil, N.add_0_r. split; [reflexivity|lia].
    - intros i e acc n r Hn H. rewrite ParseMapBlock_S in H. cbn [off at_] in H. destruct (N.ltb_spec i e) as [Hlt|Hge].
      + rewrite run_bind in H. apply obind_ok in H as ([kv s] & Hk & H). pstep H. rename x into key. rename H0 into Hr.
        rewrite run_bind in H. apply obind_ok in H as ([o s'] & Hv & H).
        assert (Htg : exists t fl s2, parseObjectType_split R s = Ok (t, fl, s2)).
        { clear - Hv. destruct f as [|f]; [discriminate|]. rewrite block_value_S in Hv. pstep Hv. destruct x as [[t fl] s2]. eauto. }
        destruct Htg as (t & fl & s2 & Htg).
        destruct (blockkey_sound _ _ _ _ _ _ _ Hk Hr Htg) as (j & Hkey & -> & Hij0 & Hil0).
        apply IHV in Hv as (v & j' & Hv & -> & -> & Hij & Hil).
        rewrite P64 in Hn. rewrite u64_small in H by (rewrite W64_val; lia).
        apply IHMB in H as (vs & P1 & -> & P3); [|rewrite P64; lia]. exists ((key, v) :: vs). split; [eapply pmb_more; eauto|].
        rewrite len_cons. split; [|lia]. cbn [rev map fst snd]. rewrite <- app_assoc. cbn [app]. f_equal. lia.
      + cbn [run] in H. injection H as <-. exists []. split; [now constructor|]. cbn [map]. rewrite app_nil_r, len_nil, N.add_0_r. split; [reflexivity|lia].
  Qed.
End Sound.

Lemma parrs_nil C st D T i vss j : parrs C st D T i [] vss j -> vss = [] /\ j = i.
Proof. intros H. inversion H. auto. Qed.
Lemma parrs_cons C st D T i n sizes vss j : parrs C st D T i (n :: sizes) vss j ->
  exists vs vss', vss = vs :: vss' /\ parr_block C st D T i (i + n) vs /\ parrs C st D T (i + n) sizes vss' j.
Proof. intros H. inversion H; subst. eauto. Qed.
Lemma pmaps_nil C st D T i vss j : pmaps C st D T i [] vss j -> vss = [] /\ j = i.
Proof. intros H. inversion H. auto. Qed.
Lemma pmaps_cons C st D T i n sizes vss j : pmaps C st D T i (n :: sizes) vss j ->
  exists vs vss', vss = vs :: vss' /\ pmap_block C st D T i (i + n) vs /\ pmaps C st D T (i + n) sizes vss' j.
Proof. intros H. inversion H; subst. eauto. Qed.

Section Steps.
  Variables (main : bytes) (st : bool) (D : option (N -> option bytes)) (T : list (N * list N)).
  Lemma vlen n b : vint n b -> 1 <= len b.
  Proof using. clear. intros H. apply vint_len in H. unfold len. lia. Qed.
  Lemma parrs_le : forall sizes i vss j, parrs main st D T i sizes vss j -> i <= j.
  Proof using. clear. induction sizes as [|n sizes IH]; intros i vss j H; [apply parrs_nil in H as [_ ->]; lia|].
    apply parrs_cons in H as (? & ? & _ & _ & H). apply IH in H. lia. Qed.
  Lemma pmaps_le : forall sizes i vss j, pmaps main st D T i sizes vss j -> i <= j.
  Proof using. clear. induction sizes as [|n sizes IH]; intros i vss j H; [apply pmaps_nil in H as [_ ->]; lia|].
    apply pmaps_cons in H as (? & ? & _ & _ & H). apply IH in H. lia. Qed.
  Lemma pval_step i v j : pval main st D T i v j -> i < j /\ i < len main.
  Proof using.
    clear. intros H. assert (G : forall b, found main i b -> i + len b <= len main) by (intros b; apply stands_len).
    destruct H as [i t b v H1 H2 H3 H4|i t vs j H1 H2 H3|i t es j H1 H2 H3].
    - apply G in H4. rewrite len_cons in *. lia.
    - apply G in H2. rewrite len_cons in H2. inversion H3 as [i0 n cnt id idb sizes vss j0 _ _ _ _ H4]; subst. apply parrs_le in H4. lia.
    - apply G in H2. rewrite len_cons in H2. inversion H3 as [i0 n cnt id idb sizes vss j0 _ _ _ _ H4]; subst. apply pmaps_le in H4. lia.
  Qed.
  Lemma pkey_step i k j : pkey main D i k j -> i < j /\ i < len main /\ j <= len main.
  Proof using.
    clear. intros H. assert (G : forall b, found main i b -> i + len b <= len main) by (intros b; apply stands_len).
    destruct H as [i n l k H1 H2 H3 H4|d i id l k H1 H2 H3 H4]; apply G in H4; apply vlen in H2; rewrite ?len_app in *; lia.
  Qed.
  Lemma parr_block_len : forall vs i e, parr_block main st D T i e vs -> len vs <= len main - i.
  Proof using. clear. induction vs as [|v vs IH]; intros i e H; [rewrite len_nil; lia|]. inversion H; subst.
    match goal with H1 : pval _ _ _ _ _ _ _ |- _ => apply pval_step in H1 end. match goal with H1 : parr_block _ _ _ _ _ _ _ |- _ => apply IH in H1 end. rewrite len_cons. lia. Qed.
  Lemma pmap_block_len : forall vs i e, pmap_block main st D T i e vs -> len vs <= len main - i.
  Proof using. clear. induction vs as [|v vs IH]; intros i e H; [rewrite len_nil; lia|]. inversion H; subst.
    match goal with H1 : pkey _ _ _ _ _ |- _ => apply pkey_step in H1 end. match goal with H1 : pval _ _ _ _ _ _ _ |- _ => apply pval_step in H1 end.
    match goal with H1 : pmap_block _ _ _ _ _ _ ?l |- context [?l] => apply IH in H1 end. rewrite len_cons. lia. Qed.
End Steps.

Section Complete.
  Variable E : penv.
  Variable si : split_info.
  Variable get : N -> outcome view.
  Variable D : option (N -> option bytes).
  Variables main rest : bytes.
  Notation R := (b_env E).
  Notation content := (r_content (b_env E)).
  Notation strict := (negb (ndebug (r_cfg (b_env E)))).
  Notation T := (si_info si).
  Hypothesis Hbase : r_base R = 0.
  Hypothesis Hsize : r_size R = len content.
  Hypothesis Hlim : lim (r_cfg R) (len content).
  Hypothesis Hmap : ModelParse.b_map E = match D with Some _ => true | None => false end.
  Hypothesis Hget : forall d id s, D = Some d -> d id = Some s -> exists v, get id = Ok v /\ read_local R v = Ok s.
  Hypothesis Hsi : forall id l, In (id, l) T -> Forall (fun x => x < 2 ^ 32) l /\ len l <= len content.
  Hypothesis Hnd : NoDup (map fst T).
  Hypothesis Hcontent : content = main ++ rest.
  Hypothesis Hrest : rest <> [].

  Notation tree := (tree_of CoroFrame).
  Notation etree := (fun e : bytes * value => (fst e, tree (snd e))).

  Lemma main_found i b : found main i b -> stands content i b /\ i + len b < len content.
  Proof using Hcontent Hrest.
    clear - Hcontent Hrest. intros (A & B & HA & Hl). rewrite Hcontent. split.
    - exists A, (B ++ rest). rewrite HA, <- !app_assoc. auto.
    - rewrite HA, !len_app. destruct rest; [congruence|]. rewrite len_cons. lia.
  Qed.
  Lemma main_lt : len main < len content.
  Proof using Hcontent Hrest. clear - Hcontent Hrest. rewrite Hcontent, len_app. destruct rest; [congruence|rewrite len_cons; lia]. Qed.

  Lemma info_complete id l : In (id, l) T -> GetBlockInfoFromId si id = Ok l.
  Proof using Hnd.
    clear - Hnd. unfold GetBlockInfoFromId. intros H. assert (assoc_find N.eqb id T = Some l) as ->; [|reflexivity].
    revert H Hnd. induction T as [|[k z] q IH]; cbn; [tauto|]. intros H Hnd. inversion Hnd as [|? ? Hn Hq]; subst. destruct H as [[= -> ->]|H].
    - now rewrite N.eqb_refl.
    - destruct (N.eqb_spec id k) as [->|]; [|auto]. exfalso. apply Hn. change k with (fst (k, l)). now apply in_map.
  Qed.

  Lemma tag_complete i x t fl : stands content i [x] -> b2n x mod 128 = ObjectTypeToChar t -> (b2n x <? 128) = negb fl ->
    parseObjectType_split R (at_ i) = Ok (t, fl, at_ (i + 1)).
  Proof using Hbase Hsize Hlim.
    clear - Hbase Hsize Hlim.
    intros Hs Ht Hfl. pose proof (stands_len _ _ _ Hs) as Hl. rewrite len_cons, len_nil in Hl. unfold parseObjectType_split.
    rewrite check_empty_at by (try (rewrite Hsize; exact Hlim); rewrite ?Hsize; lia). cbn [obind].
    rewrite curAddr_at by (rewrite Hsize; lia). cbn [obind]. rewrite Hbase, N.add_0_l.
    assert (read_byte content i = Ok x) as -> by (apply read_byte_stands; [lia|exact Hs]). cbn [obind].
    rewrite (skip_at R) by (try (rewrite Hsize; exact Hlim); rewrite ?Hsize; lia). rewrite ParseLemmas.check_oor_ok by (cbn; rewrite Hsize; lia). cbn [obind].
    rewrite (add_off_at R) by (try (rewrite Hsize; exact Hlim); rewrite ?Hsize; lia). rewrite land127 by apply b2n_lt.
    apply CharToObjectType_inv in Ht. rewrite Ht. do 3 f_equal.
    clear - Hfl. destruct x; destruct fl; vm_compute in Hfl |- *; congruence.
  Qed.

  Lemma blockkey_complete i k j : pkey main D i k j ->
    exists kv, run get (block_key E (at_ i)) = Ok (kv, at_ j) /\ read_local R kv = Ok k.
  Proof using Hbase Hsize Hlim Hmap Hget Hcontent Hrest.
    clear - Hbase Hsize Hlim Hmap Hget Hcontent Hrest. pose proof (HW E Hlim) as HW.
    intros H. unfold block_key. rewrite Hmap. destruct H as [i n l k HD Hv Hn Hf|d i id l k HD Hv Hd Hf]; rewrite HD; apply main_found in Hf as [Hs Hl].
    - rewrite len_app in Hl. rewrite run_bind, run_lift.
      rewrite (parseLength_complete E Hbase Hsize Hlim i n l) by (auto; eapply stands_l; exact Hs). cbn [obind].
      rewrite run_bind, run_lift. rewrite curAddr_at by (rewrite Hsize; lia). cbn [obind run]. rewrite Hbase, N.add_0_l.
      apply stands_r in Hs. change (u32 n) with (n mod 2 ^ 32). rewrite Hn.
      assert (Hst : add_off (len k) (skip (len k) (at_ (i + len l))) = at_ (i + len (l ++ k))).
      { unfold add_off, skip, at_. cbn. rewrite u64_small by (rewrite W64_val; lia). rewrite len_app. f_equal; lia. }
      rewrite Hst. eexists. split; [reflexivity|]. unfold read_local. cbn. now apply read_range_stands.
    - rewrite run_bind, run_lift. rewrite (parseLength_complete E Hbase Hsize Hlim i id l) by auto. cbn [obind run].
      destruct (Hget d (id mod 2 ^ 32) k HD Hd) as (v & G1 & G2). change (u32 id) with (id mod 2 ^ 32). rewrite G1. cbn [obind run].
      exists v. auto.
  Qed.

  Lemma blocks_complete {V I} (task : N -> rstate -> prog block) (mk : list I -> N -> block) (Q : N -> N -> list V -> Prop)
      (QS : N -> list N -> list (list V) -> N -> Prop) (f : V -> I) i0 :
    (forall i vss j, QS i [] vss j -> vss = [] /\ j = i) ->
    (forall i n sizes vss j, QS i (n :: sizes) vss j -> exists vs vss', vss = vs :: vss' /\ Q i (i + n) vs /\ QS (i + n) sizes vss' j) ->
    (forall i e vs, i0 <= i -> Q i e vs -> run get (task e (at_ i)) = Ok (mk (map f vs) (len (map f vs))) /\ len vs <= len content) ->
    forall sizes i vss j, i0 <= i -> i + len sizes * 2 ^ 32 < 2 ^ 64 -> Forall (fun x => x < 2 ^ 32) sizes ->
      QS i sizes vss j ->
      map (fun t => run get t) (map (fun be => task (snd be) {| idx := fst be; off := fst be |}) (fst (ranges i sizes))) = map (fun os => Ok (mk os (len os))) (map (map f) vss) /\
      snd (ranges i sizes) = j /\ len (concat vss) <= len content * len sizes.
  Proof using.
    clear. intros Q0 Q1 Htask. induction sizes as [|n sizes IH]; intros i vss j Hi Hb HF HQ.
    - apply Q0 in HQ as [-> ->]. cbn. split; [reflexivity|]. split; [reflexivity|]. change (len (@nil V)) with 0. lia.
    - apply Q1 in HQ as (vs & vss' & -> & HQ & HQS).
      inversion HF as [|? ? Hn HF']; subst. rewrite len_cons in Hb. change (2 ^ 64) with 18446744073709551616 in *. change (2 ^ 32) with 4294967296 in *.
      rewrite ranges_cons'. cbn [fst snd map]. rewrite u64_small by (rewrite W64_val; lia).
      destruct (Htask i (i + n) vs Hi HQ) as [Hr Hl]. change {| idx := i; off := i |} with (at_ i). rewrite Hr.
      destruct (IH (i + n) vss' j) as (P1 & P2 & P3); auto; try lia. rewrite P1, P2. split; [reflexivity|]. split; [reflexivity|].
      cbn [concat]. rewrite len_app, len_cons. lia.
  Qed.

  Lemma para_complete fuel :
    (forall i vs j, parr main strict D T i vs j -> len content - i <= N.of_nat fuel ->
       run get (ParseArray E si fuel false i) = Ok (tree (VArr (rev vs)), j)) /\
    (forall i es j, pmap main strict D T i es j -> len content - i <= N.of_nat fuel ->
       run get (ParseMap E si fuel false i) = Ok (tree (VMap es), j)) /\
    (forall i v j, pval main strict D T i v j -> len content - i <= N.of_nat fuel ->
       run get (block_value E si fuel false (at_ i)) = Ok (tree v, at_ j)) /\
    (forall i e vs acc n, parr_block main strict D T i e vs -> len content - i + 1 <= N.of_nat fuel -> n + (len content - i) < 2 ^ 64 ->
       run get (ParseArrayBlock E si fuel false e (at_ i) acc n) = Ok (BArr (rev acc ++ map tree vs) (n + len vs))) /\
    (forall i e es acc n, pmap_block main strict D T i e es -> len content - i + 1 <= N.of_nat fuel -> n + (len content - i) < 2 ^ 64 ->
       run get (ParseMapBlock E si fuel e (at_ i) acc n) = Ok (BMap (rev acc ++ map etree es) (n + len es))).
  Proof using Hbase Hsize Hlim Hmap Hget Hsi Hnd Hcontent Hrest.
    pose proof (HW E Hlim) as HW. pose proof main_lt as Hml.
    assert (P64 : 2 ^ 64 = 18446744073709551616) by reflexivity. assert (P32 : 2 ^ 32 = 4294967296) by reflexivity.
    assert (Hcap : forall i (l : list N), i <= len content -> len l <= len content -> i + len l * 2 ^ 32 < 2 ^ 64 /\ len content * len l < 2 ^ 64).
    { clear - HW P64 P32. intros i l Hi Hl. rewrite P64, P32. split; [lia|]. assert (len content * len l <= 4294967295 * 4294967295); [|lia].
      apply N.mul_le_mono; lia. }
    assert (Hhead : forall i n cnt id idb, vint n cnt -> vint id idb -> found main i (cnt ++ idb) ->
      parseLength R (at_ i) = Ok (n, at_ (i + len cnt)) /\ parseLength R (at_ (i + len cnt)) = Ok (id, at_ (i + len (cnt ++ idb))) /\
      i + len (cnt ++ idb) < len content /\ i + 2 <= i + len (cnt ++ idb)).
    { intros i n cnt id idb Hv Hv2 Hf. apply main_found in Hf as [Hs Hl]. pose proof (vlen _ _ Hv). pose proof (vlen _ _ Hv2).
      rewrite (parseLength_complete E Hbase Hsize Hlim i n cnt) by (auto; eapply stands_l; exact Hs).
      apply stands_r in Hs. rewrite (parseLength_complete E Hbase Hsize Hlim _ id idb) by auto.
      rewrite len_app in *. split; [reflexivity|]. split; [do 3 f_equal; lia|]. lia. }
    induction fuel as [|f (IHA & IHM & IHV & IHAB & IHMB)].
    { split; [|split; [|split; [|split]]].
      - intros i vs j H Hf. destruct H as [i n cnt id idb sizes vss j Hv Hv2 Hfd Hin Hb]. destruct (Hhead _ _ _ _ _ Hv Hv2 Hfd) as (_ & _ & ? & ?). lia.
      - intros i vs j H Hf. destruct H as [i n cnt id idb sizes vss j Hv Hv2 Hfd Hin Hb]. destruct (Hhead _ _ _ _ _ Hv Hv2 Hfd) as (_ & _ & ? & ?). lia.
      - intros i v j H Hf. apply pval_step in H. lia.
      - intros. lia.
      - intros. lia. }
    split; [|split; [|split; [|split]]].
    - intros i vs j H Hf. destruct H as [i n cnt id idb sizes vss j Hv Hv2 Hfd Hin Hb]. destruct (Hhead _ _ _ _ _ Hv Hv2 Hfd) as (L1 & L2 & L3 & L4).
      rewrite ParseArray_S. cbv zeta. change {| idx := i; off := i |} with (at_ i).
      rewrite run_bind, run_lift, L1. cbn [obind]. rewrite run_bind, run_lift, L2. cbn [obind].
      rewrite run_bind, run_lift. change (u32 id) with (id mod 2 ^ 32). rewrite (info_complete _ _ Hin). cbn [obind idx at_].
      destruct (Hsi _ _ Hin) as [HF32 Hcount]. set (b0 := i + len (cnt ++ idb)) in *. destruct (Hcap b0 sizes) as [Hc1 Hc2]; [lia|exact Hcount|].
      destruct (blocks_complete (fun e s => ParseArrayBlock E si f false e s [] 0) BArr (parr_block main strict D T) (parrs main strict D T) tree b0
        (parrs_nil _ _ _ _) (parrs_cons _ _ _ _)) with (sizes := sizes) (i := b0) (vss := vss) (j := j) as (Q1 & Q2 & Q3); auto; try lia.
      { intros i1 e vs Hi1 Hq. pose proof (parr_block_len _ _ _ _ _ _ _ Hq). split; [|lia]. rewrite (IHAB i1 e vs) by (auto; rewrite ?P64; lia).
        rewrite len_map. reflexivity. }
      destruct (ranges b0 sizes) as [rs last]. cbn [fst snd] in Q1, Q2. subst last. rewrite run_PPar, Q1.
      rewrite <- (map_map (fun os => BArr os (len os)) (@Ok block)), hard_failure_ok, map_map.
      rewrite run_bind, run_lift, <- map_rev. rewrite (merge_all_ok BArr merge_arr).
      2:{ intros [] its c; reflexivity. }
      2:{ rewrite len_concat_rev, <- concat_map, len_map. rewrite N.add_0_l, W64_val, <- P64. lia. }
      cbn [obind run]. rewrite rev_involutive, app_nil_r, N.add_0_l, len_concat_rev, <- concat_map, len_map. cbn [tree_of].
      rewrite len_rev, map_rev, rev_involutive. reflexivity.
    - intros i vs j H Hf. destruct H as [i n cnt id idb sizes vss j Hv Hv2 Hfd Hin Hb]. destruct (Hhead _ _ _ _ _ Hv Hv2 Hfd) as (L1 & L2 & L3 & L4).
      rewrite ParseMap_S. cbv zeta. change {| idx := i; off := i |} with (at_ i).
      rewrite run_bind, run_lift, L1. cbn [obind]. rewrite run_bind, run_lift, L2. cbn [obind].
      rewrite run_bind, run_lift. change (u32 id) with (id mod 2 ^ 32). rewrite (info_complete _ _ Hin). cbn [obind idx at_].
      destruct (Hsi _ _ Hin) as [HF32 Hcount]. set (b0 := i + len (cnt ++ idb)) in *. destruct (Hcap b0 sizes) as [Hc1 Hc2]; [lia|exact Hcount|].
      destruct (blocks_complete (fun e s => ParseMapBlock E si f e s [] 0) BMap (pmap_block main strict D T) (pmaps main strict D T) etree b0
        (pmaps_nil _ _ _ _) (pmaps_cons _ _ _ _)) with (sizes := sizes) (i := b0) (vss := vss) (j := j) as (Q1 & Q2 & Q3); auto; try lia.
      { intros i1 e vs Hi1 Hq. pose proof (pmap_block_len _ _ _ _ _ _ _ Hq). split; [|lia]. rewrite (IHMB i1 e vs) by (auto; rewrite ?P64; lia).
        rewrite len_map. reflexivity. }
      destruct (ranges b0 sizes) as [rs last]. cbn [fst snd] in Q1, Q2. subst last. rewrite run_PPar, Q1.
      rewrite <- (map_map (fun os => BMap os (len os)) (@Ok block)), hard_failure_ok, map_map.
      rewrite run_bind, run_lift. rewrite (merge_all_ok BMap merge_map).
      2:{ intros [] its c; reflexivity. }
      2:{ rewrite <- concat_map, len_map. rewrite N.add_0_l, W64_val, <- P64. lia. }
      cbn [obind run]. rewrite app_nil_r, N.add_0_l, <- map_rev, <- !concat_map, len_map. cbn [tree_of].
      rewrite len_concat_rev. reflexivity.
    - intros i v j H Hf. rewrite block_value_S. destruct H as [i t b v H1 H2 H3 H4|i t vs j H1 H2 H3|i t es j H1 H2 H3].
      + apply main_found in H4 as [Hs Hl]. change (t :: b) with ([t] ++ b) in Hs. rewrite run_bind, run_lift.
        rewrite (tag_complete i t (type_of v) false) by (first [exact H2|apply N.ltb_lt; exact H1|eapply stands_l; exact Hs]). cbn [obind].
        apply stands_r in Hs. change (len [t]) with 1 in Hs. rewrite len_cons in *.
        destruct (values_complete E get D CoroFrame Hbase Hsize Hlim Hmap Hget f) as (VC & _ & _).
        rewrite (VC v b (i + 1)); auto; [do 3 f_equal; lia|lia|unfold len in *; lia].
      + pose proof (main_found _ _ H2) as [Hs Hl]. rewrite len_cons in Hl. rewrite run_bind, run_lift.
        rewrite (tag_complete i t TArray true) by (auto; rewrite H1; reflexivity). cbn [obind]. rewrite run_bind. cbn [idx at_].
        rewrite (IHA _ _ _ H3) by lia. reflexivity.
      + pose proof (main_found _ _ H2) as [Hs Hl]. rewrite len_cons in Hl. rewrite run_bind, run_lift.
        rewrite (tag_complete i t TMap true) by (auto; rewrite H1; reflexivity). cbn [obind]. rewrite run_bind. cbn [idx at_].
        rewrite (IHM _ _ _ H3) by lia. reflexivity.
    - intros i e vs acc n H Hf Hn. rewrite P64 in Hn. rewrite ParseArrayBlock_S. cbn [off at_]. destruct H as [i e Hie|i e v j vs Hie Hv Hb].
      + replace (i <? e) with false by lia. cbn [run map]. now rewrite app_nil_r, len_nil, N.add_0_r.
      + replace (i <? e) with true by lia. destruct (pval_step _ _ _ _ _ _ _ Hv) as [S1 S2]. rewrite run_bind. rewrite (IHV _ _ _ Hv) by lia.
        cbn [obind]. rewrite u64_small by (rewrite W64_val; lia). rewrite (IHAB j e vs) by (auto; rewrite ?P64; lia).
        rewrite len_cons. cbn [rev map]. rewrite <- app_assoc. cbn [app]. do 2 f_equal. lia.
    - intros i e vs acc n H Hf Hn. rewrite P64 in Hn. rewrite ParseMapBlock_S. cbn [off at_]. destruct H as [i e Hie|i e k j v j' vs Hie Hk Hv Hb].
      + replace (i <? e) with false by lia. cbn [run map]. now rewrite app_nil_r, len_nil, N.add_0_r.
      + replace (i <? e) with true by lia. destruct (pval_step _ _ _ _ _ _ _ Hv) as [S1 S2]. destruct (pkey_step _ _ _ _ _ Hk) as (S3 & S4 & S5).
        rewrite run_bind. destruct (blockkey_complete _ _ _ Hk) as (kv & K1 & K2). rewrite K1. cbn [obind]. rewrite run_bind, run_lift, K2. cbn [obind].
        rewrite run_bind. rewrite (IHV _ _ _ Hv) by lia.
        cbn [obind]. rewrite u64_small by (rewrite W64_val; lia). rewrite (IHMB j' e vs) by (auto; rewrite ?P64; lia).
        rewrite len_cons. cbn [rev map fst snd]. rewrite <- app_assoc. cbn [app]. do 2 f_equal. lia.
  Qed.
End Complete.
