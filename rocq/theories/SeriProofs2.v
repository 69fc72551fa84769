(** * The serializer produces the documented format: containers, whole documents. *)
From Verif Require Import Base BaseLemmas ModelVarint ModelData ModelSecondary ModelObject
  ModelWrapper Spec VarintProofs Wire NumProofs ObjInd SeriProofs.
From Coq Require Import ZifyBool ZifyNat ZifyN.
Local Open Scope out_scope.

(** ** One child: type byte, value, split mark *)
Lemma set_msb_mid a x r : set_msb (length a) (a ++ x :: r) = a ++ n2b (N.lor (b2n x) 128) :: r.
Proof.
  unfold set_msb. rewrite skipn_app, skipn_all, Nat.sub_diag. cbn.
  rewrite firstn_app, firstn_all, Nat.sub_diag. cbn. now rewrite app_nil_r.
Qed.

Lemma GetType_denotes mem o v : denotes mem o v -> GetType o = Ok (type_of v).
Proof. now destruct 1. Qed.

Lemma tag_false v : tag v false = n2b (ObjectTypeToChar (type_of v)).
Proof. unfold tag; now rewrite N.add_0_r. Qed.

Lemma tag_true v : n2b (N.lor (b2n (tag v false)) 128) = tag v true.
Proof. now destruct v. Qed.

Lemma Inv_set_outer st b : len b = len (outer st) -> Inv st -> Inv (with_outer st b).
Proof.
  intros HL [I1 I2 I3 I4 I5].
  constructor; unfold keys, next, info in *; cbn in *; rewrite ?HL; auto.
Qed.

Definition node_ok (c : cfg) (mem : memory) (o : obj) (v : value) : Prop :=
  forall st, good st ->
  exists st' fl e, valueSeri c mem o st = Ok (st', fl) /\
    post st st' e (strs v) (fun D T => wire D T (split_block_size c) v fl e) /\
    (fl = true -> type_of v <> TData).

Lemma seri_child_ok c mem o v st :
  denotes mem o v -> node_ok c mem o v -> good st ->
  exists st' e, seri_child c o (valueSeri c mem o) st = Ok st' /\
    post st st' e (strs v) (fun D T => elem_wire D T (split_block_size c) v e).
Proof.
  intros Hd Hn Hg. unfold seri_child. rewrite (GetType_denotes _ _ _ Hd). cbn [obind].
  destruct (Hn (st_push (ObjectTypeToChar (type_of v)) st) Hg) as (st' & fl & e & He & Hp & Hfl).
  rewrite He. cbn [obind].
  pose proof (post_trans _ _ _ _ _ _ _ _ _ (post_push _ st) Hp) as H. rewrite <- tag_false in H.
  destruct fl.
  - assert (Hg2 : negb (ndebug c) && (ObjectTypeToChar (type_of v) =? ObjectTypeToChar TData) = false).
    { specialize (Hfl eq_refl). destruct (type_of v); [congruence| |]; apply andb_false_r. }
    rewrite Hg2. eexists _, (tag v true :: e). split; [reflexivity|].
    destruct H as (O & Sh & HI).
    assert (Ho : set_msb (length (outer st)) (outer st') = outer st ++ tag v true :: e).
    { rewrite O. cbn [app]. now rewrite set_msb_mid, tag_true. }
    split; [exact Ho|]. split; [exact Sh|].
    intros HL HI0. cbn [outer with_outer] in HL. rewrite Ho in HL.
    assert (HLe : len (set_msb (length (outer st)) (outer st')) = len (outer st')).
    { rewrite Ho, O. rewrite !len_app, !len_cons, ?len_app, ?len_nil. lia. }
    destruct HI as (HI1 & HI2 & HI3); [rewrite <- HLe, Ho; exact HL|exact HI0|].
    split; [now apply Inv_set_outer|]. split; [eapply ext_weaken; [|exact HI2]; intros k [[]|]; auto|].
    intros D T HA. destruct (HI3 D T HA) as [_ Hw]. exists true, e; split; [exact Hw|reflexivity].
  - eexists _, (tag v false :: e). split; [reflexivity|].
    eapply post_weaken; [| |exact H].
    + intros k [[]|]; auto.
    + intros HL D T _ [_ Hw]. exists false, e; split; [exact Hw|reflexivity].
Qed.

(** ** The loop over the children *)
Section Items.
  Variable c : cfg.
  Context {I V : Type}.
  Variable seri_item : I -> sstate -> outcome sstate.
  Variable item_wire : dict -> table -> V -> bytes -> Prop.
  Variable istrs : V -> bytes -> Prop.

  Definition item_ok (i : I) (v : V) : Prop :=
    forall st, good st -> exists st' e, seri_item i st = Ok st' /\
      post st st' e (istrs v) (fun D T => item_wire D T v e).

  Lemma post_refl st : post st st [] none (fun _ _ => True).
  Proof.
    split; [now rewrite app_nil_r|]. split; [apply shape_refl|]. intros HL HI.
    split; [exact HI|]. split; [apply ext_refl|auto].
  Qed.

  Lemma block_size_app a b : block_size (a ++ b) = block_size a + block_size b.
  Proof. unfold block_size. now rewrite concat_app, len_app. Qed.

  Lemma block_size_one x : block_size [x] = len x.
  Proof. unfold block_size. cbn. now rewrite app_nil_r. Qed.

  Lemma seri_items_ok items vs :
    Forall2 item_ok items vs ->
    forall st cs bl, good st ->
    exists st' cs' bl' chunks,
      seri_items c seri_item items st cs bl = Ok (st', cs', bl') /\
      post st st' (concat chunks) (fun k => exists v, In v vs /\ istrs v k)
           (fun D T => Forall2 (item_wire D T) vs chunks) /\
      (len (outer st') < W32 -> forall pend, cs + block_size pend = len (outer st) ->
        exists groups pend',
          pend ++ chunks = concat groups ++ pend' /\
          bl' = bl ++ map block_size groups /\
          cs' + block_size pend' = len (outer st') /\
          Forall (fun g => g <> []) groups /\
          Forall (fun g => split_block_size c <= block_size g) groups).
  Proof.
    induction 1 as [|i v items vs Hi HF IH]; intros st cs bl Hg.
    - exists st, cs, bl, []. split; [reflexivity|]. split.
      + eapply post_weaken; [| |apply post_refl]; [intros k []|]. intros; constructor.
      + intros HL pend Hp. exists [], pend. cbn. rewrite !app_nil_r. auto.
    - destruct (Hi st Hg) as (st1 & e & He & Hp1). cbn [seri_items]. rewrite He. cbn [obind].
      destruct (cut_block c st1 cs bl) as [cs1 bl1] eqn:Hcut.
      pose proof (post_good _ _ _ _ _ Hg Hp1) as Hg1.
      destruct (IH st1 cs1 bl1 Hg1) as (st' & cs' & bl' & chunks & Hrun & Hp2 & Hblk).
      exists st', cs', bl', (e :: chunks). split; [exact Hrun|]. split.
      + eapply post_weaken; [| |exact (post_trans _ _ _ _ _ _ _ _ _ Hp1 Hp2)].
        * intros k [H|(v' & Hv & H)]; [exists v; split; [now left|exact H]|exists v'; split; [now right|exact H]].
        * intros HL D T _ [H1 H2]. now constructor.
      + intros HL pend Hpend.
        destruct Hp1 as (O1 & _ & _), Hp2 as (O2 & _ & _).
        assert (HL1 : len (outer st1) < W32) by (rewrite O2, len_app in HL; lia).
        assert (Hcs : cs + block_size (pend ++ [e]) = len (outer st1)).
        { rewrite block_size_app, block_size_one, O1, len_app. lia. }
        assert (Hcases : (cs1 = cs /\ bl1 = bl) \/
                         (cs1 = len (outer st1) /\ bl1 = bl ++ [block_size (pend ++ [e])] /\
                          split_block_size c <= block_size (pend ++ [e]))).
        { unfold cut_block in Hcut. unfold good in Hg1.
          destruct (sinfo st1) as [si|]; [|congruence].
          rewrite sub64_small in Hcut by (rewrite ?W64_val, ?W32_val in *; lia).
          destruct (N.leb_spec (split_block_size c) (len (outer st1) - cs)); injection Hcut as <- <-.
          - right. split; [reflexivity|].
            replace (len (outer st1) - cs) with (block_size (pend ++ [e])) in * by lia.
            rewrite u32_small by lia. auto.
          - now left. }
        destruct Hcases as [[-> ->]|(-> & -> & Hsz)].
        * destruct (Hblk HL (pend ++ [e]) Hcs) as (groups & pend' & G1 & G2 & G3 & G4 & G5).
          exists groups, pend'. rewrite <- app_assoc in G1. auto.
        * destruct (Hblk HL []) as (groups & pend' & G1 & G2 & G3 & G4 & G5);
            [unfold block_size; cbn; rewrite len_nil; lia|].
          exists ((pend ++ [e]) :: groups), pend'. cbn [concat app map] in *. split; [|split; [|split; [|split]]].
          -- rewrite <- !app_assoc. cbn [app]. now rewrite <- G1.
          -- rewrite G2, <- app_assoc. reflexivity.
          -- exact G3.
          -- constructor; [now destruct pend|exact G4].
          -- constructor; auto.
  Qed.
End Items.

(** ** Containers *)
Lemma last_map {A B} (f : A -> B) l d : last (map f l) (f d) = f (last l d).
Proof. induction l as [|x [|y l] IH]; cbn in *; auto. Qed.

Lemma removelast_app1 {A} (l : list A) x : removelast (l ++ [x]) = l.
Proof. rewrite removelast_app by congruence. cbn. apply app_nil_r. Qed.

Lemma concat_len_le {A} (l : list (list A)) : Forall (fun g => g <> []) l -> len l <= len (concat l).
Proof.
  induction 1 as [|g l Hg HF IH]; cbn; [rewrite len_nil; lia|].
  rewrite len_cons, len_app. destruct g; [congruence|]. rewrite len_cons. lia.
Qed.

Section Container.
  Variable c : cfg.
  Hypothesis Hc : char_signed c = true.
  Context {I V : Type}.
  Variable seri_item : I -> sstate -> outcome sstate.
  Variable item_wire : dict -> table -> V -> bytes -> Prop.
  Variable istrs : V -> bytes -> Prop.
  Hypothesis item_nonempty : forall D T v e, item_wire D T v e -> e <> [].

  Lemma Inv_request st si :
    sinfo st = Some si -> Inv st ->
    Inv {| outer := outer st ++ venc (u32 (si_next si)); smap := smap st;
           sinfo := Some (snd (RequestId si)) |} \/ W32 <= len (outer st) + 1.
  Proof.
    intros Hs [I1 I2 I3 I4 I5]. unfold keys, next, info in *. rewrite Hs in *.
    destruct (N.ltb_spec (len (outer st) + 1) W32) as [H|H]; [left|right; exact H].
    pose proof (venc_len_pos (u32 (si_next si))).
    constructor; unfold keys, next, info in *; cbn in *; auto.
    - rewrite len_app; split; [tauto|lia].
    - rewrite u32_small by lia. rewrite len_app. lia.
    - rewrite u32_small by lia. destruct I4 as [I4 I4']. split; [|exact I4'].
      eapply Forall_impl; [|exact I4]. cbn; lia.
  Qed.

  Lemma container_ok items vs st size :
    Forall2 (item_ok seri_item item_wire istrs) items vs -> good st ->
    size = len items ->
    exists st' fl e id chunks,
      container_valueSeri c size seri_item items st = Ok (st', fl) /\
      post st st' e (fun k => exists v, In v vs /\ istrs v k)
        (fun D T => e = venc (len vs) ++ venc id ++ concat chunks /\
                    len vs < W32 /\ id < W32 /\ Forall2 (item_wire D T) vs chunks /\
                    split_ok T (split_block_size c) id chunks fl).
  Proof.
    intros HF Hg ->. unfold container_valueSeri.
    rewrite st_seriLength_ok by exact Hc. cbn [obind].
    unfold seri_split_id. cbn [sinfo with_outer smap outer].
    destruct (sinfo st) as [si|] eqn:Hsi; [|now elim Hg].
    cbn [RequestId]. rewrite st_seriLength_ok by exact Hc. cbn [obind].
    set (id := si_next si).
    match goal with |- context [seri_items c seri_item items ?s ?n []] =>
      set (st2 := s); change n with (len (outer st2)) end.
    assert (Hg2 : good st2) by (unfold good; cbn; congruence).
    destruct (seri_items_ok c seri_item item_wire istrs items vs HF st2 (len (outer st2)) [] Hg2)
      as (st3 & cs & bl & chunks & Hrun & Hp & Hblk).
    rewrite Hrun. cbn [obind].
    set (hdr := venc (u32 (u32 (len items))) ++ venc (u32 id)).
    destruct (register_split_info c id (last_block st3 cs bl) st3) as [st4 fl] eqn:Hreg.
    exists st4, fl, (hdr ++ concat chunks), id, chunks.
    split; [reflexivity|].
    pose proof Hp as (O & Sh & HI).
    assert (O2 : outer st2 = outer st ++ hdr) by (cbn; unfold hdr; now rewrite app_assoc).
    pose proof (post_good _ _ _ _ _ Hg2 Hp) as Hg3.
    assert (O4 : outer st4 = outer st3 /\ smap st4 = smap st3 /\ good st4).
    { unfold register_split_info in Hreg. destruct (sinfo st3) as [si3|] eqn:Hsi3; [|now elim Hg3].
      destruct (last_block st3 cs bl) as [|b0 bs].
      - injection Hreg as <- <-. split; [|split]; auto.
      - destruct (_ || _); injection Hreg as <- <-; (split; [|split]; auto).
        unfold good; cbn; congruence. }
    destruct O4 as (O4 & M4 & Hg4).
    assert (Hsh : shape st st4).
    { split; [|intros; exact Hg4]. rewrite M4. destruct Sh as [Sh _]. exact Sh. }
    split; [now rewrite O4, O, O2, app_assoc|]. split; [exact Hsh|].
    intros HL HInv. rewrite O4 in HL.
    assert (HL3 := HL). rewrite O, len_app, O2, len_app in HL.
    assert (Hhdr : 2 <= len hdr).
    { unfold hdr. rewrite len_app. pose proof (venc_len_pos (u32 (u32 (len items)))).
      pose proof (venc_len_pos (u32 id)). lia. }
    (* invariant before the loop *)
    assert (Hid : 1 <= id /\ id <= len (outer st)).
    { destruct HInv as [_ _ I3 _ _]. unfold next in I3; rewrite Hsi in I3. exact I3. }
    assert (Hid32 : u32 id = id) by (apply u32_small; lia).
    assert (Hn2 : next st2 = id + 1).
    { unfold next; cbn. unfold id in *. rewrite u32_small by lia. reflexivity. }
    assert (HI2 : Inv st2).
    { destruct HInv as [I1 I2 I3 I4 I5]. unfold next, info in I3, I4, I5. rewrite Hsi in I3, I4, I5.
      constructor.
      - exact I1.
      - destruct I2 as [I2 I2']. split; [exact I2|]. rewrite O2, len_app.
        unfold keys in *; cbn. lia.
      - rewrite Hn2, O2, len_app. lia.
      - rewrite Hn2. destruct I4 as [I4 I4']. unfold info; cbn. split; [|exact I4'].
        eapply Forall_impl; [|exact I4]. cbn. unfold id. lia.
      - exact I5. }
    assert (Hk2 : keys st2 = keys st) by reflexivity.
    assert (Ht2 : forall i, tbl st2 i = tbl st i).
    { intros i. unfold tbl, info. cbn. now rewrite Hsi. }
    assert (Hnid : forall i, id <= i -> tbl st i = None).
    { intros i Hi. unfold tbl. apply assoc_find_None; [apply N.eqb_spec|].
      intros Hin. apply in_map_iff in Hin as (x & <- & Hx).
      destruct HInv as [_ _ _ [I4 _] _]. rewrite Forall_forall in I4. specialize (I4 _ Hx).
      unfold next in I4; rewrite Hsi in I4. fold id in I4. lia. }
    destruct (HI HL3 HI2) as (HI3 & HE3 & HW3).
    destruct HE3 as ((new & Hnew & HS) & Hnx & Htb).
    assert (Hid3 : tbl st3 id = None).
    { rewrite Htb by lia. rewrite Ht2. apply Hnid. lia. }
    assert (Hidni : ~ In id (map fst (info st3))).
    { apply assoc_find_None in Hid3; [exact Hid3|apply N.eqb_spec]. }
    (* the block list *)
    destruct (Hblk HL3 []) as (groups & pend & G1 & G2 & G3 & G4 & G5);
      [unfold block_size; cbn; rewrite len_nil; lia|]. cbn [app] in G1, G2.
    destruct (agree_exists st2 st3) as (D0 & T0 & HA0).
    pose proof (HW3 D0 T0 HA0) as Hw0.
    assert (Hch : Forall (fun ch => ch <> []) chunks).
    { clear -Hw0 item_nonempty. induction Hw0; constructor; eauto. }
    assert (Hpend : pend <> [] -> 0 < block_size pend).
    { rewrite G1 in Hch. apply Forall_app in Hch as [_ Hch]. destruct pend as [|x pend]; [congruence|].
      intros _. inversion Hch as [|? ? Hx _]; subst. unfold block_size; cbn. rewrite len_app.
      destruct x; [congruence|]. rewrite len_cons. lia. }
    set (groups' := match pend with [] => groups | _ => groups ++ [pend] end).
    assert (Hlast : last_block st3 cs bl = map block_size groups').
    { unfold last_block. destruct (sinfo st3) as [si3|] eqn:Hx3; [|now elim Hg3].
      rewrite sub64_small by (rewrite ?W64_val, ?W32_val in *; lia).
      replace (len (outer st3) - cs) with (block_size pend) by lia.
      unfold groups'. destruct pend as [|x pend].
      - change (block_size []) with 0. cbn [N.ltb]. exact G2.
      - destruct (N.ltb_spec 0 (block_size (x :: pend))) as [_|Hz]; [|specialize (Hpend ltac:(congruence)); lia].
        rewrite u32_small by (rewrite ?W32_val in *; lia). rewrite map_app, G2. reflexivity. }
    assert (Hcat : chunks = concat groups').
    { unfold groups'. rewrite G1. destruct pend; [apply app_nil_r|]. rewrite concat_app. cbn.
      now rewrite app_nil_r. }
    assert (Hne : Forall (fun g => g <> []) groups').
    { unfold groups'. destruct pend; [exact G4|]. apply Forall_app; split; [exact G4|].
      constructor; [congruence|constructor]. }
    assert (Hrl : Forall (fun g => split_block_size c <= block_size g) (removelast groups')).
    { unfold groups'. destruct pend; [|now rewrite removelast_app1].
      destruct groups as [|g gs] using rev_ind; [constructor|]. rewrite removelast_app1.
      now apply Forall_app in G5. }
    assert (Hgl : len groups' <= len (concat chunks)).
    { etransitivity; [apply concat_len_le; exact Hne|]. rewrite <- Hcat. now apply concat_len_le. }
    assert (Hbs : Forall (fun b => b < W32) (map block_size groups')).
    { apply Forall_forall. intros b Hb. apply in_map_iff in Hb as (g & <- & Hg').
      apply in_split in Hg' as (a & b & Hab).
      assert (len (concat chunks) = block_size (concat groups')) by (now rewrite Hcat).
      rewrite Hab, concat_app, block_size_app in H. cbn [concat] in H. rewrite block_size_app in H. lia. }
    rewrite Hlast in Hreg.
    unfold register_split_info in Hreg.
    destruct (sinfo st3) as [si3|] eqn:Hsi3; [|now elim Hg3].
    (* two outcomes *)
    assert (Hout : (fl = false /\ st4 = st3) \/
                   (fl = true /\ groups' <> [] /\
                    (len groups' = 1 -> Forall (fun g => split_block_size c <= block_size g) groups') /\
                    st4 = {| outer := outer st3; smap := smap st3;
                             sinfo := Some (RegisterSplitInfo id (map block_size groups') si3) |})).
    { destruct (map block_size groups') as [|b0 bs] eqn:Hmb.
      - injection Hreg as <- <-. now left.
      - destruct ((2 <=? len (b0 :: bs)) || (split_block_size c <=? last (b0 :: bs) b0)) eqn:Hcond.
        + injection Hreg as <- <-. right. split; [reflexivity|]. split; [intros ->; discriminate|].
          split; [|reflexivity]. intros H1. destruct groups' as [|g [|g2 gs]]; try discriminate.
          * injection Hmb as <- <-. change (len [block_size g]) with 1 in Hcond.
            cbn [last] in Hcond. change (2 <=? 1) with false in Hcond. cbn [orb] in Hcond.
            apply N.leb_le in Hcond. constructor; [exact Hcond|constructor].
          * rewrite !len_cons in H1. lia.
        + injection Hreg as <- <-. now left. }
    assert (Hcore : forall T, T = tbl st4 \/ (forall i, next st <= i < next st4 -> T i = tbl st4 i) ->
              True) by auto. clear Hcore.
    assert (Hn4 : next st4 = next st3).
    { destruct Hout as [[_ ->]|(_ & _ & _ & ->)]; [reflexivity|]. unfold next; cbn. now rewrite Hsi3. }
    assert (Ht4 : forall i, i <> id -> tbl st4 i = tbl st3 i).
    { intros i Hi. destruct Hout as [[_ ->]|(_ & _ & _ & ->)]; [reflexivity|].
      unfold tbl, info; cbn. rewrite Hsi3. rewrite assoc_find_set by apply N.eqb_spec.
      destruct (N.eqb_spec i id); [congruence|reflexivity]. }
    assert (Ht4id : tbl st4 id = if fl then Some (map block_size groups') else None).
    { destruct Hout as [[-> ->]|(-> & _ & _ & ->)]; [exact Hid3|].
      unfold tbl, info; cbn. rewrite assoc_find_set by apply N.eqb_spec. now rewrite N.eqb_refl. }
    assert (Hk4 : keys st4 = keys st3) by (unfold keys; now rewrite M4).
    split; [|split].
    - (* Inv *)
      destruct Hout as [[_ ->]|(_ & Hgne & _ & ->)]; [exact HI3|].
      destruct HI3 as [J1 J2 J3 J4 J5]. unfold info, next in J3, J4, J5. rewrite Hsi3 in J3, J4, J5.
      assert (Hnx3 : id < si_next si3) by (unfold next in Hnx at 2; rewrite Hsi3 in Hnx; lia).
      unfold info in Hidni; rewrite Hsi3 in Hidni.
      assert (Hset : si_info (RegisterSplitInfo id (map block_size groups') si3) =
                     si_info si3 ++ [(id, map block_size groups')]).
      { cbn. apply assoc_set_new; [apply N.eqb_spec|exact Hidni]. }
      constructor; unfold info, next; cbn [sinfo]; rewrite ?Hset.
      + exact J1.
      + exact J2.
      + exact J3.
      + destruct J4 as [J4 J4']. cbn [si_next RegisterSplitInfo]. split.
        * apply Forall_app; split; [exact J4|]. constructor; [cbn; lia|constructor].
        * rewrite map_app. cbn. eapply Permutation_NoDup; [apply Permutation_cons_append|].
          constructor; auto.
      + apply Forall_app; split; [exact J5|]. constructor; [|constructor]. cbn.
        split; [|split; [exact Hbs|]].
        * intros He. apply map_eq_nil in He. congruence.
        * rewrite len_map. lia.
    - (* ext *)
      split; [|split].
      + exists new. rewrite Hk4, Hnew, Hk2. auto.
      + rewrite Hn4. 
        replace (next st) with id by (unfold next; now rewrite Hsi). lia.
      + intros i Hi. replace (next st) with id in Hi by (unfold next; now rewrite Hsi).
        rewrite Ht4 by lia. rewrite Htb by lia. apply Ht2.
    - (* wire *)
      intros D T HA.
      assert (HA23 : agree D T st2 st3).
      { destruct HA as [HD HT]. rewrite M4, Hk4 in HD. split; [exact HD|].
        intros i Hi. rewrite HT; [apply Ht4; lia|].
        replace (next st) with id by (unfold next; now rewrite Hsi). lia. }
      pose proof (HW3 D T HA23) as Hw.
      assert (Hlv : len vs = len items) by (symmetry; eapply len_Forall2; exact HF).
      assert (Hli : len items < W32).
      { assert (len vs = len chunks) by (eapply len_Forall2; exact Hw).
        assert (len chunks <= len (concat chunks)) by (now apply concat_len_le). lia. }
      split; [|split; [|split; [|split]]].
      + unfold hdr. rewrite u32_u32, u32_small, Hid32, Hlv by exact Hli. now rewrite <- app_assoc.
      + lia.
      + lia.
      + exact Hw.
      + assert (HTid : T id = tbl st4 id).
        { apply HA. replace (next st) with id by (unfold next; now rewrite Hsi). lia. }
        rewrite Ht4id in HTid. destruct Hout as [[-> _]|(-> & Hgne & Hone & _)]; [exact HTid|].
        cbn. exists groups'. auto 10.
  Qed.
End Container.

(** ** Every node *)
Lemma elem_nonempty D T sz v e : elem_wire D T sz v e -> e <> [].
Proof. intros (f & b & _ & ->); congruence. Qed.
Lemma entry_nonempty D T sz v e : entry_wire D T sz v e -> e <> [].
Proof. intros (kb & f & b & _ & _ & ->). destruct kb; cbn; congruence. Qed.

Lemma entry_item_ok c mem o v st k :
  char_signed c = true -> denotes mem o v -> node_ok c mem o v -> good st ->
  exists st' e, obind (seri_key c k st) (fun st1 => seri_child c o (valueSeri c mem o) st1) = Ok st' /\
    post st st' e (fun x => x = k \/ strs v x) (fun D T => entry_wire D T (split_block_size c) (k, v) e).
Proof.
  intros Hc Hd Hn Hg.
  destruct (seri_key_ok c k st Hc Hg) as (st1 & e1 & H1 & P1). rewrite H1. cbn [obind].
  destruct (seri_child_ok c mem o v st1 Hd Hn (post_good _ _ _ _ _ Hg P1)) as (st2 & e2 & H2 & P2).
  exists st2, (e1 ++ e2). split; [exact H2|].
  eapply post_weaken; [| |exact (post_trans _ _ _ _ _ _ _ _ _ P1 P2)].
  - intros x [<-|]; auto.
  - intros HL D T _ [Q1 (f & b & Q2 & ->)]. exists e1, f, b. auto.
Qed.

Theorem valueSeri_ok c mem o v :
  char_signed c = true -> denotes mem o v -> node_ok c mem o v.
Proof.
  intros Hc. revert v. induction o as [|dt s|dt s|p n l IH|p n l IH|p n l IH] using obj_ind'; intros v Hd.
  - inversion Hd.
  - inversion Hd as [? ? x Hx| | | |]; subst. intros st Hg. cbn [valueSeri].
    destruct (Data_valueSeri_ok c mem dt s x st (Data_valueSeri c dt s) Hc Hg) as (st' & e & H1 & H2); [now left|].
    rewrite H1. exists st', false, e. split; [reflexivity|]. split; [|discriminate].
    eapply post_weaken; [| |exact H2]; auto. intros HL D T _ Hw. now constructor.
  - inversion Hd as [|? ? x Hx| | |]; subst. intros st Hg. cbn [valueSeri].
    destruct (Data_valueSeri_ok c mem dt s x st (DataView_valueSeri c mem dt s) Hc Hg) as (st' & e & H1 & H2); [now right|].
    rewrite H1. exists st', false, e. split; [reflexivity|]. split; [|discriminate].
    eapply post_weaken; [| |exact H2]; auto. intros HL D T _ Hw. now constructor.
  - inversion Hd as [| |? ? ? vs Hs HF| |]; subst. intros st Hg. cbn [valueSeri].
    set (si := fun child st => seri_child c child (valueSeri c mem child) st).
    destruct (container_ok c Hc si (fun D T => elem_wire D T (split_block_size c)) strs
                (fun D T => elem_nonempty D T _) l (rev vs) st (len l)) as (st' & fl & e & id & ch & H1 & H2);
      [|exact Hg|reflexivity|].
    { clear -IH HF. revert IH HF. generalize (rev vs). intros ws IH HF.
      induction HF as [|o w l ws Ho HF IHF]; constructor.
      - intros st Hg. inversion IH; subst. apply seri_child_ok; auto.
      - apply IHF. now inversion IH. }
    exists st', fl, e. split; [exact H1|]. split; [|discriminate].
    eapply post_weaken; [| |exact H2].
    + intros k (v & Hv & Hk). apply in_rev in Hv. econstructor; eauto.
    + intros HL D T _ (-> & L1 & L2 & L3 & L4). rewrite len_rev in *. now constructor.
  - inversion Hd as [| | |? ? ? vs Hs HF|]; subst. intros st Hg. cbn [valueSeri].
    match goal with |- context [container_valueSeri c _ ?f l st] => set (si := f) end.
    destruct (container_ok c Hc si (fun D T => entry_wire D T (split_block_size c))
                (fun e k => k = fst e \/ strs (snd e) k)
                (fun D T => entry_nonempty D T _) l vs st (len l)) as (st' & fl & e & id & ch & H1 & H2);
      [|exact Hg|reflexivity|].
    { clear -IH HF Hc. induction HF as [|o w l ws [Hk Ho] HF IHF]; constructor.
      - intros st Hg. inversion IH; subst. destruct o as [k o], w as [k' w]; cbn in *; subst.
        unfold si. apply entry_item_ok; auto.
      - apply IHF. now inversion IH. }
    exists st', fl, e. split; [exact H1|]. split; [|discriminate].
    eapply post_weaken; [| |exact H2].
    + intros k (v & Hv & [->|Hk]); [|eapply oc_val; eauto].
      destruct v as [k v]. eapply oc_key; eauto.
    + intros HL D T _ (-> & L1 & L2 & L3 & L4). now constructor.
  - inversion Hd as [| | | |? ? ? vs Hs HF]; subst. intros st Hg. cbn [valueSeri].
    match goal with |- context [container_valueSeri c _ ?f l st] => set (si := f) end.
    destruct (container_ok c Hc si (fun D T => entry_wire D T (split_block_size c))
                (fun e k => k = fst e \/ strs (snd e) k)
                (fun D T => entry_nonempty D T _) l vs st (len l)) as (st' & fl & e & id & ch & H1 & H2);
      [|exact Hg|reflexivity|].
    { clear -IH HF Hc. induction HF as [|o w l ws [Hk Ho] HF IHF]; constructor.
      - intros st Hg. inversion IH; subst. destruct o as [k o], w as [k' w]; cbn in *; subst.
        unfold si. rewrite Hk. cbn [obind]. apply entry_item_ok; auto.
      - apply IHF. now inversion IH. }
    exists st', fl, e. split; [exact H1|]. split; [|discriminate].
    eapply post_weaken; [| |exact H2].
    + intros k (v & Hv & [->|Hk]); [|eapply oc_val; eauto].
      destruct v as [k v]. eapply oc_key; eauto.
    + intros HL D T _ (-> & L1 & L2 & L3 & L4). now constructor.
Qed.
