(** * The serializer on two platforms: what the platform can change. *)
From Verif Require Import Base BaseLemmas ModelVarint ModelData ModelSecondary ModelObject
  ModelWrapper Spec VarintProofs Wire NumProofs ObjInd DocProofs SeriProofs EndianProofs.
From Coq Require Import ZifyBool ZifyNat ZifyN.
Local Open Scope out_scope.

Section Two.
  Variables c c' : cfg.
  Hypothesis Hs : char_signed c = true.
  Hypothesis Hs' : char_signed c' = true.

  Lemma pl_len n b : seriLength c n b = seriLength c' n b.
  Proof using Hs Hs'. now rewrite !seriLength_ok. Qed.
  Lemma pl_st_len n st : st_seriLength c n st = st_seriLength c' n st.
  Proof using Hs Hs'. now rewrite !st_seriLength_ok. Qed.
  Lemma pl_wire w n : num_to_wire c w n = num_to_wire c' w n.
  Proof. now rewrite !num_to_wire_be. Qed.

  Lemma pl_seriData dt s st : seriData c dt s st = seriData c' dt s st.
  Proof using Hs Hs'.
    unfold seriData. destruct (_ || _); [apply obind_ext; intros; now rewrite pl_st_len|].
    destruct (_ =? _); [apply obind_ext; intros; now rewrite pl_st_len|].
    destruct (num_of_dt dt); [|reflexivity]. apply obind_ext; intros. rewrite pl_st_len.
    apply obind_ext; intros. now rewrite pl_wire.
  Qed.

  Lemma pl_seriData_view mem dt s st : seriData_view c mem dt s st = seriData_view c' mem dt s st.
  Proof using Hs Hs'.
    unfold seriData_view. destruct (_ || _); [apply obind_ext; intros; now rewrite pl_st_len|].
    destruct (num_of_dt dt); [|reflexivity]. apply obind_ext; intros. rewrite pl_st_len.
    apply obind_ext; intros. now rewrite pl_wire.
  Qed.

  Lemma pl_Data dt s st : Data_valueSeri c dt s st = Data_valueSeri c' dt s st.
  Proof using Hs Hs'.
    unfold Data_valueSeri. destruct (negb _); [reflexivity|].
    destruct (smap st); [|apply pl_seriData]. destruct (_ =? _); [|apply pl_seriData].
    apply obind_ext; intros. destruct (RegisterIdFromString _ _). apply pl_st_len.
  Qed.

  Lemma pl_DataView mem dt s st : DataView_valueSeri c mem dt s st = DataView_valueSeri c' mem dt s st.
  Proof using Hs Hs'.
    unfold DataView_valueSeri. destruct (negb _); [reflexivity|].
    destruct (smap st); [|apply pl_seriData_view]. destruct (_ =? _); [|apply pl_seriData_view].
    apply obind_ext; intros. apply obind_ext; intros. destruct (RegisterIdFromString _ _). apply pl_st_len.
  Qed.

  Lemma pl_key k st : seri_key c k st = seri_key c' k st.
  Proof using Hs Hs'.
    unfold seri_key. destruct (smap st); [|now rewrite pl_st_len].
    destruct (RegisterIdFromString _ _). apply pl_st_len.
  Qed.

  Lemma pl_split_id st : seri_split_id c st = seri_split_id c' st.
  Proof using Hs Hs'. unfold seri_split_id. destruct (sinfo st); [destruct (RequestId _)|]; now rewrite pl_st_len. Qed.

  (** A data node is never split, so the assert of seri_child cannot fire. *)
  Definition data_unsplit (o : obj) (f : sstate -> outcome (sstate * bool)) : Prop :=
    GetType o = Ok TData -> forall st st', f st <> Ok (st', true).

  Lemma pl_child o f g st : (forall st, f st = g st) -> data_unsplit o g -> seri_child c o f st = seri_child c' o g st.
  Proof.
    intros H Hu. unfold seri_child. destruct (GetType o) as [t| | | |] eqn:Ht; cbn [obind]; try reflexivity.
    rewrite H. destruct (g _) as [[st2 [|]]| | | |] eqn:Hg; cbn [obind]; try reflexivity.
    destruct t; try reflexivity; cbn; try (destruct (ndebug c), (ndebug c'); reflexivity).
    exfalso. exact (Hu Ht _ _ Hg).
  Qed.

  Section SameBlocks.
    Hypothesis Hb : split_block_size c = split_block_size c'.

    Lemma pl_cut st cs bl : cut_block c st cs bl = cut_block c' st cs bl.
    Proof using Hb. unfold cut_block. now rewrite Hb. Qed.
    Lemma pl_register id bl st : register_split_info c id bl st = register_split_info c' id bl st.
    Proof using Hb. unfold register_split_info. now rewrite Hb. Qed.

    Lemma pl_items {I} (f g : I -> sstate -> outcome sstate) l :
      (forall x, In x l -> forall st, f x st = g x st) ->
      forall st cs bl, seri_items c f l st cs bl = seri_items c' g l st cs bl.
    Proof using Hb.
      induction l as [|x l IH]; intros H st cs bl; [reflexivity|]. cbn [seri_items].
      rewrite H by (now left). apply obind_ext; intros st1. rewrite pl_cut.
      destruct (cut_block c' st1 cs bl). apply IH. intros; apply H; now right.
    Qed.

    Lemma pl_container {I} size (f g : I -> sstate -> outcome sstate) l st :
      (forall x, In x l -> forall st, f x st = g x st) ->
      container_valueSeri c size f l st = container_valueSeri c' size g l st.
    Proof using Hb Hs Hs'.
      intros H. unfold container_valueSeri. rewrite pl_st_len. apply obind_ext; intros st1.
      rewrite pl_split_id. apply obind_ext; intros [id st2]. rewrite (pl_items f g l H).
      apply obind_ext; intros [[st3 cs] bl]. now rewrite pl_register.
    Qed.

    Lemma valueSeri_data_unsplit k mem o : data_unsplit o (valueSeri k mem o).
    Proof.
      intros Ht st st'. destruct o; try discriminate; cbn [valueSeri].
      - destruct (Data_valueSeri _ _ _ _); discriminate.
      - destruct (DataView_valueSeri _ _ _ _ _); discriminate.
    Qed.

    Lemma pl_valueSeri mem o : forall st, valueSeri c mem o st = valueSeri c' mem o st.
    Proof using Hb Hs Hs'.
      induction o as [|dt s|dt s|p n l IH|p n l IH|p n l IH] using obj_ind'; intros st; cbn [valueSeri].
      - reflexivity.
      - now rewrite pl_Data.
      - now rewrite pl_DataView.
      - apply pl_container. intros x Hx st'. apply pl_child; [|apply valueSeri_data_unsplit]. rewrite Forall_forall in IH. now apply IH.
      - apply pl_container. intros [k x] Hx st'. rewrite pl_key. apply obind_ext; intros.
        apply pl_child; [|apply valueSeri_data_unsplit]. rewrite Forall_forall in IH. exact (IH _ Hx).
      - apply pl_container. intros [k x] Hx st'. apply obind_ext; intros. rewrite pl_key. apply obind_ext; intros.
        apply pl_child; [|apply valueSeri_data_unsplit]. rewrite Forall_forall in IH. exact (IH _ Hx).
    Qed.
  End SameBlocks.

  (** The tables are their entries, in the order of the hash table. *)
  Definition dchunk (e : bytes * N) : bytes := venc (u32 (u32 (len (fst e)))) ++ fst e ++ venc (u32 (snd e)).
  Lemma sm_loop_chunks l ret : sm_serialize_loop c l ret = Ok (ret ++ concat (map dchunk l)).
  Proof using Hs.
    revert ret. induction l as [|[k id] l IH]; intros ret; cbn; [now rewrite app_nil_r|].
    rewrite seriLength_ok by exact Hs. cbn. rewrite seriLength_ok by exact Hs. cbn. rewrite IH.
    unfold dchunk. cbn. now rewrite !app_assoc.
  Qed.

  Definition schunk (e : N * list N) : bytes :=
    venc (u32 (fst e)) ++ venc (u32 (u32 (len (snd e)))) ++
    concat (map (fun n => venc (u32 n)) (firstn (N.to_nat (u32 (len (snd e)))) (snd e))).
  Lemma si_loop_chunks l ret : si_serialize_loop c l ret = Ok (ret ++ concat (map schunk l)).
  Proof using Hs.
    revert ret. induction l as [|[k bl] l IH]; intros ret; cbn -[u32]; [now rewrite app_nil_r|].
    rewrite seriLength_ok by exact Hs. cbn -[u32]. rewrite seriLength_ok by exact Hs. cbn -[u32].
    rewrite seri_numbers_ok by exact Hs. cbn -[u32]. rewrite IH.
    unfold schunk. cbn -[u32]. now rewrite !app_assoc.
  Qed.
End Two.

(** ** Small documents are never split *)
Definition infos (st : sstate) : option (list (N * list N)) := option_map si_info (sinfo st).

(** [step c F]: F only appends, and while the result is shorter than the split size it
    leaves the split table alone and behaves as on [c']. *)
Definition grows (st st' : sstate) : Prop := len (outer st) <= len (outer st') /\ (sinfo st = None <-> sinfo st' = None).
Lemma grows_refl st : grows st st. Proof. split; [lia|tauto]. Qed.
Lemma grows_trans a b d : grows a b -> grows b d -> grows a d.
Proof. intros [H1 H2] [H3 H4]. split; [lia|tauto]. Qed.

Section Small.
  Variables c c' : cfg.
  Hypothesis Hs : char_signed c = true.
  Hypothesis Hs' : char_signed c' = true.
  Definition small (st : sstate) : Prop :=
    len (outer st) < split_block_size c /\ len (outer st) < split_block_size c' /\ len (outer st) < 2 ^ 32.

  Lemma small_grows a b : grows a b -> small b -> small a.
  Proof. intros [H _] (H1 & H2 & H3). unfold small. lia. Qed.

  Lemma len_step n st st' : st_seriLength c n st = Ok st' -> grows st st' /\ infos st' = infos st.
  Proof using Hs Hs'.
    rewrite st_seriLength_ok by exact Hs. intros [= <-]. split; [|reflexivity]. split; cbn; [rewrite len_app; lia|tauto].
  Qed.

  Lemma with_outer_step st b : len (outer st) <= len b -> grows st (with_outer st b) /\ infos (with_outer st b) = infos st.
  Proof. intros H. repeat split; cbn; auto. Qed.

  Lemma app_step st b : grows st (with_outer st (outer st ++ b)) /\ infos (with_outer st (outer st ++ b)) = infos st.
  Proof. apply with_outer_step. rewrite len_app. lia. Qed.

  Lemma data_step F dt s st st' : (F = seriData c dt s \/ exists mem, F = seriData_view c mem dt s) ->
    F st = Ok st' -> grows st st' /\ infos st' = infos st.
  Proof using Hs Hs'.
    assert (K : forall b n st1, st_seriLength c n st = Ok st1 -> st' = with_outer st1 (outer st1 ++ b) -> grows st st' /\ infos st' = infos st).
    { intros b n st1 H1 ->. destruct (len_step _ _ _ H1) as [G1 I1]. destruct (app_step st1 b) as [G2 I2].
      split; [eapply grows_trans; eauto|congruence]. }
    intros [-> | (mem & ->)] H; unfold seriData, seriData_view in H;
      repeat match goal with
      | H : (if ?b then _ else _) = Ok _ |- _ => destruct b
      | H : match num_of_dt ?x with _ => _ end = Ok _ |- _ => destruct (num_of_dt x)
      | H : Throw _ = Ok _ |- _ => discriminate H
      | H : obind (st_seriLength c ?n st) _ = Ok _ |- _ => let E := fresh "E" in destruct (st_seriLength c n st) eqn:E; cbn [obind] in H; try discriminate H
      | H : obind ?x _ = Ok _ |- _ => destruct x; cbn [obind] in H; try discriminate H
      | H : Ok _ = Ok _ |- _ => injection H as <-; eapply K; eauto
      end.
  Qed.

  Lemma Data_step dt s st st' : Data_valueSeri c dt s st = Ok st' -> grows st st' /\ infos st' = infos st.
  Proof using Hs Hs'.
    unfold Data_valueSeri. destruct (negb _); [discriminate|]. destruct (app_step st [n2b dt]) as [G I].
    change (with_outer st (outer st ++ [n2b dt])) with (st_push dt st) in *.
    assert (K : forall x, seriData c dt s (st_push dt st) = Ok x -> grows st x /\ infos x = infos st).
    { intros x Hx. destruct (data_step (seriData c dt s) dt s _ _ (or_introl eq_refl) Hx) as [G1 I1]. split; [eapply grows_trans; eauto|congruence]. }
    destruct (smap st) as [m|]; [|apply K]. destruct (_ =? _); [|apply K].
    destruct (get_str s); cbn [obind]; try discriminate. destruct (RegisterIdFromString _ _) as [id m'].
    intros H. apply len_step in H as [G1 I1]. destruct G as [G0 G0'], G1 as [G1 G1']. cbn in *. split; [split; [lia|tauto]|]. exact I1.
  Qed.

  Lemma DataView_step mem dt s st st' : DataView_valueSeri c mem dt s st = Ok st' -> grows st st' /\ infos st' = infos st.
  Proof using Hs Hs'.
    unfold DataView_valueSeri. destruct (negb _); [discriminate|]. destruct (app_step st [n2b dt]) as [G I].
    change (with_outer st (outer st ++ [n2b dt])) with (st_push dt st) in *.
    assert (K : forall x, seriData_view c mem dt s (st_push dt st) = Ok x -> grows st x /\ infos x = infos st).
    { intros x Hx. destruct (data_step (seriData_view c mem dt s) dt s _ _ (or_intror (ex_intro _ mem eq_refl)) Hx) as [G1 I1]. split; [eapply grows_trans; eauto|congruence]. }
    destruct (smap st) as [m|]; [|apply K]. destruct (_ =? _); [|apply K].
    destruct (get_view s); cbn [obind]; try discriminate. destruct (read_view mem _); cbn [obind]; try discriminate.
    destruct (RegisterIdFromString _ _) as [id m'].
    intros H. apply len_step in H as [G1 I1]. destruct G as [G0 G0'], G1 as [G1 G1']. cbn in *. split; [split; [lia|tauto]|]. exact I1.
  Qed.

  Lemma key_step k st st' : seri_key c k st = Ok st' -> grows st st' /\ infos st' = infos st.
  Proof using Hs Hs'.
    unfold seri_key. destruct (smap st) as [m|].
    - destruct (RegisterIdFromString _ _) as [id m']. intros H. apply len_step in H as [[G1 G1'] I1]. cbn in *. split; [split|]; auto.
    - destruct (st_seriLength _ _ _) as [st1| | | |] eqn:E; cbn [obind]; try discriminate. intros [= <-].
      apply len_step in E as [G1 I1]. destruct (app_step st1 k) as [G2 I2]. split; [eapply grows_trans; eauto|congruence].
  Qed.

  Lemma set_msb_len n b : len (set_msb n b) = len b.
  Proof.
    unfold set_msb. destruct (skipn n b) as [|x r] eqn:E; [reflexivity|].
    rewrite len_app, len_cons. apply (f_equal (@length _)) in E as E'. rewrite skipn_length in E'. cbn in E'.
    unfold len. rewrite firstn_length. lia.
  Qed.

  (** What one child contributes. *)
  Definition tame (F F' : sstate -> outcome (sstate * bool)) : Prop := forall st st' fl, F st = Ok (st', fl) ->
    grows st st' /\ (small st' -> fl = false /\ infos st' = infos st /\ F' st = Ok (st', fl)).
  Definition tame1 (F F' : sstate -> outcome sstate) : Prop := forall st st', F st = Ok st' ->
    grows st st' /\ (small st' -> infos st' = infos st /\ F' st = Ok st').

  Lemma child_tame o F F' : tame F F' -> tame1 (seri_child c o F) (seri_child c' o F').
  Proof.
    intros HF st st' H. unfold seri_child in *. destruct (GetType o) as [t| | | |]; cbn [obind] in *; try discriminate.
    destruct (app_step st [n2b (ObjectTypeToChar t)]) as [G I].
    change (with_outer st (outer st ++ [n2b (ObjectTypeToChar t)])) with (st_push (ObjectTypeToChar t) st) in *.
    destruct (F _) as [[st2 fl]| | | |] eqn:EF; cbn [obind] in H; try discriminate.
    destruct (HF _ _ _ EF) as [G1 H1]. destruct fl.
    - destruct (_ && _); [discriminate|]. injection H as <-.
      assert (L : len (set_msb (length (outer st)) (outer st2)) = len (outer st2)) by apply set_msb_len.
      split; [eapply grows_trans; [exact G|]; eapply grows_trans; [exact G1|]; apply with_outer_step; lia|].
      intros (S1 & S2 & S3). cbn in S1, S2, S3. destruct H1 as (H1 & _); [unfold small; lia|discriminate].
    - injection H as <-. split; [eapply grows_trans; eauto|]. intros HS. destruct (H1 HS) as (_ & I1 & E1).
      split; [congruence|]. rewrite E1. reflexivity.
  Qed.

  Lemma seq_tame1 F F' G G' : tame1 F F' -> tame1 G G' -> tame1 (fun st => st1 <- F st ;; G st1) (fun st => st1 <- F' st ;; G' st1).
  Proof.
    intros HF HG st st' H. cbn in H. destruct (F st) as [st1| | | |] eqn:E; cbn [obind] in H; try discriminate.
    destruct (HF _ _ E) as [G1 H1]. destruct (HG _ _ H) as [G2 H2]. split; [eapply grows_trans; eauto|].
    intros HS. destruct (H2 HS) as [I2 E2]. destruct (H1 (small_grows _ _ G2 HS)) as [I1 E1].
    split; [congruence|]. rewrite E1. exact E2.
  Qed.

  Lemma key_tame k : tame1 (seri_key c k) (seri_key c' k).
  Proof using Hs Hs'.
    intros st st' H. destruct (key_step _ _ _ H) as [G I]. split; [exact G|]. intros _. split; [exact I|].
    rewrite <- (pl_key c c' Hs Hs'). exact H.
  Qed.

  Lemma sub64_small a b : b <= a -> a < 2 ^ 32 -> sub64 a b = a - b.
  Proof. intros H1 H2. unfold sub64, W64. change (2 ^ 32) with 4294967296 in H2. destruct (b <=? a) eqn:E; lia. Qed.

  Lemma items_tame {I} (f f' : I -> sstate -> outcome sstate) l : (forall x, In x l -> tame1 (f x) (f' x)) ->
    forall st cs st' cs' bl bl', seri_items c f l st cs bl = Ok (st', cs', bl') -> cs <= len (outer st) ->
    grows st st' /\ (small st' -> infos st' = infos st /\ cs' = cs /\ bl' = bl /\ seri_items c' f' l st cs bl = Ok (st', cs', bl')).
  Proof.
    induction l as [|x l IH]; intros Hf st cs st' cs' bl bl' H Hcs; cbn [seri_items] in H.
    - injection H as <- <- <-. split; [apply grows_refl|]. intros _. auto.
    - destruct (f x st) as [st1| | | |] eqn:E; cbn [obind] in H; try discriminate.
      destruct (Hf x (or_introl eq_refl) _ _ E) as [G1 H1].
      destruct (cut_block c st1 cs bl) as [cs1 bl1] eqn:Ec.
      assert (Hcs1 : cs1 <= len (outer st1)).
      { unfold cut_block in Ec. destruct G1 as [G1 _]. destruct (sinfo st1); [|injection Ec as <- <-; lia].
        destruct (_ <=? _); injection Ec as <- <-; lia. }
      destruct (IH ltac:(intros; apply Hf; now right) _ _ _ _ _ _ H Hcs1) as [G2 H2].
      split; [eapply grows_trans; eauto|]. intros HS. destruct (H2 HS) as (I2 & E2 & E2' & E3).
      assert (S1 : small st1) by (eapply small_grows; eauto). destruct (H1 S1) as [I1 E1]. destruct S1 as (Sa & Sb & Sc).
      assert (Ek : forall d, len (outer st1) < split_block_size d -> cut_block d st1 cs bl = (cs, bl)).
      { intros d Hd. unfold cut_block. destruct (sinfo st1); [|reflexivity]. destruct G1 as [G1 _].
        rewrite sub64_small by lia. destruct (_ <=? _) eqn:El; [lia|reflexivity]. }
      rewrite (Ek c Sa) in Ec. injection Ec as <- <-. split; [congruence|]. split; [exact E2|]. split; [exact E2'|].
      cbn [seri_items]. rewrite E1. cbn [obind]. rewrite (Ek c' Sb). exact E3.
  Qed.

  Lemma container_tame {I} size (f f' : I -> sstate -> outcome sstate) l : (forall x, In x l -> tame1 (f x) (f' x)) ->
    tame (container_valueSeri c size f l) (container_valueSeri c' size f' l).
  Proof using Hs Hs'.
    intros Hf st st' fl H. unfold container_valueSeri in *.
    destruct (st_seriLength c _ st) as [st1| | | |] eqn:E1; cbn [obind] in H; try discriminate.
    destruct (len_step _ _ _ E1) as [G1 I1].
    destruct (seri_split_id c st1) as [[id st2]| | | |] eqn:E2; cbn [obind] in H; try discriminate.
    assert (G2 : grows st1 st2 /\ infos st2 = infos st1).
    { clear E1. unfold seri_split_id in E2. destruct (sinfo st1) as [si|] eqn:Esi.
      - cbn [RequestId] in E2. destruct (st_seriLength _ _ _) as [st3| | | |] eqn:E3; cbn [obind] in E2; try discriminate.
        injection E2 as <- <-. apply len_step in E3 as [[G3 G3'] I3]. cbn in *. unfold infos in *. rewrite Esi.
        split; [split; [exact G3|rewrite Esi; split; [discriminate|intros X; apply G3' in X; discriminate]]|]. exact I3.
      - destruct (st_seriLength _ _ _) as [st3| | | |] eqn:E3; cbn [obind] in E2; try discriminate.
        injection E2 as <- <-. now apply len_step in E3. }
    destruct G2 as [G2 I2].
    destruct (seri_items c f l st2 _ []) as [[[st3 cs] bl]| | | |] eqn:E3; cbn [obind] in H; try discriminate.
    destruct (items_tame f f' l Hf _ _ _ _ _ _ E3 (N.le_refl _)) as [G3 H3].
    assert (G : grows st3 st' /\ outer st' = outer st3).
    { unfold register_split_info in H. destruct (sinfo st3) eqn:E; [|injection H as <- <-; split; [apply grows_refl|reflexivity]].
      destruct (last_block st3 cs bl); [injection H as <- <-; split; [apply grows_refl|reflexivity]|].
      destruct (_ || _); injection H as <- <-; (split; [|reflexivity]); [|apply grows_refl].
      split; cbn; [lia|]. rewrite E. split; discriminate. }
    destruct G as [G4 O4].
    assert (G : grows st st') by (repeat (eapply grows_trans; [eassumption|]); apply grows_refl).
    split; [exact G|]. intros HS.
    assert (HS3 : small st3) by (eapply small_grows; eauto).
    destruct (H3 HS3) as (I3 & -> & -> & E3'). destruct HS3 as (Sa & Sb & Sc).
    assert (Er : forall d, len (outer st3) < split_block_size d ->
      register_split_info d id (last_block st3 (len (outer st2)) []) st3 = (st3, false)).
    { intros d Hd. unfold register_split_info, last_block. destruct (sinfo st3) eqn:Ei; [|reflexivity].
      destruct G3 as [G3 _]. rewrite sub64_small by lia. destruct (0 <? _) eqn:E0; [|reflexivity]. cbn [app last].
      change (2 <=? len [u32 (len (outer st3) - len (outer st2))]) with false. cbn [orb].
      destruct (_ <=? _) eqn:El; [|reflexivity]. exfalso.
      assert (u32 (len (outer st3) - len (outer st2)) <= len (outer st3) - len (outer st2)) by (apply N.mod_le; discriminate). lia. }
    rewrite (Er c Sa) in H. injection H as <- <-. split; [reflexivity|]. split; [congruence|].
    rewrite <- (pl_st_len c c' Hs Hs'), E1. cbn [obind]. rewrite <- (pl_split_id c c' Hs Hs'), E2. cbn [obind].
    rewrite E3'. cbn [obind]. now rewrite (Er c' Sb).
  Qed.

  Lemma valueSeri_tame mem o : tame (valueSeri c mem o) (valueSeri c' mem o).
  Proof using Hs Hs'.
    induction o as [|dt s|dt s|p n l IH|p n l IH|p n l IH] using obj_ind'; cbn [valueSeri].
    - intros st st' fl; discriminate.
    - intros st st' fl H. destruct (Data_valueSeri c dt s st) as [st1| | | |] eqn:E; cbn [obind] in H; try discriminate. injection H as <- <-.
      destruct (Data_step _ _ _ _ E) as [G I]. split; [exact G|]. intros _. rewrite <- (pl_Data c c' Hs Hs'), E. auto.
    - intros st st' fl H. destruct (DataView_valueSeri c mem dt s st) as [st1| | | |] eqn:E; cbn [obind] in H; try discriminate. injection H as <- <-.
      destruct (DataView_step _ _ _ _ _ E) as [G I]. split; [exact G|]. intros _. rewrite <- (pl_DataView c c' Hs Hs'), E. auto.
    - apply container_tame. intros x Hx. apply child_tame. rewrite Forall_forall in IH. now apply IH.
    - apply container_tame. intros [k x] Hx. apply seq_tame1; [apply key_tame|]. apply child_tame. rewrite Forall_forall in IH. exact (IH _ Hx).
    - apply container_tame. intros [k x] Hx. destruct (read_view mem k) as [kb| | | |]; try (intros st st'; discriminate).
      cbn [obind]. apply seq_tame1; [apply key_tame|]. apply child_tame. rewrite Forall_forall in IH. exact (IH _ Hx).
  Qed.
End Small.
