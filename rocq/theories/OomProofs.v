(** * Proofs for C109: the pools of object_pool.h when memory runs out. *)
From Verif Require Import Base BaseLemmas ModelPool ModelOom PropPool.
From Coq Require Import ZifyBool ZifyNat ZifyN.

(** ** One more object in a pool (the Alloc case of [PropPool.step_ok], for any capacity) *)
Lemma inv_alloc rd (throws : bool) w alive own h i before b buf cap evs :
  inv w alive own h -> nth_error alive i = Some true ->
  b_buf b = Some buf -> b_top b < b_cap b -> 0 < b_cap b <= 10240 ->
  ((pool_at w i = before ++ [b] /\ evs = [] /\ (buf < w_fresh w)%nat) \/
   (pool_at w i = before /\ buf = w_fresh w /\ b_top b = 0 /\ evs = [EvBuffer (w_fresh w) (b_cap b)])) ->
  exists h', heap_run rd h (if throws then evs else evs ++ [EvConstruct (buf, b_top b)]) = Some h' /\
    (throws = false -> ~ In (EvConstruct (buf, b_top b)) (w_trace w)) /\
    constructed evs = [] /\
    inv {| w_pools := put i (Some {| v_elems := before ++ [if throws then b else {| b_buf := Some buf; b_top := b_top b + 1; b_cap := b_cap b |}];
                                     v_capacity := cap |}) (w_pools w);
           w_fresh := S (w_fresh w);
           w_trace := w_trace w ++ (if throws then evs else evs ++ [EvConstruct (buf, b_top b)]) |}
        alive (if throws then own else fun x => if slot_eqb x (buf, b_top b) then Some i else own x) h'.
Proof.
  intros I HL Hbuf Htop Hcap Hcase.
  assert (HAok : alive_ok alive w) by (split; [apply I|apply I]).
  destruct (get_pool_ok w alive own h i I HL) as (v & _ & Hpv & Hilt).
  pose proof (i_good _ _ _ _ I i) as HG. rewrite Hpv in HG. rewrite Hpv in Hcase.
    pose proof I as [IA IL IG IN IC IH IHO ILO IO IE].
    set (w1 := {| w_pools := put i (Some {| v_elems := before ++ [b]; v_capacity := cap |}) (w_pools w);
                  w_fresh := S (w_fresh w); w_trace := w_trace w ++ evs |}).
    assert (Hp1 : forall k, pool_at w1 k = if Nat.eqb k i then before ++ [b] else pool_at w k).
    { intros k. unfold w1. now rewrite pool_at_put. }
    assert (Hbuf_other : forall k b', k <> i -> In b' (pool_at w k) -> b_buf b' <> Some buf).
    { intros k b' Hki Hb' E. destruct Hcase as [(He & _ & _)|(He & -> & _)].
      - apply Hki. apply (IC k i b' b); [exact Hb'| |congruence]. rewrite Hpv, He. apply in_or_app; right; now left.
      - pose proof (IG k) as HGk. rewrite Forall_forall in HGk. destruct (HGk _ Hb') as (buf' & Hb2 & Hlt & _).
        rewrite E in Hb2. injection Hb2 as <-. lia. }
    assert (Hnd : NoDup (map b_buf (before ++ [b]))).
    { destruct Hcase as [(He & _)|(He & -> & _)].
      - specialize (IN i). rewrite Hpv, He in IN. exact IN.
      - specialize (IN i). rewrite Hpv, He in IN. rewrite map_app. apply NoDup_app; [exact IN|repeat constructor; intros []|].
        intros x Hx [Hx'|[]]. cbn in Hx'. rewrite <- Hx' in Hx. apply in_map_iff in Hx as (b' & Hb' & Hin). rewrite <- He in Hin.
        rewrite Forall_forall in HG. destruct (HG _ Hin) as (buf' & Hb2 & Hlt & _). rewrite Hb', Hbuf in Hb2. injection Hb2 as <-. lia. }
    assert (Hsame : forall b', In b' (before ++ [b]) -> b_buf b' = Some buf -> b' = b).
    { intros b' Hin E. apply in_app_or in Hin as [Hin|[Hin|[]]]; [|now symmetry]. exfalso.
      rewrite map_app in Hnd. cbn in Hnd. apply NoDup_remove_2 in Hnd. rewrite app_nil_r in Hnd. apply Hnd.
      rewrite Hbuf, <- E. now apply in_map. }
    assert (H1 : exists h1, heap_run rd h evs = Some h1 /\ (forall s, ~ In (EvConstruct s) evs) /\ inv w1 alive own h1).
    { destruct Hcase as [(He & -> & Hlt)|(He & -> & Ht0 & ->)].
      - exists h. split; [reflexivity|]. split; [intros s []|].
        assert (Hpw : forall k, pool_at w1 k = pool_at w k).
        { intros k. rewrite Hp1. destruct (Nat.eqb_spec k i) as [->|]; [now rewrite Hpv, He|reflexivity]. }
        assert (HAok1 : alive_ok alive w1) by now apply alive_put.
        destruct HAok1 as [HA1 HA2]. split; auto; intros; repeat rewrite ?Hpw in *; eauto.
        + eapply Forall_impl; [|apply IG]. intros b' (bf & H1 & H2 & H3). exists bf. cbn. split; [exact H1|]. split; [lia|exact H3].
        + destruct (IHO _ H) as (i' & b' & Hb'). exists i', b'. now rewrite Hpw.
        + cbn in H. rewrite app_nil_r in H. destruct (IE _ H) as [H1 H2]. split; [cbn; lia|]. intros i' b' Hb'. rewrite Hpw in Hb'. eauto.
      - cbn [heap_run heap_step].
        assert (Hnone : h_buf h (w_fresh w) = None).
        { destruct (h_buf h (w_fresh w)) eqn:E; [|reflexivity]. destruct (IHO (w_fresh w)) as (k & b' & Hb' & Hbb); [congruence|].
          pose proof (IG k) as HGk. rewrite Forall_forall in HGk. destruct (HGk _ Hb') as (buf' & Hb2 & Hlt & _).
          rewrite Hbb in Hb2. injection Hb2 as <-. lia. }
        rewrite Hnone. eexists. split; [reflexivity|]. split; [intros s [H|[]]; discriminate|].
        assert (HAok1 : alive_ok alive w1) by now apply alive_put.
        destruct HAok1 as [HA1 HA2].
        assert (Hsrc : forall k b', In b' (pool_at w1 k) -> (k = i /\ b' = b) \/ In b' (pool_at w k)).
        { intros k b' Hin. rewrite Hp1 in Hin. destruct (Nat.eqb_spec k i) as [->|]; [|now right].
          apply in_app_or in Hin as [Hin|[Hin|[]]]; [right; rewrite Hpv, He; exact Hin|left; auto]. }
        assert (Hdst : forall k b', In b' (pool_at w k) -> In b' (pool_at w1 k)).
        { intros k b' Hin. rewrite Hp1. destruct (Nat.eqb_spec k i) as [->|]; [|exact Hin]. rewrite Hpv, He in Hin. apply in_or_app. now left. }
        assert (Hold : forall k b', In b' (pool_at w k) -> exists bf, b_buf b' = Some bf /\ (bf < w_fresh w)%nat).
        { intros k b' Hin. pose proof (IG k) as HGk. rewrite Forall_forall in HGk. destruct (HGk _ Hin) as (bf & E & Hlt & _). eauto. }
        split; auto.
        + intros k. apply Forall_forall. intros b' Hin. destruct (Hsrc k b' Hin) as [[-> ->]|Hin'].
          * exists (w_fresh w). cbn. split; [exact Hbuf|]. split; [lia|]. split; [exact Hcap|lia].
          * pose proof (IG k) as HGk. rewrite Forall_forall in HGk. destruct (HGk _ Hin') as (bf & E & Hlt & Hr). exists bf. cbn.
            split; [exact E|]. split; [lia|exact Hr].
        + intros k. rewrite Hp1. destruct (Nat.eqb_spec k i) as [->|]; [exact Hnd|apply IN].
        + intros k1 k2 b1 b2 Hb1 Hb2 E. destruct (Hsrc _ _ Hb1) as [[-> ->]|Hb1'], (Hsrc _ _ Hb2) as [[-> ->]|Hb2'].
          * reflexivity.
          * destruct (Hold _ _ Hb2') as (bf & E' & Hlt). exfalso. assert (bf = w_fresh w) by congruence. lia.
          * destruct (Hold _ _ Hb1') as (bf & E' & Hlt). exfalso. assert (bf = w_fresh w) by congruence. lia.
          * eauto.
        + intros k b' Hin. destruct (Hsrc _ _ Hin) as [[-> ->]|Hin'].
          * unfold heap_has. rewrite Hbuf. cbn [h_buf h_live]. rewrite Nat.eqb_refl. split; [reflexivity|]. intros x.
            rewrite Ht0. destruct (h_live h (w_fresh w, x)) eqn:E; [|symmetry; apply N.ltb_ge; lia].
            apply ILO in E. cbn in E. congruence.
          * destruct (Hold _ _ Hin') as (bf & E & Hlt). pose proof (IH _ _ Hin') as Hh. unfold heap_has in *. rewrite E in *.
            cbn [h_buf h_live]. destruct (Nat.eqb_spec bf (w_fresh w)); [lia|exact Hh].
        + intros bf. cbn [h_buf]. destruct (Nat.eqb_spec bf (w_fresh w)) as [->|]; intros H.
          * exists i, b. split; [|exact Hbuf]. rewrite Hp1, Nat.eqb_refl. apply in_or_app; right; now left.
          * destruct (IHO bf H) as (k & b' & Hb' & E). exists k, b'. auto.
        + intros s. cbn [h_live h_buf]. intros Hs. destruct (Nat.eqb_spec (fst s) (w_fresh w)); [congruence|]. now apply ILO.
        + intros s k. rewrite (IO s k). split; intros (b' & Hin & E & Hlt).
          * exists b'. auto.
          * destruct (Hsrc _ _ Hin) as [[-> ->]|Hin']; [lia|]. exists b'. auto.
        + intros s Hs. cbn in Hs. apply in_app_or in Hs as [Hs|[Hs|[]]]; [|discriminate].
          destruct (IE s Hs) as [Ha Hb2]. split; [cbn; lia|]. intros k b' Hin E. destruct (Hsrc _ _ Hin) as [[-> ->]|Hin']; [|eauto].
          rewrite Hbuf in E. injection E as E. lia. }
    destruct H1 as (h1 & Hrun & Hnc & I1).
    destruct throws.
    + exists h1. split; [exact Hrun|]. split; [discriminate|]. split; [now apply constructed_none|]. exact I1.
    + clear IA IL IG IN IC IH IHO ILO IO IE. pose proof I1 as [IA IL IG IN IC IH IHO ILO IO IE].
      assert (Hbin : In b (pool_at w1 i)) by (rewrite Hp1, Nat.eqb_refl; apply in_or_app; right; now left).
      assert (Hh : heap_has h1 b) by eauto. unfold heap_has in Hh. rewrite Hbuf in Hh. destruct Hh as [Hhb Hhl].
      set (s := (buf, b_top b)). set (b2 := {| b_buf := Some buf; b_top := b_top b + 1; b_cap := b_cap b |}).
      rewrite heap_run_app, Hrun. cbn [heap_run heap_step]. change (fst s) with buf. change (snd s) with (b_top b). rewrite Hhb.
      replace (h_live h1 s) with false by (unfold s; rewrite Hhl, N.ltb_irrefl; reflexivity).
      destruct (N.ltb_spec (b_top b) (b_cap b)); [|lia]. cbn [andb negb].
      eexists. split; [reflexivity|].
      assert (Hnever : forall s', In (EvConstruct s') (w_trace w) -> s' <> s).
      { intros s' Hin E. destruct (IE s') as [_ Hk]; [cbn; apply in_or_app; now left|].
        subst s'. specialize (Hk i b Hbin Hbuf). cbn in Hk. lia. }
      split; [intros _ Hin; now apply (Hnever s Hin)|]. split; [now apply constructed_none|].
      set (w2 := {| w_pools := _; w_fresh := _; w_trace := _ |}).
      assert (Hp2 : forall k, pool_at w2 k = if Nat.eqb k i then before ++ [b2] else pool_at w k).
      { intros k. unfold w2. rewrite pool_at_put by exact Hilt. reflexivity. }
      assert (Hsrc : forall k b', In b' (pool_at w2 k) -> (k = i /\ b' = b2) \/ (In b' (pool_at w1 k) /\ b_buf b' <> Some buf)).
      { intros k b' Hin. rewrite Hp2 in Hin. rewrite Hp1. destruct (Nat.eqb_spec k i) as [->|Hki].
        - apply in_app_or in Hin as [Hin|[Hin|[]]]; [right|left; auto]. split; [apply in_or_app; now left|].
          intros E. rewrite map_app in Hnd. cbn in Hnd. apply NoDup_remove_2 in Hnd. rewrite app_nil_r in Hnd. apply Hnd.
          rewrite Hbuf, <- E. now apply in_map.
        - right. split; [exact Hin|]. now apply Hbuf_other with k. }
      assert (Hdst : forall k b', In b' (pool_at w1 k) -> b_buf b' <> Some buf -> In b' (pool_at w2 k)).
      { intros k b' Hin Hne. rewrite Hp1 in Hin. rewrite Hp2. destruct (Nat.eqb_spec k i) as [->|Hki]; [|exact Hin].
        apply in_app_or in Hin as [Hin|[Hin|[]]]; [apply in_or_app; now left|congruence]. }
      assert (Hb2in : In b2 (pool_at w2 i)) by (rewrite Hp2, Nat.eqb_refl; apply in_or_app; right; now left).
      assert (HAok2 : alive_ok alive w2) by now apply alive_put. destruct HAok2 as [HA1 HA2].
      split; auto.
      * intros k. apply Forall_forall. intros b' Hin. destruct (Hsrc _ _ Hin) as [[-> ->]|[Hin' _]].
        -- pose proof (IG i) as HGi. rewrite Forall_forall in HGi. destruct (HGi _ Hbin) as (bf & E & Hlt & Hr & _).
           rewrite Hbuf in E. injection E as <-. exists buf. cbn. split; [reflexivity|]. split; [exact Hlt|]. split; [exact Hr|lia].
        -- pose proof (IG k) as HGi. rewrite Forall_forall in HGi. exact (HGi _ Hin').
      * intros k. rewrite Hp2. destruct (Nat.eqb_spec k i) as [->|Hki].
        -- rewrite map_app in Hnd |- *. cbn [map] in *. rewrite Hbuf in Hnd. exact Hnd.
        -- specialize (IN k). rewrite Hp1 in IN. destruct (Nat.eqb_spec k i); [congruence|exact IN].
      * intros k1 k2 c1 c2 Hc1 Hc2 E. destruct (Hsrc _ _ Hc1) as [[-> ->]|[Hc1' Hn1]], (Hsrc _ _ Hc2) as [[-> ->]|[Hc2' Hn2]]; eauto.
        -- exfalso. apply Hn2. rewrite <- E. reflexivity.
        -- exfalso. apply Hn1. rewrite E. reflexivity.
      * intros k b' Hin. destruct (Hsrc _ _ Hin) as [[-> ->]|[Hin' Hne]].
        -- unfold heap_has; cbn [b_buf b2 h_buf h_live b_cap b_top]. split; [exact Hhb|]. intros x. unfold slot_eqb, s; cbn [fst snd].
           rewrite Nat.eqb_refl, Hhl. cbn [andb].
           destruct (N.eqb_spec x (b_top b)), (N.ltb_spec x (b_top b)), (N.ltb_spec x (b_top b + 1)); try lia; reflexivity.
        -- pose proof (IH _ _ Hin') as Hh. unfold heap_has in *. destruct (b_buf b') as [bf|] eqn:E; [|exact Logic.I].
           cbn [h_buf h_live]. split; [apply Hh|]. intros x. unfold slot_eqb, s; cbn [fst snd].
           destruct (Nat.eqb_spec bf buf); [congruence|]. apply Hh.
      * intros bf. cbn [h_buf]. intros Hbf. destruct (IHO bf Hbf) as (k & b' & Hb' & E).
        destruct (Nat.eq_dec bf buf) as [->|Hne]; [exists i, b2; auto|]. exists k, b'. split; [apply Hdst; [exact Hb'|congruence]|exact E].
      * intros x. cbn [h_live h_buf]. destruct (slot_eqb_spec x s) as [->|]; [unfold s; cbn [fst]; rewrite Hhb; discriminate|apply ILO].
      * intros x k. destruct (slot_eqb_spec x s) as [->|Hxs].
        -- split.
           ++ intros [= <-]. exists b2. split; [exact Hb2in|]. cbn. split; [reflexivity|lia].
           ++ intros (b' & Hin & E & Hlt). destruct (Hsrc _ _ Hin) as [[-> ->]|[Hin' Hne]]; [reflexivity|]. now cbn in E.
        -- rewrite (IO x k). split; intros (b' & Hin & E & Hlt).
           ++ destruct (Nat.eq_dec (fst x) buf) as [Hf|Hf].
              ** assert (k = i) by (apply (IC k i b' b Hin Hbin); congruence). subst k. rewrite Hp1, Nat.eqb_refl in Hin.
                 assert (b' = b) by (apply Hsame; [exact Hin|congruence]). subst b'.
                 exists b2. split; [exact Hb2in|]. cbn. split; [congruence|lia].
              ** exists b'. split; [apply Hdst; [exact Hin|congruence]|]. auto.
           ++ destruct (Hsrc _ _ Hin) as [[-> ->]|[Hin' Hne]].
              ** exists b. split; [exact Hbin|]. cbn in E, Hlt. split; [congruence|]. injection E as E.
                 assert (snd x <> b_top b); [|lia]. intros E2. apply Hxs. destruct x as [x1 x2]. cbn in *. unfold s. congruence.
              ** exists b'. auto.
      * intros x. cbn [w_trace w2 w_fresh]. rewrite app_assoc. intros Hx. apply in_app_or in Hx as [Hx|[Hx|[]]].
        -- destruct (IE x Hx) as [Ha Hb]. split; [exact Ha|]. intros k b' Hin E.
           destruct (Hsrc _ _ Hin) as [[-> ->]|[Hin' Hne]]; [|eauto]. cbn in E. injection E as E.
           cbn. assert (snd x < b_top b); [|lia]. apply (Hb i b Hbin). congruence.
        -- injection Hx as <-. split.
           ++ pose proof (IG i) as HGi. rewrite Forall_forall in HGi. destruct (HGi _ Hbin) as (bf & E & Hlt & _).
              rewrite Hbuf in E. injection E as <-. exact Hlt.
           ++ intros k b' Hin E. cbn in E. destruct (Hsrc _ _ Hin) as [[-> ->]|[Hin' Hne]]; [cbn; lia|congruence].
Qed.

(** ** Part of a pool's blocks moves to another pool *)
Definition hand_over_some (j i : nat) (l : list block) (own : owners) : owners :=
  fun s => match own s with Some k => Some (if Nat.eqb k j && buf_in l (fst s) then i else k) | None => None end.

Lemma inv_transfer_some w w' alive own h i j l rest :
  inv w alive own h -> i <> j -> alive_ok alive w' ->
  pool_at w j = l ++ rest ->
  pool_at w' i = pool_at w i ++ l -> pool_at w' j = rest ->
  (forall k, k <> i -> k <> j -> pool_at w' k = pool_at w k) ->
  w_fresh w' = w_fresh w -> w_trace w' = w_trace w ->
  inv w' alive (hand_over_some j i l own) h.
Proof.
  intros [IA IL IG IN IC IH IHO ILO IO IE] Hij [HA HL] Hsplit Hi Hj Hk Hf Ht.
  assert (Hsep : forall b b', In b l -> In b' rest -> b_buf b = b_buf b' -> False).
  { intros b b' Hb Hb' E. specialize (IN j). rewrite Hsplit, map_app in IN.
    revert IN Hb Hb' E. generalize l. clear. induction l as [|x l IHl]; intros HN Hb Hb' E; [contradiction|]. cbn in HN. apply NoDup_cons_iff in HN as [Hx HN].
    destruct Hb as [->|Hb]; [apply Hx, in_or_app; right; rewrite E; now apply in_map|]. eauto. }
  assert (Hsrc : forall k b, In b (pool_at w' k) -> exists k0, In b (pool_at w k0) /\ ((k0 <> j /\ k = k0) \/ (k0 = j /\ k = i /\ In b l) \/ (k0 = j /\ k = j /\ In b rest))).
  { intros k b Hin. destruct (Nat.eq_dec k i) as [->|Hki].
    - rewrite Hi in Hin. apply in_app_or in Hin as [Hin|Hin]; [exists i; auto|].
      exists j. split; [rewrite Hsplit; apply in_or_app; now left|]. right; left; auto.
    - destruct (Nat.eq_dec k j) as [->|Hkj].
      + rewrite Hj in Hin. exists j. split; [rewrite Hsplit; apply in_or_app; now right|]. right; right; auto.
      + rewrite Hk in Hin by assumption. exists k. auto. }
  assert (Hdst : forall k0 b, In b (pool_at w k0) -> exists k, In b (pool_at w' k) /\ ((k0 <> j /\ k = k0) \/ (k0 = j /\ k = i /\ In b l) \/ (k0 = j /\ k = j /\ In b rest))).
  { intros k0 b Hin. destruct (Nat.eq_dec k0 j) as [->|Hkj].
    - rewrite Hsplit in Hin. apply in_app_or in Hin as [Hin|Hin].
      + exists i. split; [rewrite Hi; apply in_or_app; now right|right; left; auto].
      + exists j. split; [now rewrite Hj|right; right; auto].
    - exists k0. split; [|auto]. destruct (Nat.eq_dec k0 i) as [->|Hki]; [rewrite Hi; apply in_or_app; now left|]. rewrite Hk; auto. }
  assert (HNj := IN j). rewrite Hsplit, map_app in HNj.
  split; auto.
  - intros k. rewrite Hf. apply Forall_forall. intros b Hb. destruct (Hsrc k b Hb) as (k0 & Hb0 & _).
    specialize (IG k0). rewrite Forall_forall in IG. auto.
  - intros k. destruct (Nat.eq_dec k i) as [->|Hki].
    + rewrite Hi, map_app. apply NoDup_app; auto.
      { clear - HNj. induction l as [|x l IHl]; cbn in *; [constructor|]. apply NoDup_cons_iff in HNj as [Hx HN].
        constructor; [intros Hc; apply Hx, in_or_app; now left|auto]. }
      intros x H1 H2.
      apply in_map_iff in H1 as (b1 & Hb1 & H1). apply in_map_iff in H2 as (b2 & Hb2 & H2).
      apply Hij. apply (IC i j b1 b2 H1); [rewrite Hsplit; apply in_or_app; now left|congruence].
    + destruct (Nat.eq_dec k j) as [->|Hkj]; [|rewrite Hk; auto]. rewrite Hj.
      clear - HNj. induction l as [|x l IHl]; cbn in *; [exact HNj|]. apply NoDup_cons_iff in HNj as [_ HN]. auto.
  - intros k1 k2 b b' H1 H2 Hbb. destruct (Hsrc _ _ H1) as (a1 & Ha1 & C1). destruct (Hsrc _ _ H2) as (a2 & Ha2 & C2).
    pose proof (IC a1 a2 b b' Ha1 Ha2 Hbb) as E. subst a2.
    destruct C1 as [[C1 ->]|[(C1 & -> & C1')|(C1 & -> & C1')]], C2 as [[C2 ->]|[(C2 & -> & C2')|(C2 & -> & C2')]]; try congruence;
      exfalso; eapply Hsep; eauto.
  - intros k b Hb. destruct (Hsrc k b Hb) as (k0 & Hb0 & _). eauto.
  - intros buf Hbuf. destruct (IHO buf Hbuf) as (k0 & b & Hb & Hbb). destruct (Hdst _ _ Hb) as (k & Hb' & _). eauto.
  - assert (Hin_l : forall b (s : slot_id), In b l -> b_buf b = Some (fst s) -> buf_in l (fst s) = true).
    { intros b s Hb E. apply buf_in_true. eauto. }
    assert (Hin_r : forall b (s : slot_id), In b rest -> b_buf b = Some (fst s) -> buf_in l (fst s) = false).
    { intros b s Hb E. apply Bool.not_true_iff_false. rewrite buf_in_true. intros (b2 & Hb2 & E2). apply (Hsep b2 b Hb2 Hb). congruence. }
    intros s k. unfold hand_over_some. split.
    + destruct (own s) as [k0|] eqn:Ho; [|discriminate]. intros [= <-]. apply IO in Ho as (b & Hb & H1 & H2).
      destruct (Hdst _ _ Hb) as (k & Hb' & C). exists b. split; [|auto].
      destruct C as [[C ->]|[(-> & -> & C)|(-> & -> & C)]].
      * destruct (Nat.eqb_spec k0 j); [congruence|exact Hb'].
      * now rewrite Nat.eqb_refl, (Hin_l b s C H1).
      * now rewrite Nat.eqb_refl, (Hin_r b s C H1).
    + intros (b & Hb & H1 & H2). destruct (Hsrc k b Hb) as (k0 & Hb0 & C).
      assert (Ho : own s = Some k0) by (apply IO; exists b; auto). rewrite Ho.
      destruct C as [[C ->]|[(-> & -> & C)|(-> & -> & C)]].
      * destruct (Nat.eqb_spec k0 j); [congruence|reflexivity].
      * now rewrite Nat.eqb_refl, (Hin_l b s C H1).
      * now rewrite Nat.eqb_refl, (Hin_r b s C H1).
  - intros s. rewrite Ht, Hf. intros Hs. destruct (IE s Hs) as [H1 H2]. split; [exact H1|]. intros k b Hb Hbb.
    destruct (Hsrc k b Hb) as (k0 & Hb0 & _). eauto.
Qed.

(** A buffer that is allocated and freed again. *)
Lemma inv_passing rd w w' alive own h n :
  inv w alive own h -> alive_ok alive w' -> (forall k, pool_at w' k = pool_at w k) -> w_fresh w' = S (w_fresh w) ->
  w_trace w' = w_trace w ++ [EvBuffer (w_fresh w) n; EvFree (w_fresh w)] ->
  exists h', heap_run rd h [EvBuffer (w_fresh w) n; EvFree (w_fresh w)] = Some h' /\ inv w' alive own h'.
Proof.
  intros [IA IL IG IN IC IH IHO ILO IO IE] [HA HL] Hp Hf Ht. cbn [heap_run heap_step].
  assert (Hold : forall k b', In b' (pool_at w k) -> exists bf, b_buf b' = Some bf /\ (bf < w_fresh w)%nat).
  { intros k b' Hin. pose proof (IG k) as HGk. rewrite Forall_forall in HGk. destruct (HGk _ Hin) as (bf & E & Hlt & _). eauto. }
  assert (Hnone : h_buf h (w_fresh w) = None).
  { destruct (h_buf h (w_fresh w)) eqn:E; [|reflexivity]. destruct (IHO (w_fresh w)) as (k & b' & Hb' & Hbb); [congruence|].
    destruct (Hold _ _ Hb') as (bf & E2 & Hlt). assert (bf = w_fresh w) by congruence. lia. }
  assert (Hdead : forall s : slot_id, fst s = w_fresh w -> h_live h s = false).
  { intros s Hs. apply Bool.not_true_iff_false. intros Hl. apply ILO in Hl. congruence. }
  rewrite Hnone. cbn [h_buf h_live]. rewrite Nat.eqb_refl.
  replace (rd && existsb (fun i => h_live h (w_fresh w, i)) (upto (N.to_nat n))) with false.
  2:{ symmetry. apply andb_false_intro2. apply Bool.not_true_iff_false. rewrite existsb_exists. intros (x & _ & Hx). rewrite Hdead in Hx by reflexivity. discriminate. }
  eexists. split; [reflexivity|]. split; auto.
  - intros k. rewrite Hp. eapply Forall_impl; [|apply IG]. intros b' (bf & H1 & H2 & H3). exists bf. rewrite Hf. split; [exact H1|]. split; [lia|exact H3].
  - intros k. rewrite Hp. apply IN.
  - intros k1 k2 b b' H1 H2. rewrite Hp in H1, H2. eauto.
  - intros k b Hb. rewrite Hp in Hb. pose proof (IH k b Hb) as Hh. destruct (Hold _ _ Hb) as (bf & E & Hlt). unfold heap_has in *. rewrite E in *.
    cbn [h_buf h_live fst]. destruct (Nat.eqb_spec bf (w_fresh w)); [lia|exact Hh].
  - intros bf. cbn [h_buf]. destruct (Nat.eqb_spec bf (w_fresh w)); [congruence|]. intros H. destruct (IHO bf H) as (k & b & Hb & E).
    exists k, b. now rewrite Hp.
  - intros s. cbn [h_live h_buf]. destruct (Nat.eqb_spec (fst s) (w_fresh w)); [discriminate|apply ILO].
  - intros s k. rewrite Hp. apply IO.
  - intros s. rewrite Ht, Hf. intros Hs. apply in_app_or in Hs as [Hs|[Hs|[Hs|[]]]]; try discriminate.
    destruct (IE s Hs) as [H1 H2]. split; [lia|]. intros k b. rewrite Hp. apply H2.
Qed.

(** A dead pool more. *)
Lemma inv_stillborn w alive own h : inv w alive own h ->
  inv {| w_pools := w_pools w ++ [None]; w_fresh := w_fresh w; w_trace := w_trace w |} (alive ++ [false]) own h.
Proof.
  intros I. assert (Hp : forall k, pool_at {| w_pools := w_pools w ++ [None]; w_fresh := w_fresh w; w_trace := w_trace w |} k = pool_at w k).
  { intros k. unfold pool_at; cbn. destruct (Nat.lt_ge_cases k (length (w_pools w))); [now rewrite nth_error_app1|].
    rewrite nth_error_app2 by lia. rewrite (proj2 (nth_error_None (w_pools w) k)) by lia.
    destruct (k - length (w_pools w))%nat as [|[|m]]; reflexivity. }
  destruct I as [IA IL IG IN IC IH IHO ILO IO IE]. split; auto; intros; cbn [w_pools w_fresh w_trace] in *; repeat rewrite ?Hp in *; eauto.
  - destruct (Nat.lt_ge_cases i (length alive)).
    + rewrite !nth_error_app1 by lia. apply IA.
    + rewrite !nth_error_app2 by lia. rewrite IL. destruct (i - length (w_pools w))%nat as [|[|m]]; cbn;
        (split; [discriminate|intros (v & E); discriminate]).
  - rewrite !app_length; cbn; lia.
  - destruct (IHO _ H) as (i & b & Hb). exists i, b. now rewrite Hp.
  - destruct (IE _ H) as [H1 H2]. split; [exact H1|]. intros i b Hb. rewrite Hp in Hb. eauto.
Qed.
