(** * The parallel parser reads back the value a document encodes, with the entries of maps
    in the order of [regrouped]. *)
From Verif Require Import Base BaseLemmas ModelVarint ModelData ModelSecondary ModelObject
  ModelParse ModelWrapper Spec VarintProofs Wire NumProofs SeriProofs SeriProofs2 ObjInd ParseLemmas NormalProofs ValueProofs Order.
From Coq Require Import ZifyBool ZifyNat ZifyN.

Lemma Forall2_concat_inv {A B} (R : A -> B -> Prop) (groups : list (list B)) :
  forall vs, Forall2 R vs (concat groups) -> exists vgs, vs = concat vgs /\ Forall2 (Forall2 R) vgs groups.
Proof.
  induction groups as [|g groups IH]; cbn; intros vs HF.
  - inversion HF; subst. exists []. auto.
  - apply Forall2_app_inv_r in HF as (v1 & v2 & H1 & H2 & ->).
    destruct (IH _ H2) as (vgs & -> & HV). exists (v1 :: vgs). auto.
Qed.

Lemma hard_failure_ok (l : list block) : hard_failure (map (@Ok block) l) = None.
Proof. induction l; cbn; auto. Qed.

Lemma run_PPar {A} get ts (k : list (outcome block) -> prog A) :
  run get (PPar ts k) =
  match hard_failure (map (fun t => run get t) ts) with
  | Some f => fail_out f
  | None => run get (k (map (fun t => run get t) ts))
  end.
Proof. reflexivity. Qed.

(** The three merges have the same shape. *)
Section Merge.
  Context {I : Type}.
  Variable mk : list I -> N -> block.
  Variable mrg : list I * N -> outcome block -> outcome (list I * N).
  Hypothesis Hmrg : forall acc items count, mrg acc (Ok (mk items count)) =
    Ok (match items with [] => acc | _ => (items ++ fst acc, u64 (snd acc + count)) end).

  Lemma merge_all_ok (oss : list (list I)) : forall acc n,
    n + len (concat oss) < W64 ->
    merge_all mrg (acc, n) (map (fun os => Ok (mk os (len os))) oss)
    = Ok (concat (rev oss) ++ acc, n + len (concat oss)).
  Proof.
    induction oss as [|os oss IH]; intros acc n Hn; cbn [map merge_all].
    - cbn. now rewrite N.add_0_r.
    - rewrite Hmrg. cbn [obind fst snd]. cbn [concat] in Hn |- *. rewrite len_app in Hn.
      cbn [rev]. rewrite concat_app. cbn [concat]. rewrite app_nil_r, len_app, <- app_assoc.
      destruct os as [|o os].
      + rewrite len_nil, N.add_0_l in *. cbn [app]. now apply IH.
      + rewrite u64_small by lia. rewrite IH by lia. now rewrite N.add_assoc.
  Qed.
End Merge.

(** Unfolding equations. *)
Section Unfold.
  Variable E : penv.
  Variable si : split_info.
  Notation R := (b_env E).
  Local Open Scope prog_scope.
  Lemma ParseArray_S f parse_ref os : ParseArray E si (S f) parse_ref os =
        (let s := {| idx := os; off := os |} in
        '(_, s1) <- lift (parseLength R s) ;;
        '(id, s2) <- lift (parseLength R s1) ;;
        block_info <- lift (GetBlockInfoFromId si (u32 id)) ;;
        let (rs, last) := ranges (idx s2) block_info in
        PPar (map (fun be => ParseArrayBlock E si f parse_ref (snd be) {| idx := fst be; off := fst be |} [] 0) rs)
          (fun objs =>
             '(items, size) <- lift (merge_all merge_arr ([], 0) (rev objs)) ;;
             PRet (OArray CoroFrame size items, last))).
  Proof. reflexivity. Qed.
  Lemma ParseMap_S f (parse_ref : bool) os : ParseMap E si (S f) parse_ref os =
        (let s := {| idx := os; off := os |} in
        '(_, s1) <- lift (parseLength R s) ;;
        '(id, s2) <- lift (parseLength R s1) ;;
        block_info <- lift (GetBlockInfoFromId si (u32 id)) ;;
        let (rs, last) := ranges (idx s2) block_info in
        if parse_ref then
          PPar (map (fun be => ParseMapViewBlock E si f (snd be) {| idx := fst be; off := fst be |} [] 0) rs)
            (fun objs =>
               '(items, size) <- lift (merge_all merge_mapview ([], 0) objs) ;;
               PRet (OMapView CoroFrame size items, last))
        else
          PPar (map (fun be => ParseMapBlock E si f (snd be) {| idx := fst be; off := fst be |} [] 0) rs)
            (fun objs =>
               '(items, size) <- lift (merge_all merge_map ([], 0) objs) ;;
               PRet (OMap CoroFrame size items, last))).
  Proof. reflexivity. Qed.
  Lemma block_value_S f parse_ref s : block_value E si (S f) parse_ref s =
        ('(t, need_to_split, s1) <- lift (parseObjectType_split R s) ;;
        if need_to_split : bool then
          match t with
          | TArray => '(o, e) <- ParseArray E si f parse_ref (idx s1) ;; PRet (o, {| idx := e; off := e |})
          | TMap => '(o, e) <- ParseMap E si f parse_ref (idx s1) ;; PRet (o, {| idx := e; off := e |})
          | TData => PFail (FThrow ERuntime)
          end
        else valueParse E CoroFrame parse_ref f t s1).
  Proof. reflexivity. Qed.
  Lemma ParseArrayBlock_S f parse_ref end_ s acc count : ParseArrayBlock E si (S f) parse_ref end_ s acc count =
        if off s <? end_ then
          '(o, s1) <- block_value E si f parse_ref s ;;
          ParseArrayBlock E si f parse_ref end_ s1 (o :: acc) (u64 (count + 1))
        else PRet (BArr (rev acc) count).
  Proof. reflexivity. Qed.
  Lemma ParseMapBlock_S f end_ s acc count : ParseMapBlock E si (S f) end_ s acc count =
        if off s <? end_ then
          '(kv, s1) <- block_key E s ;;
          key <- lift (read_local R kv) ;;
          '(o, s2) <- block_value E si f false s1 ;;
          ParseMapBlock E si f end_ s2 ((key, o) :: acc) (u64 (count + 1))
        else PRet (BMap (rev acc) count).
  Proof. reflexivity. Qed.
  Lemma ParseMapViewBlock_S f end_ s acc count : ParseMapViewBlock E si (S f) end_ s acc count =
        if off s <? end_ then
          '(kv, s1) <- block_key E s ;;
          '(o, s2) <- block_value E si f true s1 ;;
          ParseMapViewBlock E si f end_ s2 ((kv, o) :: acc) (u64 (count + 1))
        else PRet (BMapView (rev acc) count).
  Proof. reflexivity. Qed.
End Unfold.

Section ParaRead.
  Variable E : penv.
  Variable si : split_info.
  Variable get : N -> outcome view.
  Variable D : dict.
  Variable T : table.
  Variable sz : N.
  Variable mem : memory.
  Notation R := (b_env E).
  Notation content := (r_content (b_env E)).
  Hypothesis Hbase : r_base R = 0.
  Hypothesis Hsize : r_size R = len content.
  Hypothesis Hlim : lim (r_cfg R) (len content).
  Hypothesis Hmap : b_map E = match D with Some _ => true | None => false end.
  Hypothesis Hget : answers content (b_buf E) get D.
  Hypothesis Hmem : mem (b_buf E) = Some content.
  Hypothesis Htab : forall id l, T id = Some l -> GetBlockInfoFromId si id = Ok l.

  Definition readsv (pr : bool) (o : obj) (v : value) : Prop :=
    exists v', regrouped v v' /\ reads E mem pr o v'.
  Definition entry_readsv pr (i : bytes * obj) (e : bytes * value) : Prop :=
    fst i = fst e /\ readsv pr (snd i) (snd e).
  Definition ventry_readsv pr (i : view * obj) (e : bytes * value) : Prop :=
    locates content (b_buf E) (fst i) (fst e) /\ readsv pr (snd i) (snd e).

  Lemma ranges_cons b n l : ranges b (n :: l) = ((b, u64 (b + n)) :: fst (ranges (u64 (b + n)) l), snd (ranges (u64 (b + n)) l)).
  Proof. cbn. destruct (ranges (u64 (b + n)) l); reflexivity. Qed.

  Lemma ranges_last (groups : list (list bytes)) b :
    b + len (concat (concat groups)) < W64 ->
    snd (ranges b (map block_size groups)) = b + len (concat (concat groups)).
  Proof.
    revert b; induction groups as [|g groups IH]; intros b Hb.
    - cbn. now rewrite N.add_0_r.
    - cbn [map concat] in *. rewrite ranges_cons. cbn [snd]. rewrite concat_app, len_app in *.
      unfold block_size in *. rewrite u64_small by lia. rewrite IH by lia. lia.
  Qed.

  Lemma blocks_ok {V I} (RW : V -> bytes -> Prop) (RI : I -> V -> Prop) (P : V -> Prop)
      (task : N -> rstate -> prog block) (mk : list I -> N -> block) (f : nat) :
    (forall vs g A B, Forall2 RW vs g -> content = A ++ concat g ++ B -> B <> [] ->
       (length (concat g) + 1 <= f)%nat -> Forall P vs ->
       exists os, run get (task (len A + len (concat g)) (at_ (len A))) = Ok (mk os (len os)) /\
                  Forall2 RI os vs) ->
    forall groups vgs A B, Forall2 (Forall2 RW) vgs groups ->
      content = A ++ concat (concat groups) ++ B -> B <> [] ->
      (length (concat (concat groups)) + 1 <= f)%nat -> Forall (Forall P) vgs ->
      exists oss,
        map (fun t => run get t)
          (map (fun be => task (snd be) {| idx := fst be; off := fst be |})
             (fst (ranges (len A) (map block_size groups))))
        = map (fun os => Ok (mk os (len os))) oss /\
        Forall2 (Forall2 RI) oss vgs.
  Proof.
    intros Htask. induction groups as [|g groups IH]; intros vgs A B HF HC HB Hf HP.
    - inversion HF; subst. exists []. auto.
    - inversion HF as [|vs ? vgs' ? Hg Hgs]; subst. inversion HP as [|? ? HP1 HP2]; subst.
      cbn [concat] in HC, Hf. rewrite concat_app in HC, Hf. rewrite <- app_assoc in HC.
      rewrite app_length in Hf.
      assert (HL : len A + len (concat g) <= len content).
      { rewrite HC, !len_app. lia. }
      pose proof (lim_W32 _ _ Hlim) as HW. rewrite W32_val in HW.
      cbn [map]. rewrite ranges_cons. cbn [fst snd map]. change (block_size g) with (len (concat g)).
      rewrite u64_small by (rewrite W64_val; lia).
      destruct (Htask vs g A (concat (concat groups) ++ B) Hg HC) as (os & Hrun & Hos);
        [now apply nonempty_app|lia|exact HP1|].
      change {| idx := len A; off := len A |} with (at_ (len A)). rewrite Hrun.
      destruct (IH vgs' (A ++ concat g) B Hgs) as (oss & Hruns & Hoss); auto; try lia.
      { rewrite <- app_assoc. exact HC. }
      rewrite len_app in Hruns. rewrite Hruns.
      exists (os :: oss). split; [reflexivity|]. constructor; auto.
  Qed.

  Lemma head_ok A n id rest B :
    content = A ++ (venc n ++ venc id ++ rest) ++ B -> n < W32 -> id < W32 ->
    parseLength R (at_ (len A)) = Ok (n, at_ (len (A ++ venc n))) /\
    parseLength R (at_ (len (A ++ venc n))) = Ok (id, at_ (len ((A ++ venc n) ++ venc id))) /\
    content = ((A ++ venc n) ++ venc id) ++ rest ++ B.
  Proof.
    intros HC Hn Hid. rewrite <- !app_assoc in HC. rewrite <- !app_assoc. split; [|split].
    - rewrite (pl E) with (n := n) (B := venc id ++ rest ++ B); auto; [|rewrite W64_val, W32_val in *; lia].
      now rewrite len_app.
    - rewrite (pl E) with (n := id) (B := rest ++ B); auto; [|rewrite <- app_assoc; auto|rewrite W64_val, W32_val in *; lia].
      now rewrite !len_app, N.add_assoc.
    - exact HC.
  Qed.

  Lemma reads_array pr (oss : list (list obj)) vgs l p :
    rev l = concat vgs -> Forall2 (Forall2 (readsv pr)) oss vgs ->
    readsv pr (OArray p (len (concat oss)) (concat oss)) (VArr l).
  Proof.
    intros Hl HF.
    assert (HF' : Forall2 (readsv pr) (concat oss) (rev l)).
    { rewrite Hl. clear -HF. induction HF; cbn; [constructor|now apply Forall2_app]. }
    clear HF Hl. revert HF'. generalize (concat oss) as os. intros os HF.
    assert (Hx : exists vs', Forall2 regrouped (rev l) vs' /\ Forall2 (reads E mem pr) os vs').
    { clear -HF. induction HF as [|o v os vs (v' & H1 & H2) HF (vs' & I1 & I2)].
      - exists []. auto.
      - exists (v' :: vs'). auto. }
    destruct Hx as (vs' & H1 & H2). exists (VArr (rev vs')). split; [|split].
    - constructor. apply Forall2_rev in H1. now rewrite rev_involutive in H1.
    - constructor; [reflexivity|]. rewrite rev_involutive. eapply Forall2_impl; [|exact H2].
      cbn. intros ? ? _ _ [H _]; exact H.
    - constructor. clear -H2. induction H2 as [|? ? ? ? [_ H] H2 IH]; constructor; auto.
  Qed.

  Lemma Forall2_concat_rev {X Y} (Q : X -> Y -> Prop) a b :
    Forall2 (Forall2 Q) a b -> Forall2 Q (concat (rev a)) (concat (rev b)).
  Proof.
    intros H. apply Forall2_rev in H. induction H; cbn; [constructor|now apply Forall2_app].
  Qed.

  Lemma perm_concat_rev {X} (vgs : list (list X)) : Permutation (concat vgs) (concat (rev vgs)).
  Proof.
    induction vgs as [|g vgs IH]; cbn; [constructor|].
    rewrite concat_app. cbn. rewrite app_nil_r. rewrite IH. apply Permutation_app_comm.
  Qed.

  Lemma len_concat_rev {X} (oss : list (list X)) : len (concat (rev oss)) = len (concat oss).
  Proof. symmetry. apply len_perm, perm_concat_rev. Qed.

  Lemma reads_map (oss : list (list (bytes * obj))) vgs l p pr :
    l = concat vgs -> Forall2 (Forall2 (entry_readsv pr)) oss vgs ->
    readsv pr (OMap p (len (concat oss)) (concat (rev oss))) (VMap l).
  Proof.
    intros -> HF. rewrite <- len_concat_rev. apply Forall2_concat_rev in HF.
    set (l1 := concat (rev vgs)) in *.
    revert HF. generalize (concat (rev oss)). intros os HF.
    assert (Hx : exists l', Forall2 (fun a b => fst a = fst b /\ regrouped (snd a) (snd b)) l1 l' /\
                   Forall2 (fun i e => fst i = fst e /\ reads E mem pr (snd i) (snd e)) os l').
    { clear -HF. induction HF as [|[k o] [k2 v] os vs [Hk (v' & H1 & H2)] HF (vs' & I1 & I2)].
      - exists []. auto.
      - cbn in *. subst. exists ((k2, v') :: vs'). auto. }
    destruct Hx as (l' & H1 & H2). exists (VMap l'). split; [|split].
    - constructor. exact H1.
    - constructor; [reflexivity|]. eapply Forall2_impl; [|exact H2]. cbn. intros ? ? _ _ [Hk [H _]]; auto.
    - constructor. clear -H2. induction H2 as [|? ? ? ? [_ [_ H]] H2 IH]; constructor; auto.
  Qed.

  Lemma reads_mapview (oss : list (list (view * obj))) vgs l p :
    l = concat vgs -> Forall2 (Forall2 (ventry_readsv true)) oss vgs ->
    readsv true (OMapView p (len (concat oss)) (concat (rev oss))) (VMap l).
  Proof.
    intros -> HF. rewrite <- len_concat_rev. apply Forall2_concat_rev in HF.
    set (l1 := concat (rev vgs)) in *.
    revert HF. generalize (concat (rev oss)). intros os HF.
    assert (Hx : exists l', Forall2 (fun a b => fst a = fst b /\ regrouped (snd a) (snd b)) l1 l' /\
                   Forall2 (fun i e => locates content (b_buf E) (fst i) (fst e) /\ reads E mem true (snd i) (snd e)) os l').
    { clear -HF. induction HF as [|[k o] [k2 v] os vs [Hk (v' & H1 & H2)] HF (vs' & I1 & I2)].
      - exists []. auto.
      - cbn in *. subst. exists ((k2, v') :: vs'). auto. }
    destruct Hx as (l' & H1 & H2). exists (VMap l'). split; [|split].
    - constructor. exact H1.
    - constructor; [reflexivity|]. eapply Forall2_impl; [|exact H2]. cbn. intros ? ? _ _ [Hk [H _]]. split; [|auto].
      eapply (locates_read E mem); eauto.
    - constructor. clear -H2. induction H2 as [|? ? ? ? [Hk [_ H]] H2 IH]; constructor; auto.
      split; [now apply locates_in in Hk|auto].
  Qed.

  Lemma Forall_groups {X} (P : X -> Prop) gs : Forall P (concat gs) -> Forall (Forall P) gs.
  Proof.
    induction gs; cbn; intros H; [constructor|]. apply Forall_app in H as [H1 H2]. auto.
  Qed.


  Lemma Forall2_concat_len {X Y} (Q : X -> Y -> Prop) a b : Forall2 (Forall2 Q) a b -> len (concat a) = len (concat b).
  Proof.
    induction 1 as [|x y a b Hxy H IH]; cbn; [reflexivity|]. rewrite !len_app, IH.
    now rewrite (len_Forall2 _ _ _ Hxy).
  Qed.

  Lemma Parse_blocks_ok fuel pr :
    (forall l b A B, wire D T sz (VArr l) true b -> content = A ++ b ++ B -> B <> [] ->
       (length b <= fuel)%nat -> (pr = true -> no_custom (VArr l)) ->
       exists o, run get (ParseArray E si fuel pr (len A)) = Ok (o, len A + len b) /\ readsv pr o (VArr l)) /\
    (forall l b A B, wire D T sz (VMap l) true b -> content = A ++ b ++ B -> B <> [] ->
       (length b <= fuel)%nat -> (pr = true -> no_custom (VMap l)) ->
       exists o, run get (ParseMap E si fuel pr (len A)) = Ok (o, len A + len b) /\ readsv pr o (VMap l)) /\
    (forall v ch A B, elem_wire D T sz v ch -> content = A ++ ch ++ B -> B <> [] ->
       (length ch <= fuel)%nat -> (pr = true -> no_custom v) ->
       exists o, run get (block_value E si fuel pr (at_ (len A))) = Ok (o, at_ (len A + len ch)) /\ readsv pr o v) /\
    (forall vs g A B acc n, Forall2 (elem_wire D T sz) vs g -> content = A ++ concat g ++ B -> B <> [] ->
       (length (concat g) + 1 <= fuel)%nat -> Forall (fun v => pr = true -> no_custom v) vs -> n + len vs < W64 ->
       exists os, run get (ParseArrayBlock E si fuel pr (len A + len (concat g)) (at_ (len A)) acc n)
                    = Ok (BArr (rev acc ++ os) (n + len os)) /\ Forall2 (readsv pr) os vs) /\
    (forall vs g A B acc n, pr = false -> Forall2 (entry_wire D T sz) vs g -> content = A ++ concat g ++ B -> B <> [] ->
       (length (concat g) + 1 <= fuel)%nat -> n + len vs < W64 ->
       exists os, run get (ParseMapBlock E si fuel (len A + len (concat g)) (at_ (len A)) acc n)
                    = Ok (BMap (rev acc ++ os) (n + len os)) /\ Forall2 (entry_readsv false) os vs) /\
    (forall vs g A B acc n, pr = true -> Forall2 (entry_wire D T sz) vs g -> content = A ++ concat g ++ B -> B <> [] ->
       (length (concat g) + 1 <= fuel)%nat -> Forall (fun e => no_custom (snd e)) vs -> n + len vs < W64 ->
       exists os, run get (ParseMapViewBlock E si fuel (len A + len (concat g)) (at_ (len A)) acc n)
                    = Ok (BMapView (rev acc ++ os) (n + len os)) /\ Forall2 (ventry_readsv true) os vs).
  Proof.
    assert (HWc : len content < 4294967296) by (rewrite <- W32_val; now apply (lim_W32 (r_cfg R))).
    assert (Hcount : forall (Q : value -> bytes -> Prop) vs g A B, (forall v c, Q v c -> c <> []) ->
              Forall2 Q vs g -> content = A ++ concat g ++ B -> len vs < W64 /\ len g <= len (concat g)).
    { intros Q vs g A B HQ HF HC.
      assert (len g <= len (concat g)).
      { apply concat_len_le. clear -HF HQ. induction HF; constructor; eauto. }
      rewrite (len_Forall2 _ _ _ HF). rewrite HC, !len_app in HWc. rewrite W64_val. lia. }
    assert (Hcount2 : forall (Q : bytes * value -> bytes -> Prop) vs g A B, (forall v c, Q v c -> c <> []) ->
              Forall2 Q vs g -> content = A ++ concat g ++ B -> len vs < W64 /\ len g <= len (concat g)).
    { intros Q vs g A B HQ HF HC.
      assert (len g <= len (concat g)).
      { apply concat_len_le. clear -HF HQ. induction HF; constructor; eauto. }
      rewrite (len_Forall2 _ _ _ HF). rewrite HC, !len_app in HWc. rewrite W64_val. lia. }
    induction fuel as [|f (IHA & IHM & IHV & IHAB & IHMB & IHWB)].
    { split; [|split; [|split; [|repeat split; intros; lia]]].
      - intros l b A B Hw _ _ Hlen _. exfalso. inversion Hw; subst.
        rewrite app_length in Hlen. pose proof (venc_len_pos (len l)). unfold len in *. lia.
      - intros l b A B Hw _ _ Hlen _. exfalso. inversion Hw; subst.
        rewrite app_length in Hlen. pose proof (venc_len_pos (len l)). unfold len in *. lia.
      - intros v ch A B Hw _ _ Hlen _. exfalso. apply elem_nonempty in Hw. destruct ch; [congruence|cbn in Hlen; lia]. }
    split; [|split; [|split; [|split; [|split]]]].
    - (* ParseArray *)
      intros l b A B Hw HC HB Hlen Hnc.
      inversion Hw as [|l0 id chunks fl L1 L2 HF HS|]; subst.
      destruct (head_ok A (len l) id (concat chunks) B HC L1 L2) as (P1 & P2 & HC').
      rewrite ParseArray_S. cbv zeta. change {| idx := len A; off := len A |} with (at_ (len A)).
      rewrite run_bind, run_lift, P1. cbn [obind]. rewrite run_bind, run_lift, P2. cbn [obind].
      rewrite run_bind, run_lift, u32_small by exact L2.
      destruct HS as (groups & -> & HT & Hne & HF1 & _).
      rewrite (Htab _ _ HT). cbn [obind]. cbn [idx at_].
      set (A' := (A ++ venc (len l)) ++ venc id) in *.
      destruct (Forall2_concat_inv _ _ _ HF) as (vgs & Hvl & HFv).
      assert (Hfl : (length (concat (concat groups)) + 1 <= f)%nat).
      { pose proof (venc_len_pos (len l)). pose proof (venc_len_pos id).
        rewrite !app_length in Hlen. unfold len in *. lia. }
      destruct (blocks_ok (elem_wire D T sz) (readsv pr) (fun v => pr = true -> no_custom v)
                  (fun e s => ParseArrayBlock E si f pr e s [] 0) BArr f) with (groups := groups) (vgs := vgs) (A := A') (B := B)
        as (oss & Hruns & Hoss); auto.
      { intros vs g A0 B0 Hg HC0 HB0 Hf0 HP0.
        destruct (Hcount (elem_wire D T sz) vs g A0 B0) as [Hc1 _]; auto.
        { intros; eapply elem_nonempty; eauto. }
        destruct (IHAB vs g A0 B0 [] 0 Hg HC0 HB0 Hf0 HP0) as (os & Hr & Ho); [lia|].
        exists os. split; [exact Hr|exact Ho]. }
      { apply Forall_groups. rewrite <- Hvl. apply Forall_rev.
        destruct pr; [|apply Forall_forall; congruence].
        specialize (Hnc eq_refl). inversion Hnc; subst. eapply Forall_impl; [|eassumption]. auto. }
      destruct (ranges (len A') (map block_size groups)) as [rs last] eqn:Hr.
      assert (HA' : len A' + len (concat (concat groups)) < W64).
      { rewrite W64_val. rewrite HC', !len_app in HWc. lia. }
      pose proof (ranges_last groups (len A') HA') as Hlast. rewrite Hr in Hlast. cbn [snd] in Hlast. subst last.
      cbn [fst] in Hruns.
      rewrite run_PPar. rewrite Hruns.
      rewrite <- (map_map (fun os => BArr os (len os)) (@Ok block)), hard_failure_ok.
      rewrite run_bind, run_lift, map_map, <- map_rev.
      assert (Hlo : len (concat oss) < W64).
      { rewrite (Forall2_concat_len _ _ _ Hoss), <- Hvl, len_rev. rewrite W64_val, W32_val in *. lia. }
      rewrite (merge_all_ok BArr merge_arr).
      2:{ intros [] items count; reflexivity. }
      2:{ rewrite len_concat_rev. exact Hlo. }
      rewrite rev_involutive, app_nil_r, len_concat_rev, N.add_0_l. cbn [obind run].
      eexists. split.
      { do 2 f_equal. unfold A'. rewrite !len_app. lia. }
      eapply reads_array; eauto.
    - (* ParseMap *)
      intros l b A B Hw HC HB Hlen Hnc.
      inversion Hw as [| |l0 id chunks fl L1 L2 HF HS]; subst.
      destruct (head_ok A (len l) id (concat chunks) B HC L1 L2) as (P1 & P2 & HC').
      rewrite ParseMap_S. cbv zeta. change {| idx := len A; off := len A |} with (at_ (len A)).
      rewrite run_bind, run_lift, P1. cbn [obind]. rewrite run_bind, run_lift, P2. cbn [obind].
      rewrite run_bind, run_lift, u32_small by exact L2.
      destruct HS as (groups & -> & HT & Hne & HF1 & _).
      rewrite (Htab _ _ HT). cbn [obind]. cbn [idx at_].
      set (A' := (A ++ venc (len l)) ++ venc id) in *.
      destruct (Forall2_concat_inv _ _ _ HF) as (vgs & Hvl & HFv).
      assert (Hfl : (length (concat (concat groups)) + 1 <= f)%nat).
      { pose proof (venc_len_pos (len l)). pose proof (venc_len_pos id).
        rewrite !app_length in Hlen. unfold len in *. lia. }
      assert (HA' : len A' + len (concat (concat groups)) < W64).
      { rewrite W64_val. rewrite HC', !len_app in HWc. lia. }
      destruct (ranges (len A') (map block_size groups)) as [rs last] eqn:Hr.
      pose proof (ranges_last groups (len A') HA') as Hlast. rewrite Hr in Hlast. cbn [snd] in Hlast. subst last.
      destruct pr.
      + destruct (blocks_ok (entry_wire D T sz) (ventry_readsv true) (fun e => no_custom (snd e))
                  (fun e s => ParseMapViewBlock E si f e s [] 0) BMapView f) with (groups := groups) (vgs := vgs) (A := A') (B := B)
          as (oss & Hruns & Hoss); auto.
        { intros vs g A0 B0 Hg HC0 HB0 Hf0 HP0.
          destruct (Hcount2 (entry_wire D T sz) vs g A0 B0) as [Hc1 _]; auto.
          { intros; eapply entry_nonempty; eauto. }
          destruct (IHWB vs g A0 B0 [] 0 eq_refl Hg HC0 HB0 Hf0 HP0) as (os & Hr' & Ho); [lia|].
          exists os. split; [exact Hr'|exact Ho]. }
        { apply Forall_groups. rewrite <- Hvl. specialize (Hnc eq_refl). now inversion Hnc. }
        rewrite Hr in Hruns. cbn [fst] in Hruns.
        rewrite run_PPar. rewrite Hruns.
        rewrite <- (map_map (fun os => BMapView os (len os)) (@Ok block)), hard_failure_ok.
        rewrite run_bind, run_lift, map_map.
        assert (Hlo : len (concat oss) < W64).
        { rewrite (Forall2_concat_len _ _ _ Hoss), <- Hvl. rewrite W64_val, W32_val in *. lia. }
        rewrite (merge_all_ok BMapView merge_mapview); [|intros [] items count; reflexivity|exact Hlo].
        rewrite app_nil_r, N.add_0_l. cbn [obind run].
        eexists. split.
        { do 2 f_equal. unfold A'. rewrite !len_app. lia. }
        eapply reads_mapview; eauto.
      + destruct (blocks_ok (entry_wire D T sz) (entry_readsv false) (fun e => True)
                  (fun e s => ParseMapBlock E si f e s [] 0) BMap f) with (groups := groups) (vgs := vgs) (A := A') (B := B)
          as (oss & Hruns & Hoss); auto.
        { intros vs g A0 B0 Hg HC0 HB0 Hf0 HP0.
          destruct (Hcount2 (entry_wire D T sz) vs g A0 B0) as [Hc1 _]; auto.
          { intros; eapply entry_nonempty; eauto. }
          destruct (IHMB vs g A0 B0 [] 0 eq_refl Hg HC0 HB0 Hf0) as (os & Hr' & Ho); [lia|].
          exists os. split; [exact Hr'|exact Ho]. }
        { apply Forall_groups. apply Forall_forall. auto. }
        rewrite Hr in Hruns. cbn [fst] in Hruns.
        rewrite run_PPar. rewrite Hruns.
        rewrite <- (map_map (fun os => BMap os (len os)) (@Ok block)), hard_failure_ok.
        rewrite run_bind, run_lift, map_map.
        assert (Hlo : len (concat oss) < W64).
        { rewrite (Forall2_concat_len _ _ _ Hoss), <- Hvl. rewrite W64_val, W32_val in *. lia. }
        rewrite (merge_all_ok BMap merge_map); [|intros [] items count; reflexivity|exact Hlo].
        rewrite app_nil_r, N.add_0_l. cbn [obind run].
        eexists. split.
        { do 2 f_equal. unfold A'. rewrite !len_app. lia. }
        eapply reads_map; eauto.
    - (* block_value *)
      intros v ch A B (fl & b & Hw & ->) HC HB Hlen Hnc. rewrite block_value_S. cbv zeta.
      cbn [app] in HC.
      assert (HLc : len content = len A + (1 + len (b ++ B))).
      { rewrite HC, len_app, len_cons. lia. }
      destruct (parseObjectType_ok R A v fl (b ++ B) (len A) HC) as [_ Ho];
        [rewrite Hbase; lia|rewrite Hsize; lia|now rewrite Hsize|].
      rewrite run_bind, run_lift, Ho. cbn [obind].
      replace (len A + 1) with (len (A ++ [tag v fl])) by (rewrite len_app, len_cons, len_nil; lia).
      assert (HC' : content = (A ++ [tag v fl]) ++ b ++ B) by (rewrite <- app_assoc; exact HC).
      cbn [length] in Hlen.
      assert (Hend : len (A ++ [tag v fl]) + len b = len A + len (tag v fl :: b)).
      { rewrite len_app, !len_cons, len_nil. lia. }
      destruct fl.
      + destruct v as [x|l|l]; cbn [type_of].
        * inversion Hw.
        * rewrite run_bind. destruct (IHA l b (A ++ [tag (VArr l) true]) B Hw HC' HB) as (o & Hr & Hro); [lia|exact Hnc|].
          cbn [idx at_]. rewrite Hr. cbn [obind run]. rewrite Hend. eexists. split; [reflexivity|exact Hro].
        * rewrite run_bind. destruct (IHM l b (A ++ [tag (VMap l) true]) B Hw HC' HB) as (o & Hr & Hro); [lia|exact Hnc|].
          cbn [idx at_]. rewrite Hr. cbn [obind run]. rewrite Hend. eexists. split; [reflexivity|exact Hro].
      + destruct (valueParse_ok E get D T sz mem Hbase Hsize Hlim Hmap Hget Hmem CoroFrame pr f) as [Hv _].
        destruct (Hv v false b (A ++ [tag v false]) B Hw HC' HB) as (o & Hr & Hro); [lia|exact Hnc|].
        rewrite Hr, Hend. eexists. split; [reflexivity|]. exists (mirror v). split; [apply mirror_regrouped|exact Hro].
    - (* ParseArrayBlock *)
      intros vs g A B acc n HF HC HB Hlen HP Hn. rewrite ParseArrayBlock_S. cbn [off at_].
      destruct HF as [|v ch vs g Hv HF].
      { exists []. cbn. rewrite N.add_0_r, N.ltb_irrefl. cbn. rewrite N.add_0_r, app_nil_r. split; [reflexivity|constructor]. }
      pose proof (elem_nonempty _ _ _ _ _ Hv) as Hne.
      assert (Hpos : 0 < len ch) by (destruct ch; [congruence|rewrite len_cons; lia]).
      rewrite chunk_split in HC. cbn [concat] in Hlen |- *. rewrite len_app. rewrite app_length in Hlen.
      replace (len A <? len A + (len ch + len (concat g))) with true by lia.
      inversion HP as [|? ? HP1 HP2]; subst. rewrite len_cons in Hn.
      rewrite run_bind.
      destruct (IHV v ch A (concat g ++ B) Hv HC) as (o & Hr & Hro); [now apply nonempty_app|lia|exact HP1|].
      rewrite Hr. cbn [obind]. rewrite u64_small by (rewrite W64_val in *; lia).
      rewrite N.add_assoc, <- len_app.
      destruct (IHAB vs g (A ++ ch) B (o :: acc) (n + 1) HF) as (os & Hr2 & Hos); auto; try lia.
      { rewrite <- app_assoc. exact HC. }
      { unfold len in *. lia. }
      rewrite Hr2. exists (o :: os). split; [|constructor; auto].
      cbn [rev]. rewrite <- app_assoc, len_cons. cbn [app]. do 2 f_equal. lia.
    - (* ParseMapBlock *)
      intros vs g A B acc n Hpr HF HC HB Hlen Hn. rewrite ParseMapBlock_S. cbn [off at_].
      destruct HF as [|[k v] ch vs g Hv HF].
      { exists []. cbn. rewrite N.add_0_r, N.ltb_irrefl. cbn. rewrite N.add_0_r, app_nil_r. split; [reflexivity|constructor]. }
      pose proof (entry_nonempty _ _ _ _ _ Hv) as Hne.
      assert (Hpos : 0 < len ch) by (destruct ch; [congruence|rewrite len_cons; lia]).
      rewrite chunk_split in HC. cbn [concat] in Hlen |- *. rewrite len_app. rewrite app_length in Hlen.
      replace (len A <? len A + (len ch + len (concat g))) with true by lia.
      rewrite len_cons in Hn. destruct Hv as (kb & fl & b & Hk & Hw & ->). cbn [fst snd] in *.
      rewrite run_bind. rewrite <- app_assoc in HC.
      destruct (parse_key_ok E get D Hbase Hsize Hlim Hmap Hget A k kb ((tag v fl :: b) ++ concat g ++ B) HC)
        as (kv & _ & Hkey & Hloc); [cbn; congruence|exact Hk|].
      rewrite Hkey. cbn [obind]. rewrite run_bind, run_lift. unfold read_local.
      destruct Hloc as [_ Hloc]. rewrite Hloc. cbn [obind]. rewrite run_bind.
      rewrite <- len_app. rewrite app_length in Hlen.
      destruct (IHV v (tag v fl :: b) (A ++ kb) (concat g ++ B)) as (o & Hr & Hro).
      { exists fl, b. auto. }
      { rewrite <- app_assoc. exact HC. }
      { now apply nonempty_app. }
      { lia. }
      { congruence. }
      rewrite Hpr in Hr. rewrite Hr. cbn [obind]. rewrite u64_small by (rewrite W64_val in *; lia).
      assert (Hst : len (A ++ kb) + len (tag v fl :: b) = len (A ++ kb ++ tag v fl :: b)).
      { rewrite !len_app. lia. }
      rewrite Hst.
      replace (len A + (len (kb ++ tag v fl :: b) + len (concat g)))
        with (len (A ++ kb ++ tag v fl :: b) + len (concat g)) by (rewrite !len_app; lia).
      destruct (IHMB vs g (A ++ kb ++ tag v fl :: b) B ((k, o) :: acc) (n + 1) Hpr HF) as (os & Hr2 & Hos); auto; try lia.
      { rewrite HC. now rewrite <- !app_assoc. }
      { cbn [length] in Hlen. lia. }
      rewrite Hr2. exists ((k, o) :: os). split; [|constructor; auto].
      + cbn [rev]. rewrite <- app_assoc, len_cons. cbn [app]. do 2 f_equal. lia.
      + rewrite Hpr in Hro. split; auto.
    - (* ParseMapViewBlock *)
      intros vs g A B acc n Hpr HF HC HB Hlen HP Hn. rewrite ParseMapViewBlock_S. cbn [off at_].
      destruct HF as [|[k v] ch vs g Hv HF].
      { exists []. cbn. rewrite N.add_0_r, N.ltb_irrefl. cbn. rewrite N.add_0_r, app_nil_r. split; [reflexivity|constructor]. }
      pose proof (entry_nonempty _ _ _ _ _ Hv) as Hne.
      assert (Hpos : 0 < len ch) by (destruct ch; [congruence|rewrite len_cons; lia]).
      rewrite chunk_split in HC. cbn [concat] in Hlen |- *. rewrite len_app. rewrite app_length in Hlen.
      replace (len A <? len A + (len ch + len (concat g))) with true by lia.
      rewrite len_cons in Hn. destruct Hv as (kb & fl & b & Hk & Hw & ->). cbn [fst snd] in *.
      inversion HP as [|? ? HP1 HP2]; subst pr. subst. cbn [snd] in HP1.
      rewrite run_bind. rewrite <- app_assoc in HC.
      destruct (parse_key_ok E get D Hbase Hsize Hlim Hmap Hget A k kb ((tag v fl :: b) ++ concat g ++ B) HC)
        as (kv & _ & Hkey & Hloc); [cbn; congruence|exact Hk|].
      rewrite Hkey. cbn [obind]. rewrite run_bind.
      rewrite <- len_app. rewrite app_length in Hlen.
      destruct (IHV v (tag v fl :: b) (A ++ kb) (concat g ++ B)) as (o & Hr & Hro).
      { exists fl, b. auto. }
      { rewrite <- app_assoc. exact HC. }
      { now apply nonempty_app. }
      { lia. }
      { auto. }
      rewrite Hr. cbn [obind]. rewrite u64_small by (rewrite W64_val in *; lia).
      assert (Hst : len (A ++ kb) + len (tag v fl :: b) = len (A ++ kb ++ tag v fl :: b)).
      { rewrite !len_app. lia. }
      rewrite Hst.
      replace (len A + (len (kb ++ tag v fl :: b) + len (concat g)))
        with (len (A ++ kb ++ tag v fl :: b) + len (concat g)) by (rewrite !len_app; lia).
      destruct (IHWB vs g (A ++ kb ++ tag v fl :: b) B ((kv, o) :: acc) (n + 1) eq_refl HF) as (os & Hr2 & Hos); auto; try lia.
      { rewrite HC. now rewrite <- !app_assoc. }
      { cbn [length] in Hlen. lia. }
      rewrite Hr2. exists ((kv, o) :: os). split; [|constructor; auto].
      + cbn [rev]. rewrite <- app_assoc, len_cons. cbn [app]. do 2 f_equal. lia.
      + split; auto.
  Qed.
End ParaRead.
