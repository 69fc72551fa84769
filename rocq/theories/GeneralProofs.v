(** * What holds of everything the parsers return, whatever the input. *)
From Verif Require Import Base BaseLemmas ModelVarint ModelData ModelSecondary ModelObject
  ModelParse ModelWrapper Spec VarintProofs NumProofs SeriProofs ObjInd ParseLemmas ParaProofs.
From Coq Require Import ZifyBool ZifyNat ZifyN.

(** Partial correctness of a computation. *)
Definition okp {A} (get : N -> outcome view) (p : prog A) (Q : A -> Prop) : Prop :=
  forall a, run get p = Ok a -> Q a.

Section Okp.
  Variable get : N -> outcome view.
  Lemma okp_bind {A B} (p : prog A) (f : A -> prog B) Q1 Q :
    okp get p Q1 -> (forall a, Q1 a -> okp get (f a) Q) -> okp get (pbind p f) Q.
  Proof.
    intros H1 H2 b Hb. rewrite run_bind in Hb. apply obind_ok in Hb as (a & Ha & Hb).
    eapply H2; [apply H1; exact Ha|exact Hb].
  Qed.
  Lemma okp_bind_any {A B} (p : prog A) (f : A -> prog B) Q :
    (forall a, okp get (f a) Q) -> okp get (pbind p f) Q.
  Proof. intros H. apply okp_bind with (Q1 := fun _ => True); [intros ? _; exact I|intros a _; apply H]. Qed.
  Lemma okp_ret {A} (a : A) (Q : A -> Prop) : Q a -> okp get (PRet a) Q.
  Proof. intros H b [= <-]; exact H. Qed.
  Lemma okp_fail {A} f (Q : A -> Prop) : okp get (PFail f) Q.
  Proof. intros b Hb. destruct f; discriminate. Qed.
  Lemma okp_lift {A} (x : outcome A) (Q : A -> Prop) : (forall a, x = Ok a -> Q a) -> okp get (lift x) Q.
  Proof. intros H a Ha. rewrite run_lift in Ha. auto. Qed.
  Lemma okp_getstr {A} id (k : view -> prog A) Q : (forall v, okp get (k v) Q) -> okp get (PGetStr id k) Q.
  Proof. intros H a Ha. cbn [run] in Ha. apply obind_ok in Ha as (v & _ & Ha). exact (H v a Ha). Qed.
  Lemma okp_par {A} ts (k : list (outcome block) -> prog A) (QB : block -> Prop) Q :
    Forall (fun t => okp get t QB) ts ->
    (forall rs, length rs = length ts -> Forall (fun r => forall b, r = Ok b -> QB b) rs -> okp get (k rs) Q) ->
    okp get (PPar ts k) Q.
  Proof.
    intros HT HK a Ha. rewrite run_PPar in Ha.
    destruct (hard_failure _) as [f|]; [destruct f; discriminate|].
    apply (HK _ (map_length _ _)) in Ha; [exact Ha|].
    apply Forall_forall. intros r Hr b Hb. apply in_map_iff in Hr as (t & Ht & Hin).
    rewrite Forall_forall in HT. apply (HT t Hin). congruence.
  Qed.
  Lemma okp_weaken {A} (p : prog A) (Q Q' : A -> Prop) : (forall a, Q a -> Q' a) -> okp get p Q -> okp get p Q'.
  Proof. intros H HP a Ha; auto. Qed.
End Okp.

(** Decoded lengths are 64-bit numbers. *)
Lemma decode_loop_lt c fuel content ptr k bl bits r v n :
  varint_decode_loop c fuel content ptr k bl bits r = Ok (v, n) -> v < W64.
Proof.
  revert ptr k bits r. induction fuel as [|f IH]; intros ptr k bits r; cbn [varint_decode_loop]; [discriminate|].
  intros H. apply obind_ok in H as (b & _ & H).
  destruct (negb (bits <? 64)); [discriminate|].
  destruct (N.land (b2n b) 128 =? 0).
  - injection H as <- <-. apply u64_lt.
  - destruct (_ && _); [discriminate|]. eapply IH; eauto.
Qed.

Lemma parseLength_lt E s n s' : parseLength E s = Ok (n, s') -> n < W64.
Proof.
  unfold parseLength. intros H. apply obind_ok in H as (? & _ & H). apply obind_ok in H as (a & _ & H).
  apply obind_ok in H as ([v k] & Hd & H). apply obind_ok in H as (? & _ & H). injection H as <- <-.
  eapply decode_loop_lt; exact Hd.
Qed.

Lemma num_of_mem_lt c m : num_of_mem c m < 256 ^ len m.
Proof. unfold num_of_mem. destruct (little c); [|rewrite <- len_rev]; apply of_le_bytes_bound. Qed.

Lemma num_of_wire_lt c w m : len m = w -> num_of_wire c w m < 2 ^ (8 * w).
Proof.
  intros <-. rewrite <- pow256. unfold num_of_wire, flipByByte, num_to_mem.
  destruct (little c); [|apply num_of_mem_lt].
  eapply N.lt_le_trans; [apply num_of_mem_lt|]. rewrite len_rev, le_bytes_len. lia.
Qed.

Lemma read_range_length content a n s : read_range content a n = Ok s -> len s = n.
Proof. intros H. symmetry. eapply read_range_len; eauto. Qed.

Lemma parse_num_ok c content t a n s : parse_num c content t a n = Ok s -> exists x, s = SNum t x /\ num_ok t x.
Proof.
  unfold parse_num. destruct (_ && _); [discriminate|]. destruct (N.ltb_spec (sizeof_num t) n) as [|Hle]; [discriminate|].
  intros H. apply obind_ok in H as (m & Hm & H). injection H as <-. eexists. split; [reflexivity|].
  unfold num_ok. change width with sizeof_num. apply num_of_wire_lt. rewrite len_app, len_repeat, (read_range_length _ _ _ _ Hm). lia.
Qed.

Lemma num_of_dt_ok dt t : num_of_dt dt = Some t -> dt = dt_of_num t.
Proof.
  unfold num_of_dt. repeat (match goal with |- context [?a =? ?b] => destruct (N.eqb_spec a b); [intros [= <-]; assumption|] end).
  discriminate.
Qed.

Lemma parseData_ok c content dt a n s : parseData c content dt a n = Ok s -> exists x, data_denotes dt s x.
Proof.
  unfold parseData. intros H.
  destruct ((dt =? BRIDGE_BYTES) || (dt =? BRIDGE_CUSTOM)) eqn:E1.
  - apply obind_ok in H as (b & _ & H). injection H as <-.
    apply orb_true_iff in E1 as [->%N.eqb_eq| ->%N.eqb_eq]; eexists; constructor.
  - destruct (N.eqb_spec dt BRIDGE_STRING) as [->|].
    + apply obind_ok in H as (b & _ & H). injection H as <-. eexists; constructor.
    + destruct (num_of_dt dt) eqn:E; [|discriminate]. apply num_of_dt_ok in E as ->.
      apply parse_num_ok in H as (x & -> & Hx). eexists; constructor; exact Hx.
Qed.

Lemma parseData_view_ok c content buf dt a n s : parseData_view c content buf dt a n = Ok s -> typed_view dt s.
Proof.
  unfold parseData_view. intros H.
  destruct ((dt =? BRIDGE_BYTES) || (dt =? BRIDGE_STRING)) eqn:E1.
  - injection H as <-. apply orb_true_iff in E1 as [->%N.eqb_eq| ->%N.eqb_eq]; constructor.
  - destruct (num_of_dt dt) eqn:E; [|discriminate]. apply num_of_dt_ok in E as ->.
    apply parse_num_ok in H as (x & -> & Hx). constructor; exact Hx.
Qed.

Section Any.
  Variable E : penv.
  Variable get : N -> outcome view.
  Variable P : pool -> Prop.
  Notation okp := (okp get).

  Lemma Data_wf pr s : okp (Data_valueParse E pr s) (fun x => well_formed P pr (fst x)).
  Proof.
    unfold Data_valueParse. apply okp_bind_any. intros [dt s1].
    destruct (negb (valid_data_type dt)); [apply okp_fail|].
    destruct ((dt =? BRIDGE_STRING) && b_map E) eqn:Em.
    - apply andb_true_iff in Em as [->%N.eqb_eq _].
      apply okp_bind_any. intros [id s2]. apply okp_getstr. intros v. destruct pr.
      + apply okp_ret. constructor. constructor.
      + apply okp_bind_any. intros str. apply okp_ret. econstructor. constructor.
    - apply okp_bind_any. intros [size s2]. apply okp_bind_any. intros a.
      apply okp_bind with (Q1 := fun d => if pr then typed_view dt d else exists x, data_denotes dt d x).
      + apply okp_lift. intros d Hd. destruct pr; [eapply parseData_view_ok; eauto|eapply parseData_ok; eauto].
      + intros d Hd. apply okp_bind_any. intros _. apply okp_ret. cbn.
        destruct pr; [now constructor|]. destruct Hd as [x Hx]. econstructor; eauto.
  Qed.

  Lemma valueParse_wf p pr fuel : P p ->
    (forall t s, okp (valueParse E p pr fuel t s) (fun x => well_formed P pr (fst x))) /\
    (forall n s acc, Forall (well_formed P pr) acc ->
       okp (array_loop E p pr fuel n s acc)
         (fun x => Forall (well_formed P pr) (fst x) /\ len (fst x) = len acc + n)) /\
    (forall n s acc, Forall (fun e => well_formed P pr (snd e)) acc ->
       okp (map_loop E p pr fuel n s acc)
         (fun x => Forall (fun e => well_formed P pr (snd e)) (fst x) /\ len (fst x) = len acc + n)) /\
    (forall n s acc, Forall (fun e => well_formed P pr (snd e)) acc ->
       okp (mapview_loop E p pr fuel n s acc)
         (fun x => Forall (fun e => well_formed P pr (snd e)) (fst x) /\ len (fst x) = len acc + n)).
  Proof.
    intros Hp. induction fuel as [|f (IHv & IHa & IHm & IHw)].
    { split; [|split; [|split]]; intros; intros ? Hx; discriminate Hx. }
    split; [|split; [|split]].
    - intros t s. cbn [valueParse]. destruct t.
      + apply Data_wf.
      + apply okp_bind with (Q1 := fun x => fst x < W64).
        { apply okp_lift. intros [n s'] H. eapply parseLength_lt; exact H. }
        intros [count s1] Hc. cbn [fst] in Hc. apply okp_bind_any. intros [_id s2]. destruct pr.
        * eapply okp_bind; [apply IHw; constructor|]. intros [items s3] [Hf Hl]. cbn [fst] in *.
          apply okp_ret. constructor; auto. rewrite Hl, len_nil, N.add_0_l. symmetry. now apply N.mod_small.
        * apply okp_bind_any. intros _.
          eapply okp_bind; [apply IHm; constructor|]. intros [items s3] [Hf Hl]. cbn [fst] in *.
          apply okp_ret. constructor; auto. rewrite Hl, len_nil, N.add_0_l. symmetry. now apply N.mod_small.
      + apply okp_bind with (Q1 := fun x => fst x < W64).
        { apply okp_lift. intros [n s'] H. eapply parseLength_lt; exact H. }
        intros [count s1] Hc. cbn [fst] in Hc. apply okp_bind_any. intros [_id s2].
        eapply okp_bind; [apply IHa; constructor|]. intros [items s3] [Hf Hl]. cbn [fst] in *.
        apply okp_ret. constructor; auto.
        * rewrite len_rev, Hl, len_nil, N.add_0_l. symmetry. now apply N.mod_small.
        * now apply Forall_rev.
    - intros n s acc Hacc. cbn [array_loop]. destruct (N.eqb_spec n 0) as [->|Hn].
      { apply okp_ret. cbn. split; [exact Hacc|lia]. }
      apply okp_bind_any. intros [t s1]. eapply okp_bind; [apply IHv|]. intros [o s2] Ho.
      eapply okp_weaken; [|apply IHa; constructor; [exact Ho|exact Hacc]].
      cbn. intros x [H1 H2]. split; [exact H1|]. rewrite H2, len_cons. lia.
    - intros n s acc Hacc. cbn [map_loop]. destruct (N.eqb_spec n 0) as [->|Hn].
      { apply okp_ret. cbn. split; [exact Hacc|lia]. }
      apply okp_bind_any. intros [kv s1]. apply okp_bind_any. intros [t s2].
      eapply okp_bind; [apply IHv|]. intros [o s3] Ho. apply okp_bind_any. intros key.
      eapply okp_weaken; [|apply IHm; constructor; [exact Ho|exact Hacc]].
      cbn. intros x [H1 H2]. split; [exact H1|]. rewrite H2, len_cons. lia.
    - intros n s acc Hacc. cbn [mapview_loop]. destruct (N.eqb_spec n 0) as [->|Hn].
      { apply okp_ret. cbn. split; [exact Hacc|lia]. }
      apply okp_bind_any. intros [kv s1]. apply okp_bind_any. intros [t s2].
      eapply okp_bind; [apply IHv|]. intros [o s3] Ho.
      eapply okp_weaken; [|apply IHw; constructor; [exact Ho|exact Hacc]].
      cbn. intros x [H1 H2]. split; [exact H1|]. rewrite H2, len_cons. lia.
  Qed.

  (** What a block task returns. *)
  Definition block_wf (pr : bool) (b : block) : Prop :=
    match b with
    | BArr items n => Forall (well_formed P pr) items /\ n = u64 (len items)
    | BMap items n => pr = false /\ Forall (fun e => well_formed P pr (snd e)) items /\ n = u64 (len items)
    | BMapView items n => pr = true /\ Forall (fun e => well_formed P pr (snd e)) items /\ n = u64 (len items)
    end.

  Lemma u64_u64_add_l a b : u64 (u64 a + b) = u64 (a + b).
  Proof. unfold u64. now rewrite N.add_mod_idemp_l by (rewrite W64_val; lia). Qed.
  Lemma u64_u64_add_r a b : u64 (a + u64 b) = u64 (a + b).
  Proof. unfold u64. now rewrite N.add_mod_idemp_r by (rewrite W64_val; lia). Qed.

  Lemma merge_arr_wf pr rs : forall acc n, Forall (fun r => forall b, r = Ok b -> block_wf pr b) rs ->
    Forall (well_formed P pr) acc -> n = u64 (len acc) ->
    forall x, merge_all merge_arr (acc, n) rs = Ok x -> Forall (well_formed P pr) (fst x) /\ snd x = u64 (len (fst x)).
  Proof.
    induction rs as [|r rs IH]; intros acc n HF Ha Hn x; cbn [merge_all].
    - intros [= <-]. auto.
    - inversion HF as [|? ? Hr HF']; subst. intros H. apply obind_ok in H as ([acc' n'] & H1 & H2).
      unfold merge_arr in H1. apply obind_ok in H1 as ([items c| |] & Hb & H1); try discriminate.
      specialize (Hr _ Hb). cbn in Hr. destruct Hr as [Hi Hc].
      destruct items as [|i items].
      + injection H1 as <- <-. eapply IH; [exact HF'|exact Ha|reflexivity|exact H2].
      + injection H1 as <- <-. eapply IH; [exact HF'| | |exact H2].
        * cbn [fst]. now apply (Forall_app _ (i :: items) acc).
        * cbn [fst snd]. rewrite Hc. change (i :: items ++ acc) with ((i :: items) ++ acc).
          rewrite len_app, u64_u64_add_l, u64_u64_add_r. f_equal. lia.
  Qed.

  Lemma merge_map_wf rs : forall acc n, Forall (fun r => forall b, r = Ok b -> block_wf false b) rs ->
    Forall (fun e => well_formed P false (snd e)) acc -> n = u64 (len acc) ->
    forall x, merge_all merge_map (acc, n) rs = Ok x -> Forall (fun e => well_formed P false (snd e)) (fst x) /\ snd x = u64 (len (fst x)).
  Proof.
    induction rs as [|r rs IH]; intros acc n HF Ha Hn x; cbn [merge_all].
    - intros [= <-]. auto.
    - inversion HF as [|? ? Hr HF']; subst. intros H. apply obind_ok in H as ([acc' n'] & H1 & H2).
      unfold merge_map in H1. apply obind_ok in H1 as ([|items c|] & Hb & H1); try discriminate.
      specialize (Hr _ Hb). cbn in Hr. destruct Hr as (_ & Hi & Hc).
      destruct items as [|i items].
      + injection H1 as <- <-. eapply IH; [exact HF'|exact Ha|reflexivity|exact H2].
      + injection H1 as <- <-. eapply IH; [exact HF'| | |exact H2].
        * cbn [fst]. now apply (Forall_app _ (i :: items) acc).
        * cbn [fst snd]. rewrite Hc. change (i :: items ++ acc) with ((i :: items) ++ acc).
          rewrite len_app, u64_u64_add_l, u64_u64_add_r. f_equal. lia.
  Qed.

  Lemma merge_mapview_wf rs : forall acc n, Forall (fun r => forall b, r = Ok b -> block_wf true b) rs ->
    Forall (fun e => well_formed P true (snd e)) acc -> n = u64 (len acc) ->
    forall x, merge_all merge_mapview (acc, n) rs = Ok x -> Forall (fun e => well_formed P true (snd e)) (fst x) /\ snd x = u64 (len (fst x)).
  Proof.
    induction rs as [|r rs IH]; intros acc n HF Ha Hn x; cbn [merge_all].
    - intros [= <-]. auto.
    - inversion HF as [|? ? Hr HF']; subst. intros H. apply obind_ok in H as ([acc' n'] & H1 & H2).
      unfold merge_mapview in H1. apply obind_ok in H1 as ([| |items c] & Hb & H1); try discriminate.
      specialize (Hr _ Hb). cbn in Hr. destruct Hr as (_ & Hi & Hc).
      destruct items as [|i items].
      + injection H1 as <- <-. eapply IH; [exact HF'|exact Ha|reflexivity|exact H2].
      + injection H1 as <- <-. eapply IH; [exact HF'| | |exact H2].
        * cbn [fst]. now apply (Forall_app _ (i :: items) acc).
        * cbn [fst snd]. rewrite Hc. change (i :: items ++ acc) with ((i :: items) ++ acc).
          rewrite len_app, u64_u64_add_l, u64_u64_add_r. f_equal. lia.
  Qed.

  Variable si : split_info.

  Lemma len_0_u64 {X} : 0 = u64 (len (@nil X)). Proof. reflexivity. Qed.

  Lemma blocks_wf fuel : P CoroFrame ->
    (forall pr os, okp (ParseArray E si fuel pr os) (fun x => well_formed P pr (fst x))) /\
    (forall pr os, okp (ParseMap E si fuel pr os) (fun x => well_formed P pr (fst x))) /\
    (forall pr s, okp (block_value E si fuel pr s) (fun x => well_formed P pr (fst x))) /\
    (forall pr e s acc n, Forall (well_formed P pr) acc -> n = u64 (len acc) ->
       okp (ParseArrayBlock E si fuel pr e s acc n) (block_wf pr)) /\
    (forall e s acc n, Forall (fun e => well_formed P false (snd e)) acc -> n = u64 (len acc) ->
       okp (ParseMapBlock E si fuel e s acc n) (block_wf false)) /\
    (forall e s acc n, Forall (fun e => well_formed P true (snd e)) acc -> n = u64 (len acc) ->
       okp (ParseMapViewBlock E si fuel e s acc n) (block_wf true)).
  Proof.
    intros HP. induction fuel as [|f (IHA & IHM & IHV & IHAB & IHMB & IHWB)].
    { split; [|split; [|split; [|split; [|split]]]]; intros; intros ? Hx; discriminate Hx. }
    assert (Hinc : forall X (l : list X) x, u64 (u64 (len l) + 1) = u64 (len (x :: l))).
    { intros. rewrite u64_u64_add_l, len_cons. f_equal. lia. }
    split; [|split; [|split; [|split; [|split]]]].
    - intros pr os. rewrite ParseArray_S. cbv zeta. apply okp_bind_any. intros [c s1].
      apply okp_bind_any. intros [id s2]. apply okp_bind_any. intros bi.
      destruct (ranges (idx s2) bi) as [rs last].
      apply okp_par with (QB := block_wf pr).
      { apply Forall_forall. intros t Ht. apply in_map_iff in Ht as (be & <- & _). apply IHAB; [constructor|reflexivity]. }
      intros res _ Hres.
      apply okp_bind with (Q1 := fun x => Forall (well_formed P pr) (fst x) /\ snd x = u64 (len (fst x))).
      { apply okp_lift. apply merge_arr_wf; [now apply Forall_rev|constructor|reflexivity]. }
      intros [items size] [H1 H2]. cbn [fst snd] in *. apply okp_ret. constructor; auto.
    - intros pr os. rewrite ParseMap_S. cbv zeta. apply okp_bind_any. intros [c s1].
      apply okp_bind_any. intros [id s2]. apply okp_bind_any. intros bi.
      destruct (ranges (idx s2) bi) as [rs last]. destruct pr.
      + apply okp_par with (QB := block_wf true).
        { apply Forall_forall. intros t Ht. apply in_map_iff in Ht as (be & <- & _). apply IHWB; [constructor|reflexivity]. }
        intros res _ Hres.
        eapply okp_bind; [apply okp_lift, merge_mapview_wf; [exact Hres|constructor|reflexivity]|].
        intros [items size] [H1 H2]. cbn [fst snd] in *. apply okp_ret. constructor; auto.
      + apply okp_par with (QB := block_wf false).
        { apply Forall_forall. intros t Ht. apply in_map_iff in Ht as (be & <- & _). apply IHMB; [constructor|reflexivity]. }
        intros res _ Hres.
        eapply okp_bind; [apply okp_lift, merge_map_wf; [exact Hres|constructor|reflexivity]|].
        intros [items size] [H1 H2]. cbn [fst snd] in *. apply okp_ret. constructor; auto.
    - intros pr s. rewrite block_value_S. apply okp_bind_any. intros [[t sp] s1]. destruct sp.
      + destruct t; [apply okp_fail| |].
        * eapply okp_bind; [apply IHM|]. intros [o e] Ho. now apply okp_ret.
        * eapply okp_bind; [apply IHA|]. intros [o e] Ho. now apply okp_ret.
      + now apply valueParse_wf.
    - intros pr e s acc n Ha Hn. rewrite ParseArrayBlock_S. destruct (off s <? e).
      + eapply okp_bind; [apply IHV|]. intros [o s1] Ho. apply IHAB; [constructor; auto|]. subst n. apply Hinc.
      + apply okp_ret. cbn. split; [now apply Forall_rev|now rewrite len_rev].
    - intros e s acc n Ha Hn. rewrite ParseMapBlock_S. destruct (off s <? e).
      + apply okp_bind_any. intros [kv s1]. apply okp_bind_any. intros key.
        eapply okp_bind; [apply IHV|]. intros [o s2] Ho. apply IHMB; [constructor; auto|]. subst n. apply Hinc.
      + apply okp_ret. cbn. split; [reflexivity|]. split; [now apply Forall_rev|now rewrite len_rev].
    - intros e s acc n Ha Hn. rewrite ParseMapViewBlock_S. destruct (off s <? e).
      + apply okp_bind_any. intros [kv s1].
        eapply okp_bind; [apply IHV|]. intros [o s2] Ho. apply IHWB; [constructor; auto|]. subst n. apply Hinc.
      + apply okp_ret. cbn. split; [reflexivity|]. split; [now apply Forall_rev|now rewrite len_rev].
  Qed.
End Any.

Lemma Map_take_wf (Q : obj -> Prop) items k : Forall (fun e => Q (snd e)) items ->
  fst (Map_take items k) = ONull \/ Q (fst (Map_take items k)).
Proof.
  induction 1 as [|[k' o] items Ho HF IH]; cbn; [now left|].
  destruct (bytes_eqb k' k); [now right|]. destruct (Map_take items k). exact IH.
Qed.

Lemma MapView_take_wf (Q : obj -> Prop) mem items k : Forall (fun e => Q (snd e)) items ->
  forall x, MapView_take mem items k = Ok x -> fst x = ONull \/ Q (fst x).
Proof.
  induction 1 as [|[k' o] items Ho HF IH]; cbn [MapView_take].
  - intros x [= <-]. now left.
  - intros x H. apply obind_ok in H as (b & _ & H). destruct (bytes_eqb b k).
    + injection H as <-. now right.
    + apply obind_ok in H as ([r l'] & Hr & H). injection H as <-. exact (IH _ Hr).
Qed.

Lemma take_root_wf P pr content root o :
  well_formed P pr root -> take_root content root = Ok o -> o = ONull \/ well_formed P pr o.
Proof.
  intros Hw H. inversion Hw; subst; cbn in H; try discriminate.
  - injection H as <-. now apply (Map_take_wf (well_formed P false)).
  - apply obind_ok in H as (x & Hx & H). injection H as <-.
    eapply (MapView_take_wf (well_formed P true)); eauto.
Qed.

(** The pools a parsed tree may refer to. *)
Definition result_pool (po : ParseOption) (p q : pool) : Prop :=
  q = p \/ (po_type po = Coroutine /\ q = CoroFrame).

Theorem Parse_wf c fuel content buf p po o :
  Parse c fuel content buf p po = Ok o -> o = ONull \/ well_formed (result_pool po p) (po_ref po) o.
Proof.
  unfold Parse. intros H. apply obind_ok in H as (sc & _ & H). revert H.
  set (get := getter c (sc_map sc)). set (E := doc_env c content buf sc).
  assert (HN : okp get (NormalParse_prog E fuel (po_ref po) p (sc_total sc))
                 (fun o => o = ONull \/ well_formed (result_pool po p) (po_ref po) o)).
  { unfold NormalParse_prog. eapply okp_bind.
    - apply (valueParse_wf E get (result_pool po p)). now left.
    - intros [root s] Hr. cbn [fst] in Hr. destruct (negb _); [apply okp_fail|].
      apply okp_lift. intros a Ha. eapply take_root_wf; eauto. }
  unfold Parse_prog. fold E. destruct (po_type po) eqn:Hpt; [apply HN|].
  destruct (sc_need_to_split sc); [|apply HN].
  unfold CoroParse_prog. revert o.
  change (okp get (pbind (ParseMap E (sc_split sc) fuel (po_ref po) meta_size)
    (fun x => match x with (root, _) => lift (take_root (r_content (b_env E)) root) end))
    (fun o => o = ONull \/ well_formed (result_pool po p) (po_ref po) o)).
  eapply okp_bind.
  - apply (blocks_wf E get (result_pool po p)). right. auto.
  - intros [root e] Hr. cbn [fst] in Hr. apply okp_lift. intros a Ha. eapply take_root_wf; eauto.
Qed.

(** ** Owning trees *)
Lemma well_formed_owning P o : well_formed P false o -> owning o.
Proof.
  unfold owning.
  induction o as [|dt s|dt s|p n l IH|p n l IH|p n l IH] using obj_ind'; intros H; inversion H; subst; constructor.
  - match goal with H : data_denotes _ _ _ |- _ => inversion H; subst; discriminate end.
  - rewrite Forall_forall in *; auto.
  - rewrite Forall_forall in *; auto.
Qed.


(** ** The canonical owning tree of a value *)
Definition store_of (x : scalar) : N * store :=
  match x with
  | VStr s => (BRIDGE_STRING, SStr s)
  | VBytes s => (BRIDGE_BYTES, SVec s)
  | VCustom s => (BRIDGE_CUSTOM, SVec s)
  | VNum t n => (dt_of_num t, SNum t n)
  end.

Fixpoint tree_of (p : pool) (v : value) : obj :=
  match v with
  | VScalar x => OData (fst (store_of x)) (snd (store_of x))
  | VArr l => OArray p (len l) (rev (map (tree_of p) l))
  | VMap l => OMap p (len l) (map (fun e => (fst e, tree_of p (snd e))) l)
  end.

Lemma data_store dt s x : data_denotes dt s x -> (dt, s) = store_of x.
Proof. now intros []. Qed.

Lemma tree_of_unique mem p o : well_formed (eq p) false o -> forall v, denotes mem o v -> o = tree_of p v.
Proof.
  induction o as [|dt s|dt s|q n l IH|q n l IH|q n l IH] using obj_ind'; intros Hw v Hd; inversion Hw; subst; inversion Hd; subst; cbn.
  - match goal with H : data_denotes _ _ ?x |- OData _ _ = OData (fst (store_of ?x)) _ => apply data_store in H; now rewrite <- H end.
  - match goal with H : Forall2 _ l (rev ?w) |- _ => rename H into HF; rename w into vs end.
    match goal with H : Forall _ l |- _ => rename H into HW end.
    match goal with H : _ mod _ = len l |- _ => rewrite H end. assert (len l = len vs) as -> by (rewrite <- (len_rev vs); eapply len_Forall2; eauto).
    f_equal. rewrite <- map_rev. clear -HF HW IH.
    induction HF as [|a b l w Hab HF IHF]; cbn; [reflexivity|]; inversion IH; inversion HW; subst. f_equal; auto.
  - match goal with H : Forall2 _ l ?w |- _ => rename H into HF; rename w into vs end.
    match goal with H : Forall _ l |- _ => rename H into HW end.
    match goal with H : _ mod _ = len l |- _ => rewrite H end. assert (len l = len vs) as -> by (eapply len_Forall2; eauto).
    f_equal. clear -HF HW IH.
    induction HF as [|[k a] [k' b] l w [Hk Hab] HF IHF]; cbn in *; [reflexivity|]; inversion IH; inversion HW; subst. f_equal; [|auto].
    f_equal. auto.
Qed.
