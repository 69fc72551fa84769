(** * Property C77 on arbitrary bytes: what an in-place parse may return. *)
From Verif Require Import Base BaseLemmas ModelVarint ModelData ModelSecondary ModelObject
  ModelParse ModelWrapper Spec SpecApi VarintProofs Wire NumProofs SeriProofs ObjInd ParseLemmas ParaProofs
  RoundTrip GeneralProofs ApiProofs ValueProofs Samples PropHostile PropInsitu PropInsituPara.
From Coq Require Import ZifyBool ZifyNat ZifyN.

Section Views.
  Variable E : penv.
  Variable get : N -> outcome view.
  Variable G : view -> Prop.
  Notation okp := (okp get).
  Notation R := (b_env E).
  Hypothesis Hbase : r_base R = 0.
  Hypothesis Hget : forall id v, get id = Ok v -> G v.
  Hypothesis Hown : forall a n, a < r_size R -> u64 (a + n) <= r_size R ->
    G {| v_buf := b_buf E; v_off := a; v_len := n |}.
  Hypothesis Hsmall : r_size R < 2 ^ 32.

  Lemma okp_get {A} id (k : view -> prog A) Q : (forall v, G v -> okp (k v) Q) -> okp (PGetStr id k) Q.
  Proof using Hget. intros H a Ha. cbn [run] in Ha. apply obind_ok in Ha as (v & Hv & Ha). exact (H v (Hget _ _ Hv) a Ha). Qed.

  Lemma curAddr_is s a : curAddr R s = Ok a -> a = idx s /\ a < r_size R.
  Proof using Hbase. unfold curAddr. destruct (N.leb_spec (r_size R) (idx s)); [discriminate|]. rewrite Hbase, N.add_0_l. intros [= <-]. auto. Qed.

  Lemma check_is s u : check_oor R s = Ok u -> idx s <= r_size R.
  Proof. unfold check_oor. destruct (N.ltb_spec (r_size R) (idx s)); [discriminate|]. auto. Qed.

  Lemma num_no_view c content t a n s v : parse_num c content t a n = Ok s -> s = SView v -> False.
  Proof. intros H ->. apply parse_num_ok in H as (x & ? & _). discriminate. Qed.

  Lemma Data_views s : okp (Data_valueParse E true s) (fun x => all_views G (fst x)).
  Proof using Hbase Hget Hown.
    unfold Data_valueParse. apply okp_bind_any. intros [dt s1].
    destruct (negb (valid_data_type dt)); [apply okp_fail|].
    destruct ((dt =? BRIDGE_STRING) && ModelParse.b_map E) eqn:Em.
    - apply okp_bind_any. intros [id s2]. apply okp_get. intros v Hv. apply okp_ret. constructor. now intros ? [= <-].
    - apply okp_bind_any. intros [size s2].
      eapply okp_bind with (Q1 := fun a => a = idx s2 /\ a < r_size R); [apply okp_lift; intros a Ha; now apply curAddr_is|]. intros a [-> Ha].
      eapply okp_bind with (Q1 := fun d => forall v, d = SView v -> v = {| v_buf := b_buf E; v_off := idx s2; v_len := size |}).
      + apply okp_lift. unfold parseData_view. intros d Hd v ->. destruct (_ || _); [congruence|].
        destruct (num_of_dt dt); [|discriminate]. exfalso. eapply num_no_view; [exact Hd|reflexivity].
      + intros d Hd. eapply okp_bind with (Q1 := fun _ => u64 (idx s2 + size) <= r_size R); [apply okp_lift; intros u Hu; now apply check_is in Hu|].
        intros _ Hc. apply okp_ret. constructor. intros v Hv. rewrite (Hd v Hv). now apply Hown.
  Qed.

  Lemma key_views s : okp (parse_key E s) (fun x => G (fst x)).
  Proof using Hbase Hget Hown.
    unfold parse_key. destruct (ModelParse.b_map E).
    - apply okp_bind_any. intros [id s2]. apply okp_get. intros v Hv. now apply okp_ret.
    - apply okp_bind_any. intros [size s2].
      eapply okp_bind with (Q1 := fun a => a = idx s2 /\ a < r_size R); [apply okp_lift; intros a Ha; now apply curAddr_is|]. intros a [-> Ha].
      eapply okp_bind with (Q1 := fun _ => u64 (idx s2 + size) <= r_size R); [apply okp_lift; intros u Hu; now apply check_is in Hu|].
      intros _ Hc. apply okp_ret. now apply Hown.
  Qed.

  Notation entry_views := (fun e : view * obj => G (fst e) /\ all_views G (snd e)).

  Lemma value_views p fuel :
    (forall t s, okp (valueParse E p true fuel t s) (fun x => all_views G (fst x))) /\
    (forall n s acc, Forall (all_views G) acc -> okp (array_loop E p true fuel n s acc) (fun x => Forall (all_views G) (fst x))) /\
    (forall n s acc, Forall entry_views acc -> okp (mapview_loop E p true fuel n s acc) (fun x => Forall entry_views (fst x))).
  Proof using Hbase Hget Hown.
    induction fuel as [|f (IHv & IHa & IHw)].
    { split; [|split]; intros; intros ? Hx; discriminate Hx. }
    split; [|split].
    - intros t s. cbn [valueParse]. destruct t.
      + apply Data_views.
      + apply okp_bind_any. intros [count s1]. apply okp_bind_any. intros [? s2].
        eapply okp_bind; [apply IHw; constructor|]. intros [items s3] HF. apply okp_ret. now constructor.
      + apply okp_bind_any. intros [count s1]. apply okp_bind_any. intros [? s2].
        eapply okp_bind; [apply IHa; constructor|]. intros [items s3] HF. apply okp_ret. constructor. now apply Forall_rev.
    - intros n s acc Hacc. cbn [array_loop]. destruct (n =? 0); [now apply okp_ret|].
      apply okp_bind_any. intros [t s1]. eapply okp_bind; [apply IHv|]. intros [o s2] Ho. apply IHa. now constructor.
    - intros n s acc Hacc. cbn [mapview_loop]. destruct (n =? 0); [now apply okp_ret|].
      eapply okp_bind; [apply key_views|]. intros [kv s1] Hk. apply okp_bind_any. intros [t s2].
      eapply okp_bind; [apply IHv|]. intros [o s3] Ho. apply IHw. constructor; [|exact Hacc]. split; assumption.
  Qed.

  Definition block_views (b : block) : Prop :=
    match b with
    | BArr items _ => Forall (all_views G) items
    | BMap _ _ => True
    | BMapView items _ => Forall entry_views items
    end.

  Lemma merge_arr_views rs : forall acc, Forall (fun r => forall b, r = Ok b -> block_views b) rs ->
    Forall (all_views G) (fst acc) -> forall x, merge_all merge_arr acc rs = Ok x -> Forall (all_views G) (fst x).
  Proof.
    induction rs as [|r rs IH]; intros acc HF Ha x; cbn [merge_all].
    - now intros [= <-].
    - inversion HF as [|? ? Hr HF']; subst. intros H. apply obind_ok in H as (acc' & H1 & H2).
      unfold merge_arr in H1. apply obind_ok in H1 as ([items c| |] & Hb & H1); try discriminate.
      specialize (Hr _ Hb). cbn in Hr. eapply IH; [exact HF'| |exact H2].
      destruct items as [|i items]; injection H1 as <-; [exact Ha|]. now apply (Forall_app _ (i :: items)).
  Qed.

  Lemma merge_map_views rs : forall acc, Forall (fun r => forall b, r = Ok b -> block_views b) rs ->
    Forall entry_views (fst acc) -> forall x, merge_all merge_mapview acc rs = Ok x -> Forall entry_views (fst x).
  Proof.
    induction rs as [|r rs IH]; intros acc HF Ha x; cbn [merge_all].
    - now intros [= <-].
    - inversion HF as [|? ? Hr HF']; subst. intros H. apply obind_ok in H as (acc' & H1 & H2).
      unfold merge_mapview in H1. apply obind_ok in H1 as ([| |items c] & Hb & H1); try discriminate.
      specialize (Hr _ Hb). cbn in Hr. eapply IH; [exact HF'| |exact H2].
      destruct items as [|i items]; injection H1 as <-; [exact Ha|]. now apply (Forall_app _ (i :: items)).
  Qed.

  Lemma block_key_views s : okp (block_key E s) (fun x => idx (snd x) < r_size R -> G (fst x)).
  Proof using Hbase Hget Hown Hsmall.
    unfold block_key. destruct (ModelParse.b_map E).
    - apply okp_bind_any. intros [id s2]. apply okp_get. intros v Hv. now apply okp_ret.
    - apply okp_bind_any. intros [size s2].
      eapply okp_bind with (Q1 := fun a => a = idx s2 /\ a < r_size R); [apply okp_lift; intros a Ha; now apply curAddr_is|]. intros a [-> Ha].
      apply okp_ret. cbn [fst snd add_off skip idx]. intros H. apply Hown; lia.
  Qed.

  Variable si : split_info.

  Lemma para_views fuel :
    (forall os, okp (ParseArray E si fuel true os) (fun x => all_views G (fst x))) /\
    (forall os, okp (ParseMap E si fuel true os) (fun x => all_views G (fst x))) /\
    (forall s, okp (block_value E si fuel true s) (fun x => idx s < r_size R /\ all_views G (fst x))) /\
    (forall e s acc n, Forall (all_views G) acc -> okp (ParseArrayBlock E si fuel true e s acc n) block_views) /\
    (forall e s acc n, Forall entry_views acc -> okp (ParseMapViewBlock E si fuel e s acc n) block_views).
  Proof using Hbase Hget Hown Hsmall.
    induction fuel as [|f (IHA & IHM & IHV & IHAB & IHWB)].
    { split; [|split; [|split; [|split]]]; intros; intros ? Hx; discriminate Hx. }
    split; [|split; [|split; [|split]]].
    - intros os. rewrite ParseArray_S. cbv zeta. apply okp_bind_any. intros [c s1].
      apply okp_bind_any. intros [id s2]. apply okp_bind_any. intros bi. destruct (ranges (idx s2) bi) as [rs last].
      apply okp_par with (QB := block_views).
      { apply Forall_forall. intros t Ht. apply in_map_iff in Ht as (be & <- & _). apply IHAB. constructor. }
      intros res _ Hres. eapply okp_bind with (Q1 := fun x => Forall (all_views G) (fst x)).
      { apply okp_lift. apply merge_arr_views; [now apply Forall_rev|constructor]. }
      intros [items size] H1. apply okp_ret. now constructor.
    - intros os. rewrite ParseMap_S. cbv zeta. apply okp_bind_any. intros [c s1].
      apply okp_bind_any. intros [id s2]. apply okp_bind_any. intros bi. destruct (ranges (idx s2) bi) as [rs last].
      apply okp_par with (QB := block_views).
      { apply Forall_forall. intros t Ht. apply in_map_iff in Ht as (be & <- & _). apply IHWB. constructor. }
      intros res _ Hres. eapply okp_bind; [apply okp_lift, merge_map_views; [exact Hres|constructor]|].
      intros [items size] H1. apply okp_ret. now constructor.
    - intros s. rewrite block_value_S. eapply okp_bind with (Q1 := fun _ => idx s < r_size R).
      { apply okp_lift. intros x H. unfold parseObjectType_split in H. apply obind_ok in H as (? & _ & H). apply obind_ok in H as (a & Ha & _).
        apply curAddr_is in Ha. lia. }
      intros [[t sp] s1] Hs. destruct sp.
      + destruct t; [apply okp_fail| |].
        * eapply okp_bind; [apply IHM|]. intros [o e] Ho. now apply okp_ret.
        * eapply okp_bind; [apply IHA|]. intros [o e] Ho. now apply okp_ret.
      + eapply okp_weaken; [|apply value_views]. auto.
    - intros e s acc n Ha. rewrite ParseArrayBlock_S. destruct (off s <? e).
      + eapply okp_bind; [apply IHV|]. intros [o s1] [_ Ho]. apply IHAB. now constructor.
      + apply okp_ret. cbn. now apply Forall_rev.
    - intros e s acc n Ha. rewrite ParseMapViewBlock_S. destruct (off s <? e).
      + eapply okp_bind; [apply block_key_views|]. intros [kv s1] Hk. eapply okp_bind; [apply IHV|]. intros [o s2] [Hs Ho].
        apply IHWB. constructor; [|exact Ha]. split; [now apply Hk|exact Ho].
      + apply okp_ret. cbn. now apply Forall_rev.
  Qed.
End Views.

Lemma take_root_views G content root o : all_views G root -> (forall p n l, root <> OMap p n l) -> take_root content root = Ok o -> all_views G o.
Proof.
  intros Hw Hn H. destruct root as [| | | |p n l|p n items]; cbn in H; try discriminate; [now exfalso; eapply Hn|].
  apply obind_ok in H as (x & Hx & H). injection H as <-. inversion Hw as [| | | | |? ? ? HF]; subst.
  assert (fst x = ONull \/ all_views G (fst x)) as [-> |Hr]; [|constructor|exact Hr].
  eapply (MapView_take_wf (all_views G)); [|exact Hx]. eapply Forall_impl; [|exact HF]. now intros a [_ ?].
Qed.

(** C77, without any hypothesis on the input: a string, byte string or key of an
    in-place result refers to the document's buffer, begins inside it, and either
    can be read while the buffer holds the document or announces a length of at
    least 2^64 minus the size of the document. *)
Definition readable (content : bytes) (buf : nat) (v : view) : Prop :=
  forall mem, mem buf = Some content -> exists s, read_view mem v = Ok s.

Theorem C77_only_absurd_lengths_partial : forall c fuel content buf p sch o', sane c -> fits c content ->
  Parse c fuel content buf p {| po_type := sch; po_ref := true |} = Ok o' ->
  all_views (fun v => v_buf v = buf /\ (readable content buf v \/ v_off v < len content /\ 2 ^ 64 - len content <= v_len v)) o'.
Proof.
  intros c fuel content buf p sch o' Hsane HL H. unfold Parse in H. apply obind_ok in H as (sc & Hsc & H).
  set (E := doc_env c content buf sc) in *. set (G := fun v : view => _).
  assert (Hf : len content < 2 ^ 32) by (unfold fits in HL; destruct (ndebug c); lia).
  assert (Hget : forall id v, getter c (sc_map sc) id = Ok v -> G v).
  { intros id v Hg. destruct (getter_view _ _ _ _ _ _ _ Hsane Hsc Hg) as (Hb & b & Hr). split; [exact Hb|]. left. intros mem Hm.
    exists b. unfold read_view. rewrite Hb, Hm. exact Hr. }
  assert (Hown : forall a n, a < r_size (b_env E) -> u64 (a + n) <= r_size (b_env E) -> G {| v_buf := b_buf E; v_off := a; v_len := n |}).
  { cbn [r_size b_env E doc_env root_env b_buf]. intros a n Ha Hn. split; [reflexivity|]. cbn [v_off v_len v_buf].
    destruct (N.lt_ge_cases (a + n) W64) as [Hlt|Hge].
    - left. unfold u64 in Hn. rewrite N.mod_small in Hn by exact Hlt. intros mem Hm. unfold read_view. cbn. rewrite Hm. unfold read_range.
      destruct (n =? 0); [eauto|]. destruct (N.leb_spec (a + n) (len content + 1)); [eauto|lia].
    - right. split; [exact Ha|]. rewrite W64_val in Hge. lia. }
  assert (HN : okp (getter c (sc_map sc)) (NormalParse_prog E fuel true p (sc_total sc)) (all_views G)).
  { unfold NormalParse_prog. destruct fuel as [|f]; [intros ? Hx; discriminate Hx|]. eapply okp_bind with (Q1 := fun x => all_views G (fst x) /\ forall q n l, fst x <> OMap q n l).
    - intros x Hx. split; [exact (proj1 (value_views E _ G eq_refl Hget Hown p (S f)) _ _ _ Hx)|].
      pose proof (proj1 (valueParse_wf E (getter c (sc_map sc)) (fun _ => True) p true (S f) I) _ _ _ Hx) as Hw. cbn beta in Hw. intros q n l Heq. rewrite Heq in Hw. inversion Hw.
    - intros [root s] [Hr Hn]. cbn [fst] in *. destruct (negb _); [apply okp_fail|]. apply okp_lift. intros a Ha. eapply take_root_views; eauto. }
  unfold Parse_prog in H. cbn [po_type po_ref] in H. fold E in H. destruct sch; [exact (HN _ H)|]. destruct (sc_need_to_split sc); [|exact (HN _ H)].
  unfold CoroParse_prog in H. rewrite run_bind in H. apply obind_ok in H as ([root e] & Hx & H). rewrite run_lift in H.
  assert (Hsm : r_size (b_env E) < 2 ^ 32) by exact Hf.
  destruct (para_views E (getter c (sc_map sc)) G eq_refl Hget Hown Hsm (sc_split sc) fuel) as (_ & PM & _).
  eapply take_root_views; [exact (PM _ _ Hx)| |exact H].
  destruct (blocks_wf E (getter c (sc_map sc)) (fun _ => True) (sc_split sc) fuel I) as (_ & BM & _).
  pose proof (BM _ _ _ Hx) as Hw. cbn [fst] in *. intros q n l ->. inversion Hw.
Qed.

(** The lengths an object reports are enough to tell: if none exceeds the size of
    the document, every access path can be read. *)
Lemma readable_walk mem (G : view -> Prop) P path : (forall v, G v -> exists s, read_view mem v = Ok s) -> forall o,
  (o = ONull \/ well_formed P true o) -> all_views G o ->
  exists w, api_walk mem o path = Ok w /\ all_views G w.
Proof.
  intros HG. induction path as [|[k|n] path IH]; intros o Hw Hv; cbn [api_walk]; [eauto| |].
  - assert (Hk : exists o', w_key mem o k = Ok o' /\ all_views G o').
    { destruct o as [| | | |q size items|q size items]; cbn [w_key]; try (eexists; split; [reflexivity|constructor]).
      - destruct Hw as [|Hw]; [discriminate|inversion Hw].
      - inversion Hv as [| | | | |? ? ? HF]; subst. clear Hv Hw. induction HF as [|[k' x] items [H1 H2] HF IHF]; cbn; [eexists; split; [reflexivity|constructor]|].
        destruct (HG _ H1) as [s Hs]. cbn [fst] in Hs. rewrite Hs. cbn [obind]. destruct (bytes_eqb s k); eauto. }
    destruct Hk as (o' & Ho' & Hv'). rewrite Ho'. cbn [obind]. apply IH; [|exact Hv'].
    eapply (walk_well_formed _ _ mem [Key k] o); [exact Hw|]. cbn. now rewrite Ho'.
  - assert (Hk : exists o', w_idx o n = Ok o' /\ all_views G o').
    { destruct o as [| | |q size items| |]; cbn [w_idx]; try (eexists; split; [reflexivity|constructor]).
      eexists. split; [reflexivity|]. inversion Hv as [| | |? ? ? HF| |]; subst. unfold Array_at. destruct (_ <=? _); [constructor|]. rewrite walk_nth.
      destruct (nth_error items _) as [x|] eqn:E; [|constructor]. rewrite Forall_forall in HF. apply HF. now apply nth_error_In in E. }
    destruct Hk as (o' & Ho' & Hv'). rewrite Ho'. cbn [obind]. apply IH; [|exact Hv'].
    eapply (walk_well_formed _ _ mem [Idx n] o); [exact Hw|]. cbn. now rewrite Ho'.
Qed.

Lemma readable_seen mem (G : view -> Prop) P path o : (forall v, G v -> exists s, read_view mem v = Ok s) ->
  (o = ONull \/ well_formed P true o) -> all_views G o -> exists s, api_seen mem o path = Ok s.
Proof.
  intros HG Hw Hv. destruct (readable_walk mem G P path HG o Hw Hv) as (w & Hwk & Hv').
  pose proof (walk_well_formed _ _ _ _ _ _ Hw Hwk) as Hwf. unfold api_seen. rewrite Hwk. cbn [obind].
  destruct Hwf as [->|Hwf]; [cbn; eauto|]. inversion Hv' as [|? ? ?|? s' HG'| | |]; subst; inversion Hwf as [|? ? Ht| | |]; subst;
    cbn [w_Empty w_GetType GetType w_Size obind]; eauto.
  inversion Ht as [v|v|t n Hn]; subst.
  - destruct (HG v (HG' v eq_refl)) as [s Hs]. cbn. rewrite Hs. cbn. eauto.
  - destruct (HG v (HG' v eq_refl)) as [s Hs]. cbn. rewrite Hs. cbn. eauto.
  - destruct t; cbn; eauto.
Qed.

Theorem C77_plausible_lengths_partial : forall c fuel content buf p sch o', sane c -> fits c content ->
  Parse c fuel content buf p {| po_type := sch; po_ref := true |} = Ok o' ->
  all_views (fun v => v_len v <= len content) o' ->
  forall mem path, mem buf = Some content -> exists s, api_seen mem o' path = Ok s.
Proof.
  intros c fuel content buf p sch o' Hsane HL HP Hlen mem path Hm.
  pose proof (C77_only_absurd_lengths_partial _ _ _ _ _ _ _ Hsane HL HP) as HV. apply C16_result_well_formed in HP. cbn [po_ref] in HP.
  assert (HR : all_views (readable content buf) o').
  { assert (Hf : len content < 2 ^ 32) by (unfold fits in HL; destruct (ndebug c); lia). clear - HV Hlen Hf.
    induction o' as [|dt s|dt s|q n l IH|q n l IH|q n l IH] using obj_ind'; inversion HV as [|? ? A|? ? A|? ? ? A|? ? ? A|? ? ? A]; subst; inversion Hlen as [|? ? B|? ? B|? ? ? B|? ? ? B|? ? ? B]; subst; constructor.
    - intros v Hv. destruct (A v Hv) as [_ [Hr|[_ Hr]]]; [exact Hr|]. pose proof (B v Hv). lia.
    - intros v Hv. destruct (A v Hv) as [_ [Hr|[_ Hr]]]; [exact Hr|]. pose proof (B v Hv). lia.
    - rewrite Forall_forall in *. auto.
    - rewrite Forall_forall in *. auto.
    - rewrite Forall_forall in *. intros e He. destruct (A e He) as [[_ [Hr|[_ Hr]]] Ho]; destruct (B e He) as [Hl Ho2]; (split; [|now apply IH]); [exact Hr|lia]. }
  eapply readable_seen; [|exact HP|exact HR]. intros v Hv. exact (Hv mem Hm).
Qed.

(** ** The hypotheses are met: [evil_view] shows that the second alternative
    occurs, [odd_doc] (with a ten-byte length field) that plausible lengths do. *)
Example C77_any_met :
  (exists o, Parse x86_debug 100 evil_view 7 p1 insitu = Ok o /\
     ~ all_views (readable evil_view 7) o) /\
  (exists o, Parse x86_release 200 split_plain 7 p1 {| po_type := Coroutine; po_ref := true |} = Ok o /\ o <> ONull /\
     all_views (fun v => v_len v <= len split_plain) o /\
     api_seen (fun _ => Some split_plain) o [Idx 1] = Ok (SeenScalar (VBytes (str [97])))).
Proof.
  split.
  - eexists. split; [vm_compute; reflexivity|]. intros H. inversion H as [| |? ? Hv| | |]; subst.
    destruct (Hv _ eq_refl (fun _ => Some evil_view) eq_refl) as [s Hs]. vm_compute in Hs. discriminate.
  - eexists. split; [vm_compute; reflexivity|]. split; [discriminate|]. split.
    + repeat (constructor; try (intros v [= <-]; vm_compute; discriminate)).
    + vm_compute. reflexivity.
Qed.
