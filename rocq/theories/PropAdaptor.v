(** * Property C40: adaptors. *)
From Verif Require Import Base BaseLemmas ModelVarint ModelData ModelSecondary ModelObject
  ModelParse ModelWrapper ModelAdaptor Spec SpecApi SeriProofs ObjInd ValueProofs DocProofs RoundTrip ApiProofs Samples PropRoundTrip.
From Coq Require Import ZifyBool ZifyNat ZifyN.

(** ** What a C++ container contains *)
Definition text (mem : memory) (w : view) : bytes := match read_view mem w with Ok s => s | _ => [] end.

Fixpoint cpp_value (mem : memory) (x : cpp) : value :=
  match x with
  | CppScalar s => VScalar s
  | CppVector l => VArr (map (cpp_value mem) l)
  | CppMap l => VMap (map (fun e => (fst e, cpp_value mem (snd e))) l)
  | CppViewMap l => VMap (map (fun e => (text mem (fst e), cpp_value mem (snd e))) l)
  end.

(** Invariants of C++ values: numbers fit their type, the keys of a hash table are
    different, string_views are readable, containers have fewer than 2^64 elements. *)
Inductive cpp_ok (mem : memory) : cpp -> Prop :=
| ok_scalar s : (forall t n, s = VNum t n -> num_ok t n) -> cpp_ok mem (CppScalar s)
| ok_vector l : len l < 2 ^ 64 -> Forall (cpp_ok mem) l -> cpp_ok mem (CppVector l)
| ok_map l : len l < 2 ^ 64 -> NoDup (map fst l) -> Forall (fun e => cpp_ok mem (snd e)) l -> cpp_ok mem (CppMap l)
| ok_view_map l : len l < 2 ^ 64 -> NoDup (map (fun e => text mem (fst e)) l) ->
    Forall (fun e => (exists s, read_view mem (fst e) = Ok s) /\ cpp_ok mem (snd e)) l -> cpp_ok mem (CppViewMap l).

Section CppInd.
  Variable P : cpp -> Prop.
  Hypothesis HS : forall s, P (CppScalar s).
  Hypothesis HV : forall l, Forall P l -> P (CppVector l).
  Hypothesis HM : forall l, Forall (fun e => P (snd e)) l -> P (CppMap l).
  Hypothesis HW : forall l, Forall (fun e => P (snd e)) l -> P (CppViewMap l).
  Fixpoint cpp_ind' (x : cpp) : P x :=
    match x with
    | CppScalar s => HS s
    | CppVector l => HV l ((fix go l : Forall P l :=
        match l with [] => Forall_nil _ | e :: l' => Forall_cons e (cpp_ind' e) (go l') end) l)
    | CppMap l => HM l ((fix go l : Forall (fun e => P (snd e)) l :=
        match l with [] => Forall_nil _ | e :: l' => Forall_cons e (cpp_ind' (snd e)) (go l') end) l)
    | CppViewMap l => HW l ((fix go l : Forall (fun e => P (snd e)) l :=
        match l with [] => Forall_nil _ | e :: l' => Forall_cons e (cpp_ind' (snd e)) (go l') end) l)
    end.
End CppInd.

Lemma cpp_distinct mem x : cpp_ok mem x -> distinct_keys (cpp_value mem x).
Proof.
  induction x as [s|l IH|l IH|l IH] using cpp_ind'; intros H; inversion H; subst; cbn [cpp_value]; constructor.
  - apply Forall_map. rewrite Forall_forall in *. auto.
  - now rewrite map_map.
  - apply Forall_map. rewrite Forall_forall in *. cbn. auto.
  - now rewrite map_map.
  - apply Forall_map. rewrite Forall_forall in *. cbn. intros e He. apply IH; [exact He|]. now apply H3.
Qed.

Section Build.
  Context (mem : memory) (live : pool -> bool).

  Lemma insert_elements_ok rs vs : Forall2 (fun r v => exists o, r = Ok o /\ denotes mem o v) rs vs ->
    forall p items l, live p = true -> denotes mem (OArray p (len items) items) (VArr l) -> len items + len vs < 2 ^ 64 ->
    exists o, insert_elements live (OArray p (len items) items) rs = Ok o /\ denotes mem o (VArr (l ++ vs)).
  Proof.
    induction 1 as [|r v rs vs (o & -> & Ho) HF IH]; intros p items l Hp Hd Hn; cbn [insert_elements].
    - rewrite app_nil_r. eauto.
    - cbn [obind Array_Insert]. rewrite Hp. cbn [obind]. rewrite len_cons in Hn.
      rewrite u64_small by (rewrite W64_val; lia).
      replace (len items + 1) with (len (o :: items)) by (rewrite len_cons; lia).
      destruct (IH p (o :: items) (l ++ [v])) as (o' & Ho' & Hd'); [exact Hp| |rewrite len_cons; lia|].
      + rewrite len_cons. now apply denotes_array_insert.
      + exists o'. split; [exact Ho'|]. now rewrite <- app_assoc in Hd'.
  Qed.

  Lemma insert_entries_ok rs vs : Forall2 (fun r e => fst r = fst e /\ exists o, snd r = Ok o /\ denotes mem o (snd e)) rs vs ->
    forall p items l, live p = true -> denotes mem (OMap p (len items) items) (VMap l) -> len items + len vs < 2 ^ 64 ->
    exists o, insert_entries live (OMap p (len items) items) rs = Ok o /\ denotes mem o (VMap (rev vs ++ l)).
  Proof.
    induction 1 as [|[k r] [k' v] rs vs (Hk & o & Hr & Ho) HF IH]; intros p items l Hp Hd Hn; cbn [insert_entries].
    - cbn. eauto.
    - cbn [fst snd] in *. subst k' r. cbn [obind Map_Insert]. rewrite Hp. cbn [obind]. rewrite len_cons in Hn.
      rewrite u64_small by (rewrite W64_val; lia).
      replace (len items + 1) with (len ((k, o) :: items)) by (rewrite len_cons; lia).
      destruct (IH p ((k, o) :: items) ((k, v) :: l)) as (o' & Ho' & Hd'); [exact Hp| |rewrite len_cons; lia|].
      + inversion Hd; subst. constructor; [reflexivity|]. constructor; auto.
      + exists o'. split; [exact Ho'|]. cbn [rev]. now rewrite <- app_assoc.
  Qed.

  Lemma insert_view_entries_ok rs vs :
    Forall2 (fun r e => read_view mem (fst r) = Ok (fst e) /\ exists o, snd r = Ok o /\ denotes mem o (snd e)) rs vs ->
    forall p items l, live p = true -> denotes mem (OMapView p (len items) items) (VMap l) -> len items + len vs < 2 ^ 64 ->
    exists o, insert_view_entries live (OMapView p (len items) items) rs = Ok o /\ denotes mem o (VMap (rev vs ++ l)).
  Proof.
    induction 1 as [|[k r] [k' v] rs vs (Hk & o & Hr & Ho) HF IH]; intros p items l Hp Hd Hn; cbn [insert_view_entries].
    - cbn. eauto.
    - cbn [fst snd] in *. subst r. cbn [obind MapView_Insert]. rewrite Hp. cbn [obind]. rewrite len_cons in Hn.
      rewrite u64_small by (rewrite W64_val; lia).
      replace (len items + 1) with (len ((k, o) :: items)) by (rewrite len_cons; lia).
      destruct (IH p ((k, o) :: items) ((k', v) :: l)) as (o' & Ho' & Hd'); [exact Hp| |rewrite len_cons; lia|].
      + inversion Hd; subst. constructor; [reflexivity|]. constructor; auto.
      + exists o'. split; [exact Ho'|]. cbn [rev]. now rewrite <- app_assoc.
  Qed.
End Build.

Lemma Forall2_split {A B C} (R : A -> B -> Prop) (S : C -> B -> Prop) l l' :
  Forall2 (fun a c => exists b, R a b /\ S c b) l l' -> exists m, Forall2 R l m /\ Forall2 S l' m.
Proof.
  induction 1 as [|a c l l' (b & H1 & H2) HF (m & IH1 & IH2)]; [exists []; auto|]. exists (b :: m). auto.
Qed.

Lemma adaptor_ok c mem live bp x : sane c -> live bp = true -> cpp_ok mem x ->
  exists o v, adaptor c live bp x = Ok o /\ denotes mem o v /\ same_content (cpp_value mem x) v.
Proof.
  intros [_ Hit] Hbp. induction x as [s|l IH|l IH|l IH] using cpp_ind'; intros Hok; inversion Hok as [? Hn|? Hn HC|? Hn HN HC|? Hn HN HC]; subst; cbn [adaptor cpp_value].
  - exists (data_of s), (VScalar s). split; [reflexivity|]. split; [|constructor].
    destruct s; cbn; constructor; constructor. eauto.
  - assert (HF : Forall2 (fun r x => exists v, (exists o, r = Ok o /\ denotes mem o v) /\ same_content x v)
      (map (adaptor c live bp) l) (map (cpp_value mem) l)).
    { clear -IH HC. induction IH as [|x l Hx IH IHl]; cbn; inversion HC; subst; constructor; auto.
      destruct Hx as (o & v & Hx1 & Hx2 & Hx3); [assumption|]. exists v. eauto. }
    apply Forall2_split in HF as (vs & HF & HS).
    destruct (insert_elements_ok mem live _ _ HF bp [] []) as (o & Ho & Hd); [exact Hbp|constructor; [reflexivity|constructor]| |].
    { apply len_Forall2 in HS. rewrite <- HS. cbn. unfold len in *. rewrite map_length. exact Hn. }
    exists o, (VArr vs). split; [exact Ho|]. split; [exact Hd|]. constructor. exact HS.
  - set (rs := map (fun e => (fst e, adaptor c live bp (snd e))) l).
    assert (HF : Forall2 (fun r x => exists e, (fst r = fst e /\ exists o, snd r = Ok o /\ denotes mem o (snd e)) /\
        (fst x = fst e /\ same_content (snd x) (snd e))) rs (map (fun e => (fst e, cpp_value mem (snd e))) l)).
    { subst rs. clear -IH HC. induction IH as [|x l Hx IH IHl]; cbn; inversion HC; subst; constructor; auto.
      destruct Hx as (o & v & Hx1 & Hx2 & Hx3); [assumption|]. exists (fst x, v). cbn. eauto 8. }
    pose proof (Permutation_sym (Hit _ _ _ rs)) as HP.
    destruct (Permutation_Forall2 HP HF) as (l1 & HP1 & HF1).
    apply Forall2_split in HF1 as (vs & HF1 & HS).
    destruct (insert_entries_ok mem live _ _ HF1 bp [] []) as (o & Ho & Hd); [exact Hbp|constructor; [reflexivity|constructor]| |].
    { apply len_Forall2 in HS. rewrite <- HS. cbn. apply Permutation_length in HP1. unfold len in *. rewrite <- HP1, map_length. exact Hn. }
    rewrite app_nil_r in Hd. exists o, (VMap (rev vs)). split; [exact Ho|]. split; [exact Hd|].
    econstructor; [etransitivity; [exact HP1|apply Permutation_rev]|]. now apply Forall2_rev.
  - set (rs := map (fun e => (fst e, adaptor c live bp (snd e))) l).
    assert (HF : Forall2 (fun r x => exists e, (read_view mem (fst r) = Ok (fst e) /\ exists o, snd r = Ok o /\ denotes mem o (snd e)) /\
        (fst x = fst e /\ same_content (snd x) (snd e))) rs (map (fun e => (text mem (fst e), cpp_value mem (snd e))) l)).
    { subst rs. clear -IH HC. induction IH as [|x l Hx IH IHl]; cbn; inversion HC as [|? ? [[s Hs] Hc]]; subst; constructor; auto.
      destruct Hx as (o & v & Hx1 & Hx2 & Hx3); [assumption|]. exists (s, v). cbn. unfold text. rewrite Hs. eauto 8. }
    pose proof (Permutation_sym (Hit _ _ _ rs)) as HP.
    destruct (Permutation_Forall2 HP HF) as (l1 & HP1 & HF1).
    apply Forall2_split in HF1 as (vs & HF1 & HS).
    destruct (insert_view_entries_ok mem live _ _ HF1 bp [] []) as (o & Ho & Hd); [exact Hbp|constructor; [reflexivity|constructor]| |].
    { apply len_Forall2 in HS. rewrite <- HS. cbn. apply Permutation_length in HP1. unfold len in *. rewrite <- HP1, map_length. exact Hn. }
    rewrite app_nil_r in Hd. exists o, (VMap (rev vs)). split; [exact Ho|]. split; [exact Hd|].
    econstructor; [etransitivity; [exact HP1|apply Permutation_rev]|]. now apply Forall2_rev.
Qed.

(** C40.  Whatever is found in the C++ container along a path of keys and indices
    is found in the adapted object, and nothing else, whatever the hash order. *)
Theorem C40_adaptor_content : forall c mem live bp x,
  sane c -> live bp = true -> cpp_ok mem x ->
  exists o, adaptor c live bp x = Ok o /\ forall path, api_seen mem o path = Ok (seen_at (cpp_value mem x) path).
Proof.
  intros c mem live bp x Hc Hbp Hok. destruct (adaptor_ok c mem live bp x Hc Hbp Hok) as (o & v & Ho & Hd & Hs).
  exists o. split; [exact Ho|]. intros path. rewrite (api_seen_ok mem o v path Hd). f_equal. symmetry.
  apply same_content_seen; [exact Hs|]. now apply cpp_distinct.
Qed.

(** ... and after Serialize and Parse, in every mode. *)
Theorem C40_adaptor_round_trip : forall c cs cp mem live bp x ty po buf p',
  sane c -> sane cs -> sane cp -> live bp = true -> cpp_ok mem x ->
  (po_ref po = true -> no_custom (cpp_value mem x)) ->
  exists o content, adaptor c live bp x = Ok o /\ Serialize cs mem ty bp o = Ok content /\
    forall fuel, fits cp content -> (length content <= fuel)%nat ->
    exists o', Parse cp fuel content buf p' po = Ok o' /\
      forall mem', (po_ref po = true -> mem' buf = Some content) ->
      forall path, api_seen mem' o' path = Ok (seen_at (cpp_value mem x) path).
Proof.
  intros c cs cp mem live bp x ty po buf p' Hc Hcs Hcp Hbp Hok Hnc.
  destruct (adaptor_ok c mem live bp x Hc Hbp Hok) as (o & v & Ho & Hd & Hs).
  destruct (Serialize_document cs mem ty bp o v Hcs Hd) as (content & Hser & _).
  exists o, content. split; [exact Ho|]. split; [exact Hser|]. intros fuel Hf Hfuel.
  pose proof (cpp_distinct mem x Hok) as Hk.
  assert (Hnc' : po_ref po = true -> no_custom v).
  { intros Hr. specialize (Hnc Hr). clear -Hnc Hs. revert v Hs.
    induction (cpp_value mem x) as [s|l IH|l IH] using value_ind'; intros v Hs; inversion Hs; subst; inversion Hnc; subst; constructor; auto.
    - match goal with H : Forall2 _ _ _ |- _ => rename H into HF end. match goal with H : Forall no_custom _ |- _ => rename H into HC end. clear -IH HC HF.
      induction HF; constructor; inversion IH; inversion HC; subst; auto.
    - assert (HC : Forall (fun e => no_custom (snd e)) l1) by (eapply Permutation_Forall; eauto).
      assert (IH' : Forall (fun e => no_custom (snd e) -> forall v, same_content (snd e) v -> no_custom v) l1) by (eapply Permutation_Forall; eauto).
      match goal with H : Forall2 _ l1 _ |- _ => rename H into HF end. clear -IH' HC HF.
      induction HF as [|a b l1 l' [_ Hab] HF IHF]; constructor; inversion IH'; inversion HC; subst; auto. }
  pose proof (transport_seen cs cp mem ty bp o v content [] buf fuel p' po Hcs Hcp Hd
    (same_content_distinct _ _ Hs Hk) Hser) as H. rewrite app_nil_r in H.
  destruct H as (o' & HP & Ho'); auto. exists o'. split; [exact HP|]. intros mem' Hm path. rewrite Ho' by exact Hm.
  f_equal. symmetry. now apply same_content_seen.
Qed.

(** unordered_map<string, vector<unordered_map<string_view, int>>> *)
Definition sample_cpp : cpp :=
  CppMap [ (k_id, CppVector [ CppViewMap [ ({| v_buf := 3; v_off := 0; v_len := 2 |}, CppScalar (VNum I32 5));
                                          ({| v_buf := 3; v_off := 1; v_len := 2 |}, CppScalar (VNum I32 6)) ] ]);
           (k_tags, CppVector []) ].

Definition sample_cpp_mem : memory := mem1 3 (str [97; 98; 99]).

Lemma sample_cpp_ok : cpp_ok sample_cpp_mem sample_cpp.
Proof.
  constructor; [reflexivity| |].
  - constructor; [cbn; intros [H|[]]; discriminate|]. constructor; [intros []|constructor].
  - constructor; [cbn [snd]|constructor; [cbn [snd]; constructor; [reflexivity|constructor]|constructor]].
    constructor; [reflexivity|]. constructor; [|constructor]. constructor; [reflexivity| |].
    + cbn. constructor; [intros [H|[]]; discriminate|]. constructor; [intros []|constructor].
    + constructor; [|constructor; [|constructor]]; cbn; (split; [eexists; reflexivity|constructor; intros t n [= <- <-]; reflexivity]).
Qed.

Example C40_met : exists o, adaptor tiny all_live p0 sample_cpp = Ok o /\
  api_seen sample_cpp_mem o [Key k_id; Idx 0; Key (str [98; 99])] = Ok (SeenScalar (VNum I32 6)) /\
  api_seen sample_cpp_mem o [Key k_tags] = Ok (SeenArray 0).
Proof.
  destruct (C40_adaptor_content tiny sample_cpp_mem all_live p0 sample_cpp tiny_sane eq_refl sample_cpp_ok) as (o & Ho & H).
  exists o. split; [exact Ho|]. split; rewrite H; reflexivity.
Qed.
