(** * Parsing a whole document. *)
From Verif Require Import Base BaseLemmas ModelVarint ModelData ModelSecondary ModelObject
  ModelParse ModelWrapper Spec VarintProofs Wire NumProofs SeriProofs SeriProofs2 DocProofs ObjInd
  ParseLemmas NormalProofs SecondaryProofs ValueProofs Order ParaProofs.
From Coq Require Import ZifyBool ZifyNat ZifyN.

(** Two memories that agree on the views of a tree give it the same meaning. *)
Lemma views_denotes (P : view -> Prop) mem mem' : (forall v, P v -> read_view mem v = read_view mem' v) ->
  forall o, all_views P o -> forall v, denotes mem o v -> denotes mem' o v.
Proof.
  intros Hread.
  induction o as [|dt s|dt s|p n l IH|p n l IH|p n l IH] using obj_ind'; intros Ho v Hd;
    inversion Hd; subst.
  - now constructor.
  - constructor. inversion Ho as [| |? ? Hv| | |]; subst.
    match goal with H : view_denotes _ _ _ _ |- _ => inversion H; subst end;
      constructor; try (rewrite <- Hread; [assumption|now apply Hv]). assumption.
  - inversion Ho as [| | |? ? ? HA| |]; subst. constructor; [reflexivity|].
    match goal with H : Forall2 _ l ?r |- Forall2 _ _ ?r => rename H into HF; revert HF; generalize r end.
    clear Hd Ho. intros w HF.
    induction HF as [|a b l w Hab HF IHF]; constructor; inversion IH as [|? ? I1 I2]; inversion HA as [|? ? A1 A2]; subst.
    + exact (I1 A1 _ Hab).
    + exact (IHF I2 A2).
  - inversion Ho as [| | | |? ? ? HA|]; subst. constructor; [reflexivity|].
    match goal with H : Forall2 _ l _ |- _ => rename H into HF end. clear Hd Ho.
    induction HF as [|a b l w [Hk Hab] HF IHF]; constructor; inversion IH as [|? ? I1 I2]; inversion HA as [|? ? A1 A2]; subst.
    + split; [exact Hk|exact (I1 A1 _ Hab)].
    + exact (IHF I2 A2).
  - inversion Ho as [| | | | |? ? ? HA]; subst. constructor; [reflexivity|].
    match goal with H : Forall2 _ l _ |- _ => rename H into HF end. clear Hd Ho.
    induction HF as [|a b l w [Hk Hab] HF IHF]; constructor; inversion IH as [|? ? I1 I2]; inversion HA as [|? ? A1 A2]; subst.
    + destruct A1 as [A1 A1']. split; [now rewrite <- Hread by assumption|exact (I1 A1' _ Hab)].
    + exact (IHF I2 A2).
Qed.

Lemma all_views_impl (P Q : view -> Prop) : (forall v, P v -> Q v) -> forall o, all_views P o -> all_views Q o.
Proof.
  intros HPQ. induction o as [|dt s|dt s|p n l IH|p n l IH|p n l IH] using obj_ind'; intros Hv; inversion Hv; subst;
    constructor; auto; rewrite Forall_forall in *; auto.
  intros e He. match goal with H : forall x, In x l -> P _ /\ _ |- _ => destruct (H e He) end. auto.
Qed.

(** The objects the parsers return, with their meaning in every memory in which
    the document is still there (or in every memory at all). *)
Definition result_ok (buf : nat) (content : bytes) (pr : bool) (o : obj) (v : value) : Prop :=
  (forall mem, (pr = true -> mem buf = Some content) -> denotes mem o v) /\
  all_views (fun w => pr = true /\ inside buf (len content) w) o.

Lemma reads_result E mem pr o v :
  mem (b_buf E) = Some (r_content (b_env E)) ->
  reads E mem pr o v -> result_ok (b_buf E) (r_content (b_env E)) pr o v.
Proof.
  intros Hm [Hd Hv]. split.
  - intros mem' Hm'. eapply views_denotes; [|exact Hv|exact Hd].
    intros w Hw. destruct pr; [|destruct Hw]. destruct Hw as [Hb _]. unfold read_view.
    now rewrite Hb, Hm, Hm' by reflexivity.
  - clear Hd. apply (all_views_impl (vgood E pr)); [|exact Hv].
    intros w Hw. destruct pr; [now split|contradiction].
Qed.

Lemma take_root_ok E mem pr root v' :
  mem = (fun _ => Some (r_content (b_env E))) ->
  reads E mem pr root (VMap [(root_key, v')]) ->
  exists o, take_root (r_content (b_env E)) root = Ok o /\ reads E mem pr o v'.
Proof.
  intros Hmem [Hd Hv]. inversion Hd as [| | |p size items l Hs HF|p size items l Hs HF]; subst root l.
  - inversion HF as [|[k o] ? r ? [Hk Ho] HF']; subst. inversion HF'; subst. cbn in Hk, Ho. subst k.
    inversion Hv as [| | | |? ? ? HA|]; subst. inversion HA; subst.
    exists o. split; [cbn; now rewrite ?bytes_eqb_refl|split; auto].
  - inversion HF as [|[k o] ? r ? [Hk Ho] HF']; subst items. inversion HF'; subst r. cbn [fst snd] in Hk, Ho.
    inversion Hv as [| | | | |? ? ? HA]; subst. inversion HA as [|? ? [_ HA1] _]; subst.
    exists o. split; [|split; auto].
    unfold take_root, MapView_take. rewrite Hk. cbn [obind]. rewrite bytes_eqb_refl. reflexivity.
Qed.

Theorem Parse_document_order c sz ty v content X buf fuel p po :
  sane c -> document sz ty v content -> lim c (len (content ++ X)) ->
  (length content <= fuel)%nat -> (po_ref po = true -> no_custom v) ->
  exists o v', Parse c fuel (content ++ X) buf p po = Ok o /\
    regrouped v v' /\ (po_type po = Normal -> v' = mirror v) /\
    result_ok buf (content ++ X) (po_ref po) o v'.
Proof.
  intros Hsane Hdoc HL Hf Hnc.
  destruct (init_ok c sz ty v content X buf fuel Hsane Hdoc HL Hf)
    as (sc & body & fl & ks & info & Y & Hinit & (hd & Hhd & Hcont) & HY & Hw & Htot & Hfl & Hinfo & Hmp & Hans & Hlb).
  unfold Parse. rewrite Hinit. cbn [obind].
  set (doc := content ++ X) in *.
  set (E := doc_env c doc buf sc).
  set (D := dict_of ty ks) in *.
  set (mem := fun _ : nat => Some doc).
  assert (HbE : b_buf E = buf) by reflexivity.
  assert (HcE : r_content (b_env E) = doc) by reflexivity.
  assert (Hmap : b_map E = match D with Some _ => true | None => false end).
  { unfold E, D; cbn. destruct ty; cbn.
    - assert (sc_map sc = None) as -> by (now apply Hmp). reflexivity.
    - destruct (sc_map sc) eqn:Em; [reflexivity|]. exfalso. destruct Hmp as [Hmp _]. discriminate (Hmp eq_refl). }
  assert (Hlhd : len hd = 10) by (unfold len; now rewrite Hhd).
  assert (Hfb : (length body <= fuel)%nat) by lia.
  assert (Hncr : po_ref po = true -> no_custom (VMap [(root_key, v)])).
  { intros Hp. constructor. constructor; [cbn; auto|constructor]. }
  assert (Hnormal : exists o, run (getter c (sc_map sc)) (NormalParse_prog E fuel (po_ref po) p (sc_total sc)) = Ok o /\
             result_ok buf doc (po_ref po) o (mirror v)).
  { unfold NormalParse_prog. rewrite run_bind.
    destruct (valueParse_ok E (getter c (sc_map sc)) D (table_of info) sz mem) with (p := p) (pr := po_ref po) (fuel := fuel)
      as [Hv _]; auto.
    destruct (Hv _ _ _ hd Y Hw) as (root & Hrun & Hr); auto.
    cbn [type_of] in Hrun. rewrite Hlhd in Hrun. unfold meta_size.
    change {| idx := 10; off := 10 |} with (at_ 10). rewrite Hrun. cbn [obind off at_].
    rewrite Htot, N.eqb_refl. cbn [negb]. rewrite run_lift.
    cbn in Hr. destruct (take_root_ok E mem (po_ref po) root (mirror v) eq_refl Hr) as (o & Ho & Hro).
    exists o. split; [exact Ho|]. now apply (reads_result E mem). }
  unfold Parse_prog. fold E.
  destruct (po_type po) eqn:Hpt.
  - destruct Hnormal as (o & Ho & Hro). exists o, (mirror v). split; [exact Ho|]. split; [apply mirror_regrouped|]. auto.
  - rewrite Hfl. destruct fl.
    + destruct (Parse_blocks_ok E (sc_split sc) (getter c (sc_map sc)) D (table_of info) sz mem)
        with (fuel := fuel) (pr := po_ref po) as (_ & HM & _); auto.
      { intros id l Hid. unfold GetBlockInfoFromId. rewrite Hinfo. unfold table_of in Hid. now rewrite Hid. }
      destruct (HM _ _ hd Y Hw) as (root & Hrun & (v2 & Hs & Hr)); auto.
      rewrite Hlhd in Hrun. unfold CoroParse_prog, meta_size. rewrite run_bind, Hrun. cbn [obind].
      rewrite run_lift.
      inversion Hs as [| |runs l' HF El Ev]. subst v2. pose proof (concat_rev_perm runs) as HP. rewrite El in HP.
      apply Permutation_length_1_inv in HP. rewrite HP in HF.
      inversion HF as [|x0 [k' v'] l0 r' [Hk Hsv] HF' E1 E2]. subst x0 l0 l'. inversion HF'. subst r'.
      cbn [fst snd] in Hk, Hsv. subst k'.
      destruct (take_root_ok E mem (po_ref po) root v' eq_refl Hr) as (o & Ho & Hro).
      exists o, v'. split; [exact Ho|]. split; [exact Hsv|]. split; [discriminate|]. now apply (reads_result E mem).
    + destruct Hnormal as (o & Ho & Hro). exists o, (mirror v). split; [exact Ho|]. split; [apply mirror_regrouped|]. split; [discriminate|auto].
Qed.

Theorem Parse_document c sz ty v content X buf fuel p po :
  sane c -> document sz ty v content -> lim c (len (content ++ X)) ->
  (length content <= fuel)%nat -> (po_ref po = true -> no_custom v) ->
  exists o v', Parse c fuel (content ++ X) buf p po = Ok o /\
    same_content v v' /\ (po_type po = Normal -> v' = mirror v) /\
    result_ok buf (content ++ X) (po_ref po) o v'.
Proof.
  intros H1 H2 H3 H4 H5. destruct (Parse_document_order c sz ty v content X buf fuel p po H1 H2 H3 H4 H5) as (o & v' & HP & Hr & Hn & Ho).
  exists o, v'. split; [exact HP|]. split; [now apply regrouped_same|]. auto.
Qed.
