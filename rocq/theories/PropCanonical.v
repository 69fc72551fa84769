(** * Properties C58-C60: the bytes are determined by the content, and determine it. *)
From Verif Require Import Base BaseLemmas ModelVarint ModelData ModelSecondary ModelObject
  ModelParse ModelWrapper Spec SpecApi VarintProofs Wire NumProofs DocProofs ObjInd SeriProofs
  ParseLemmas NormalProofs ValueProofs RoundTrip GeneralProofs ApiProofs PropRoundTrip Samples.
From Coq Require Import ZifyBool ZifyNat ZifyN.

(** An object has one content. *)
Lemma data_denotes_fun dt s x y : data_denotes dt s x -> data_denotes dt s y -> x = y.
Proof.
  intros H1 H2. destruct H1; inversion H2; subst; try reflexivity;
    repeat match goal with t : numty |- _ => destruct t end; discriminate.
Qed.

Lemma view_denotes_fun mem dt s x y : view_denotes mem dt s x -> view_denotes mem dt s y -> x = y.
Proof.
  intros H1 H2. destruct H1 as [v s H|v s H|t n H]; inversion H2; subst; try congruence; try reflexivity;
    repeat match goal with t : numty |- _ => destruct t end; discriminate.
Qed.

Lemma denotes_fun mem o : forall v v', denotes mem o v -> denotes mem o v' -> v = v'.
Proof.
  induction o as [|dt s|dt s|p n l IH|p n l IH|p n l IH] using obj_ind'; intros v v' H1 H2;
    inversion H1; inversion H2; subst.
  - f_equal. eapply data_denotes_fun; eauto.
  - f_equal. eapply view_denotes_fun; eauto.
  - f_equal. match goal with HA : Forall2 _ l (rev ?a), HB : Forall2 _ l (rev ?b) |- ?a = ?b =>
      rewrite <- (rev_involutive a), <- (rev_involutive b); f_equal; revert HA HB; generalize (rev a), (rev b) end.
    clear -IH. induction IH as [|x l Hx IH' IHl]; intros a b HA HB; inversion HA; inversion HB; subst; [reflexivity|].
    f_equal; auto.
  - f_equal. match goal with HA : Forall2 _ l ?a, HB : Forall2 _ l ?b |- ?a = ?b => revert HA HB; generalize a, b end.
    clear -IH. induction IH as [|x l Hx IH' IHl]; intros a b HA HB; inversion HA as [|? [k1 a1] ? ? [K1 A1]];
      inversion HB as [|? [k2 b1] ? ? [K2 B1]]; subst; [reflexivity|].
    cbn in *. f_equal; [|auto]. f_equal; [congruence|auto].
  - f_equal. match goal with HA : Forall2 _ l ?a, HB : Forall2 _ l ?b |- ?a = ?b => revert HA HB; generalize a, b end.
    clear -IH. induction IH as [|x l Hx IH' IHl]; intros a b HA HB; inversion HA as [|? [k1 a1] ? ? [K1 A1]];
      inversion HB as [|? [k2 b1] ? ? [K2 B1]]; subst; [reflexivity|].
    cbn in *. f_equal; [|auto]. f_equal; [congruence|auto].
Qed.

(** C58.  Two objects with the same bytes have the same content, order of map
    entries included, whatever the platforms and serialization types were. *)
Theorem C58_bytes_determine_content : forall c c' mem mem' ty ty' p p' o o' v v' content,
  sane c -> sane c' -> denotes mem o v -> denotes mem' o' v' ->
  Serialize c mem ty p o = Ok content -> Serialize c' mem' ty' p' o' = Ok content ->
  len content < 2 ^ 31 -> v = v'.
Proof.
  intros c c' mem mem' ty ty' p p' o o' v v' content Hc Hc' Hd Hd' Hs Hs' HL.
  assert (Hf : fits c (content ++ [])) by (rewrite app_nil_r; unfold fits; destruct (ndebug c); lia).
  set (po := {| po_type := Normal; po_ref := false |}).
  destruct (transport c c mem ty p o v content [] 0 (length content) p po) as (r & w & HP & _ & Hw & Hr & _); auto; try discriminate.
  destruct (transport c' c mem' ty' p' o' v' content [] 0 (length content) p po) as (r' & w' & HP' & _ & Hw' & Hr' & _); auto; try discriminate.
  rewrite HP in HP'. injection HP' as <-. rewrite Hw in Hr by reflexivity. rewrite Hw' in Hr' by reflexivity.
  assert (E : mirror v = mirror v').
  { eapply (denotes_fun no_mem r); [apply Hr|apply Hr']; discriminate. }
  rewrite <- (mirror_involutive v), E. apply mirror_involutive.
Qed.

(** ** The bytes depend on nothing but the content *)
Definition scalar_dt (x : scalar) : N :=
  match x with VStr _ => BRIDGE_STRING | VBytes _ => BRIDGE_BYTES | VCustom _ => BRIDGE_CUSTOM | VNum t _ => dt_of_num t end.
Definition scalar_store (x : scalar) : store :=
  match x with VStr s => SStr s | VBytes s => SVec s | VCustom s => SVec s | VNum t n => SNum t n end.

Lemma scalar_seri c mem o x st : denotes mem o (VScalar x) ->
  valueSeri c mem o st = (st1 <- Data_valueSeri c (scalar_dt x) (scalar_store x) st ;; Ok (st1, false))%out.
Proof.
  intros H. inversion H as [dt s y Hd|dt s y Hd| | |]; subst; cbn [valueSeri].
  - destruct Hd; reflexivity.
  - f_equal. inversion Hd as [v s' Hr|v s' Hr|t n Hn]; subst; cbn [scalar_dt scalar_store].
    + unfold DataView_valueSeri, Data_valueSeri. cbn [get_view get_str obind].
      change (negb (valid_data_type BRIDGE_STRING)) with false. cbv iota.
      change (BRIDGE_STRING =? BRIDGE_STRING) with true. cbv iota. rewrite Hr. cbn [obind].
      destruct (smap st); [reflexivity|]. unfold seriData_view, seriData. cbn [get_view get_str obind].
      change ((BRIDGE_STRING =? BRIDGE_BYTES) || (BRIDGE_STRING =? BRIDGE_STRING))%bool with true.
      change ((BRIDGE_STRING =? BRIDGE_BYTES) || (BRIDGE_STRING =? BRIDGE_CUSTOM))%bool with false.
      change (BRIDGE_STRING =? BRIDGE_STRING) with true. cbv iota. cbn [obind].
      rewrite (read_view_len _ _ _ Hr). destruct (st_seriLength _ _ _); cbn [obind]; rewrite ?Hr; reflexivity.
    + unfold DataView_valueSeri, Data_valueSeri. change (negb (valid_data_type BRIDGE_BYTES)) with false. cbv iota.
      change (BRIDGE_BYTES =? BRIDGE_STRING) with false. cbv iota.
      assert (E : forall st, seriData_view c mem BRIDGE_BYTES (SView v) st = seriData c BRIDGE_BYTES (SVec s') st).
      { intros st'. unfold seriData_view, seriData.
        change ((BRIDGE_BYTES =? BRIDGE_BYTES) || (BRIDGE_BYTES =? BRIDGE_STRING))%bool with true.
        change ((BRIDGE_BYTES =? BRIDGE_BYTES) || (BRIDGE_BYTES =? BRIDGE_CUSTOM))%bool with true. cbv iota. cbn [get_view get_vec obind].
        rewrite (read_view_len _ _ _ Hr). destruct (st_seriLength _ _ _); cbn [obind]; rewrite ?Hr; reflexivity. }
      rewrite E. reflexivity.
    + unfold DataView_valueSeri, Data_valueSeri. destruct t; reflexivity.
Qed.

Lemma seri_items_ext c {I J} (f : I -> sstate -> outcome sstate) (g : J -> sstate -> outcome sstate) l l' :
  Forall2 (fun i j => forall st, f i st = g j st) l l' ->
  forall st cs bl, seri_items c f l st cs bl = seri_items c g l' st cs bl.
Proof.
  induction 1 as [|i j l l' Hij HF IH]; intros st cs bl; [reflexivity|].
  cbn [seri_items]. rewrite Hij. destruct (g j st) as [st1| | | |]; cbn [obind]; try reflexivity.
  destruct (cut_block c st1 cs bl). apply IH.
Qed.

Lemma container_ext c {I J} (f : I -> sstate -> outcome sstate) (g : J -> sstate -> outcome sstate) l l' st :
  Forall2 (fun i j => forall st, f i st = g j st) l l' ->
  container_valueSeri c (len l) f l st = container_valueSeri c (len l') g l' st.
Proof.
  intros HF. unfold container_valueSeri. replace (len l') with (len l).
  2:{ unfold len. clear -HF; induction HF; cbn; lia. }
  destruct (st_seriLength _ _ _) as [st1| | | |]; cbn [obind]; try reflexivity.
  destruct (seri_split_id c st1) as [[id st2]| | | |]; cbn [obind]; try reflexivity.
  now rewrite (seri_items_ext c f g l l' HF).
Qed.

Lemma child_ext c a b F G st : (forall s, F s = G s) -> GetType a = GetType b -> seri_child c a F st = seri_child c b G st.
Proof. intros H HT. unfold seri_child. rewrite HT. destruct (GetType b); cbn [obind]; try reflexivity. now rewrite H. Qed.

Lemma denotes_type mem mem' o o' v : denotes mem o v -> denotes mem' o' v -> GetType o = GetType o'.
Proof. intros H H'. inversion H; subst; inversion H'; subst; reflexivity. Qed.

(** The common shape of the map cases: entries with keys that read as given. *)
Definition entry_seri (c : cfg) (mem : memory) (k : bytes) (o : obj) (st : sstate) : outcome sstate :=
  (st1 <- seri_key c k st ;; seri_child c o (valueSeri c mem o) st1)%out.

Lemma map_seri c mem o l : denotes mem o (VMap l) ->
  exists items : list (bytes * obj),
    Forall2 (fun i e => fst i = fst e /\ denotes mem (snd i) (snd e)) items l /\
    forall st, valueSeri c mem o st =
      container_valueSeri c (len items) (fun i st => entry_seri c mem (fst i) (snd i) st) items st.
Proof.
  intros H. inversion H as [| | |p n items l' Hn HF|p n items l' Hn HF]; subst.
  - exists items. split; [exact HF|]. intros st. cbn [valueSeri]. apply container_ext.
    clear. induction items as [|[k o] r IH]; constructor; auto.
  - assert (HX : exists it2 : list (bytes * obj),
      Forall2 (fun i e => fst i = fst e /\ denotes mem (snd i) (snd e)) it2 l /\
      Forall2 (fun i j => read_view mem (fst i) = Ok (fst j) /\ snd i = snd j) items it2).
    { clear H. induction HF as [|[w o] [k v] r r' [Hk Hv] HF (it2 & H1 & H2)]; [exists []; auto|].
      exists ((k, o) :: it2). cbn in *. auto. }
    destruct HX as (it2 & H1 & H2). exists it2. split; [exact H1|]. intros st. cbn [valueSeri]. apply container_ext.
    clear -H2. induction H2 as [|[w o] [k o'] r r' [Hk Ho] HF IH]; constructor; auto.
    intros st. cbn in *. subst o'. rewrite Hk. reflexivity.
Qed.

Lemma content_seri c mem mem' : forall v o o', denotes mem o v -> denotes mem' o' v ->
  forall st, valueSeri c mem o st = valueSeri c mem' o' st.
Proof.
  induction v as [x|l IH|l IH] using value_ind'; intros o o' H H' st.
  - rewrite (scalar_seri c mem o x st H). now rewrite (scalar_seri c mem' o' x st H').
  - inversion H as [| |p n items w Hn HF| |]; subst. inversion H' as [| |p' n' items' w' Hn' HF'| |]; subst.
    cbn [valueSeri]. apply container_ext. clear H H'.
    assert (IHr : Forall (fun v => forall o o', denotes mem o v -> denotes mem' o' v ->
      forall st, valueSeri c mem o st = valueSeri c mem' o' st) (rev l)) by now apply Forall_rev.
    clear IH. revert items items' HF HF'. induction IHr as [|v r Hv IHr IH]; intros items items' HF HF';
      inversion HF; inversion HF'; subst; constructor; auto.
    intros st'. apply child_ext; [|eapply denotes_type; eauto]. intros s. now apply Hv.
  - destruct (map_seri c mem o l H) as (it & H1 & E1). destruct (map_seri c mem' o' l H') as (it' & H1' & E1').
    rewrite E1, E1'. apply container_ext. clear -IH H1 H1'.
    revert it it' H1 H1'. induction IH as [|[k v] r Hv IHr IH]; intros it it' HF HF';
      inversion HF as [|[k1 o1] ? ? ? [K1 D1]]; inversion HF' as [|[k2 o2] ? ? ? [K2 D2]]; subst; constructor; auto.
    intros st'. cbn in *. subst. unfold entry_seri. destruct (seri_key c k st'); cbn [obind]; try reflexivity.
    apply child_ext; [|eapply denotes_type; eauto]. intros s. now apply Hv.
Qed.

(** C59.  The bytes depend only on the content: not on whether nodes are views or
    own their data, on the buffers, or on the pools; and serializing twice gives
    the same bytes twice. *)
Theorem C59_content_determines_bytes : forall c mem mem' ty p p' o o' v,
  denotes mem o v -> denotes mem' o' v ->
  Serialize c mem ty p o = Serialize c mem' ty p' o'.
Proof.
  intros c mem mem' ty p p' o o' v H H'. unfold Serialize.
  rewrite (content_seri c mem mem' (VMap [(root_key, v)]) (OMap p 1 [(root_key, o)]) (OMap p' 1 [(root_key, o')]));
    [reflexivity| |]; constructor; auto; constructor; auto; constructor.
Qed.

(** C60.  Storing what was loaded: after two sequential load/store cycles the
    document is reproduced byte for byte, and already after one if no map has more
    than one entry ([mirror v = v]); for the same writing platform, every reader and
    any combination of in-situ and copying parses. *)
Theorem C60_stable_bytes : forall c c1 c2 mem ty p q r o v doc buf1 pr1,
  sane c -> sane c1 -> sane c2 -> denotes mem o v -> (pr1 = true -> no_custom v) ->
  Serialize c mem ty p o = Ok doc -> fits c1 doc ->
  exists o1, Parse c1 (length doc) doc buf1 q {| po_type := Normal; po_ref := pr1 |} = Ok o1 /\
    forall mem1, (pr1 = true -> mem1 buf1 = Some doc) ->
    exists doc1, Serialize c mem1 ty q o1 = Ok doc1 /\
      (mirror v = v -> doc1 = doc) /\
      forall buf2 pr2, (pr2 = true -> no_custom v) -> fits c2 doc1 ->
      exists o2, Parse c2 (length doc1) doc1 buf2 r {| po_type := Normal; po_ref := pr2 |} = Ok o2 /\
        forall mem2, (pr2 = true -> mem2 buf2 = Some doc1) -> Serialize c mem2 ty r o2 = Ok doc.
Proof.
  intros c c1 c2 mem ty p q r o v doc buf1 pr1 Hc Hc1 Hc2 Hd Hnc Hs Hf.
  destruct (C21_two_round_trips c c1 c c2 mem ty ty p q r o v doc buf1 (length doc) pr1 Normal) as (o1 & HP & H); auto.
  exists o1. split; [exact HP|]. intros mem1 Hm1. destruct (H mem1 Hm1) as (Hd1 & doc1 & Hs1 & H2).
  exists doc1. split; [exact Hs1|]. split.
  - intros Em. rewrite Em in Hd1. rewrite (C59_content_determines_bytes c mem1 mem ty q p o1 o v Hd1 Hd) in Hs1. congruence.
  - intros buf2 pr2 Hnc2 Hf2. destruct (H2 buf2 (length doc1) pr2) as (o2 & HP2 & Hd2); auto.
    exists o2. split; [exact HP2|]. intros mem2 Hm2.
    rewrite (C59_content_determines_bytes c mem2 mem ty r p o2 o v (Hd2 mem2 Hm2) Hd). exact Hs.
Qed.

(** *** The hypotheses are met *)
Definition mem_id : memory := fun b => if Nat.eqb b 3 then Some (k_dup ++ k_id) else None.

Example C58_met : exists content,
  Serialize x86_debug no_mem NORMAL p0 sample = Ok content /\ len content < 2 ^ 31 /\
  denotes no_mem sample sample_value /\ sane x86_debug.
Proof. eexists. split; [vm_compute; reflexivity|]. split; [vm_compute; reflexivity|]. split; [apply sample_denotes|apply x86_debug_sane]. Qed.

(** A string owned by its node and the same string in the middle of a buffer. *)
Example C59_met :
  denotes no_mem (data_of_string k_id) (VScalar (VStr k_id)) /\
  denotes mem_id (data_view_of_string {| v_buf := 3; v_off := 3; v_len := 2 |}) (VScalar (VStr k_id)) /\
  exists content, Serialize x86_debug no_mem REPLACE p0 (data_of_string k_id) = Ok content /\
    Serialize x86_debug mem_id REPLACE p1 (data_view_of_string {| v_buf := 3; v_off := 3; v_len := 2 |}) = Ok content.
Proof.
  split; [repeat constructor|]. split; [constructor; constructor; reflexivity|].
  eexists. split; vm_compute; reflexivity.
Qed.

(** One cycle changes the bytes of the sample, two restore them. *)
Definition load (doc : bytes) : outcome obj := Parse x86_debug 200 doc 7 p1 {| po_type := Normal; po_ref := false |}.
Definition store_ (o : outcome obj) : outcome bytes := obind o (Serialize x86_debug no_mem NORMAL p0).
Example C60_met :
  let doc := store_ (Ok sample) in
  let doc1 := store_ (obind doc load) in
  doc1 <> doc /\ store_ (obind doc1 load) = doc.
Proof. split; [vm_compute; discriminate|vm_compute; reflexivity]. Qed.
