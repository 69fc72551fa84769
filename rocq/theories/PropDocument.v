(** * Properties C11, C30, C43, C46: what a serialized document looks like. *)
From Verif Require Import Base BaseLemmas ModelVarint ModelData ModelSecondary ModelObject
  ModelParse ModelWrapper Spec VarintProofs Wire NumProofs ObjInd SeriProofs SeriProofs2 DocProofs
  ParseLemmas NormalProofs SecondaryProofs ValueProofs Samples.
From Coq Require Import ZifyBool ZifyNat ZifyN.

(** ** C11: framing. *)

(** A number in network order. *)
Definition of_network (b : bytes) : N := fold_left (fun a x => 256 * a + b2n x) b 0.

Lemma of_network_rev l : of_network (rev l) = of_le_bytes l.
Proof.
  unfold of_network. induction l as [|b l IH]; [reflexivity|]. cbn [rev of_le_bytes].
  rewrite fold_left_app. cbn [fold_left]. rewrite IH. lia.
Qed.

Lemma of_network_be w n : n < 2 ^ (8 * w) -> of_network (be_bytes w n) = n.
Proof.
  intros H. unfold be_bytes. rewrite of_network_rev, of_le_le, N2Nat.id. apply N.mod_small. now rewrite pow256.
Qed.

(** The bytes of a table preceded by their number, as a varint. *)
Inductive prefixed : bytes -> bytes -> Prop :=
| Prefixed table n : varint_decode x86_release n 0 0 = Ok (len table, len n) -> prefixed table (n ++ table).

Lemma prefixed_section s : len s < W64 -> prefixed s (section s).
Proof.
  intros H. unfold section. constructor.
  pose proof (varint_decode_ok x86_release [] (len s) [] 0 H (or_introl eq_refl)) as Hd.
  cbn [app] in Hd. rewrite app_nil_r in Hd. exact Hd.
Qed.

Theorem C11_framing : forall c mem ty p o v content,
  sane c -> denotes mem o v -> Serialize c mem ty p o = Ok content -> len content < 2 ^ 32 ->
  exists size split body aux,
    content = size ++ [n2b (SeriTypeToChar ty)] ++ [n2b (if split : bool then 10 else 0)] ++ body ++ aux /\
    len size = 8 /\ of_network size = 10 + len body /\
    (* the body is an encoding of the tree under the root key, marked as split or not *)
    (exists D T, wire D T (split_block_size c) (VMap [(root_key, v)]) split body /\ (D = None <-> ty = NORMAL)) /\
    (* the rest is exactly the tables *)
    match ty with
    | NORMAL => exists splits, prefixed splits aux
    | REPLACE => exists strings splits a b, aux = a ++ b /\ prefixed strings a /\ prefixed splits b
    end.
Proof.
  intros c mem ty p o v content Hc Hd Hs HL.
  destruct (Serialize_document c mem ty p o v Hc Hd) as (content' & Hs' & Hdoc).
  rewrite Hs in Hs'. injection Hs' as <-. specialize (Hdoc HL).
  destruct Hdoc as [body fl ks dl info Hnd Hno Hks HP Hni Hinf Hw].
  set (aux := match ty with NORMAL => [] | REPLACE => section (dict_bytes dl) end ++ section (split_bytes info)) in *.
  rewrite !len_app, be_bytes_len in HL.
  exists (be_bytes 8 (10 + len body)), fl, body, aux.
  split; [reflexivity|]. split; [apply be_bytes_len|].
  split; [apply of_network_be; change (2 ^ (8 * 8)) with (2 ^ 64); lia|]. split.
  - exists (dict_of ty ks), (table_of info). split; [exact Hw|]. destruct ty; cbn; split; congruence.
  - assert (HA : len aux < 2 ^ 32) by lia. unfold aux in HA. destruct ty.
    + exists (split_bytes info). apply prefixed_section. cbn [app] in HA. unfold section in HA.
      rewrite len_app in HA. rewrite W64_val. lia.
    + exists (dict_bytes dl), (split_bytes info), (section (dict_bytes dl)), (section (split_bytes info)).
      unfold section in HA. rewrite !len_app in HA.
      split; [reflexivity|]. split; apply prefixed_section; rewrite W64_val; lia.
Qed.

Example C11_met : Serialize x86_debug no_mem NORMAL p0 (data_of_num U32 258) =
  Ok (str [0; 0; 0; 0; 0; 0; 0; 24;  0; 0;  1; 1; 4; 114; 111; 111; 116; 0; 3; 4; 0; 0; 1; 2;  1; 0]).
Proof. vm_compute. reflexivity. Qed.

(** ** C30: the blocks tile the payload.

    The body as an explicit tree: data nodes, and containers with the number
    written behind their size, their split mark and their children, each preceded
    by its key (nothing in arrays). *)
Inductive etree :=
| ELeaf (data : bytes)
| ENode (kind : objtype) (id : N) (mark : bool) (kids : list (bytes * etree)).

Definition etype (t : etree) : byte :=
  match t with
  | ELeaf _ => n2b 0
  | ENode k _ mark _ => n2b (ObjectTypeToChar k + if mark then 128 else 0)
  end.

(** Bytes of a node (without its type byte) and of one element of a container. *)
Fixpoint ebytes (t : etree) : bytes :=
  match t with
  | ELeaf b => b
  | ENode _ id _ kids =>
      venc (len kids) ++ venc id ++ concat (map (fun k => fst k ++ etype (snd k) :: ebytes (snd k)) kids)
  end.
Definition element (k : bytes * etree) : bytes := fst k ++ etype (snd k) :: ebytes (snd k).

(** A property of every container of the tree. *)
Inductive all_nodes (P : N -> bool -> list (bytes * etree) -> Prop) : etree -> Prop :=
| an_leaf b : all_nodes P (ELeaf b)
| an_node k id mark kids : P id mark kids -> Forall (fun x => all_nodes P (snd x)) kids ->
    all_nodes P (ENode k id mark kids).

(** [sizes] cuts [elements] into consecutive non-empty groups, each of at least
    [sz] bytes except possibly the last of several. *)
Definition tiles (sz : N) (elements : list bytes) (sizes : list N) : Prop :=
  exists groups,
    elements = concat groups /\ sizes = map (fun g => len (concat g)) groups /\ groups <> [] /\
    Forall (fun g => g <> []) groups /\
    Forall (fun n => sz <= n) (removelast sizes) /\ (len sizes = 1 -> Forall (fun n => sz <= n) sizes).

Definition node_tiled (sz : N) (blocks : N -> option (list N)) (id : N) (mark : bool) (kids : list (bytes * etree)) : Prop :=
  match blocks id with
  | Some sizes => mark = true /\ tiles sz (map element kids) sizes /\
                  (* so the sizes add up to the size of the payload *)
                  fold_right N.add 0 sizes = len (concat (map element kids))
  | None => mark = false
  end.

Lemma sum_sizes groups : fold_right N.add 0 (map (fun g : list bytes => len (concat g)) groups) = len (concat (concat groups)).
Proof. induction groups as [|g l IH]; cbn; [reflexivity|]. rewrite IH, concat_app, len_app. reflexivity. Qed.

Lemma removelast_map {A B} (f : A -> B) l : removelast (map f l) = map f (removelast l).
Proof. induction l as [|x [|y l] IH]; cbn in *; congruence. Qed.

Lemma split_ok_tiled T sz id kids fl :
  split_ok T sz id (map element kids) fl -> node_tiled sz T id fl kids.
Proof.
  unfold split_ok, node_tiled. destruct fl; [|now intros ->].
  intros (groups & H1 & -> & H3 & H4 & H5 & H6). split; [reflexivity|]. split.
  - exists groups. split; [exact H1|]. split; [reflexivity|]. split; [exact H3|]. split; [exact H4|].
    unfold block_size in *. rewrite removelast_map. split; [now rewrite Forall_map|].
    rewrite len_map. intros Hl. specialize (H6 Hl). now rewrite Forall_map.
  - rewrite H1. unfold block_size. apply sum_sizes.
Qed.

Lemma kid_elements {A} (R : A -> bytes -> Prop) P (l : list A) chunks :
  (forall a ch, In a l -> R a ch -> exists k t, ch = element (k, t) /\ all_nodes P t) ->
  Forall2 R l chunks -> exists kids, chunks = map element kids /\ len kids = len l /\ Forall (fun x => all_nodes P (snd x)) kids.
Proof.
  intros H. induction 1 as [|a ch l chunks Ha HF IH]; [exists []; auto|].
  destruct (H a ch (or_introl eq_refl) Ha) as (k & t & -> & Ht).
  destruct IH as (kids & -> & Hl & HK); [intros a' ch' Hin; apply H; now right|].
  exists ((k, t) :: kids). rewrite !len_cons, Hl. auto.
Qed.

Lemma wire_etree D T sz v : forall fl b, wire D T sz v fl b ->
  exists t, b = ebytes t /\ tag v fl = etype t /\ all_nodes (node_tiled sz T) t /\
    match t, v with ELeaf _, VScalar _ => True | ENode TMap _ m _, VMap _ | ENode TArray _ m _, VArr _ => m = fl | _, _ => False end.
Proof.
  induction v as [x|l IH|l IH] using value_ind'; intros fl b H.
  - inversion H; subst. exists (ELeaf b). repeat split. constructor.
  - inversion H as [|? id ch ? L1 L2 HF HS|]; subst.
    apply (kid_elements _ (node_tiled sz T)) in HF as (kids & -> & Hl & HK).
    2:{ intros v ch' Hin (f & b & Hw & ->). rewrite Forall_forall in IH. apply in_rev in Hin.
      destruct (IH v Hin f b Hw) as (t & -> & Ht & Hn & _). exists [], t. unfold element. cbn. rewrite Ht. auto. }
    exists (ENode TArray id fl kids). cbn [ebytes]. rewrite Hl, len_rev. repeat split.
    constructor; [now apply split_ok_tiled|exact HK].
  - inversion H as [| |? id ch ? L1 L2 HF HS]; subst.
    apply (kid_elements _ (node_tiled sz T)) in HF as (kids & -> & Hl & HK).
    2:{ intros [k v] ch' Hin (kb & f & b & Hk & Hw & ->). rewrite Forall_forall in IH.
      destruct (IH (k, v) Hin f b Hw) as (t & -> & Ht & Hn & _). exists kb, t. unfold element. cbn in *. rewrite Ht. auto. }
    exists (ENode TMap id fl kids). cbn [ebytes]. rewrite Hl. repeat split.
    constructor; [now apply split_ok_tiled|exact HK].
Qed.

(** [si_info (sc_split sc)] is the split table any reader obtains. *)
Theorem C30_blocks_tile : forall cs cp mem ty p o v content buf fuel,
  sane cs -> sane cp -> denotes mem o v -> Serialize cs mem ty p o = Ok content ->
  fits cp content -> (length content <= fuel)%nat ->
  exists sc hd root_mark id kids rest,
    initFromContent cp fuel content buf = Ok sc /\
    content = hd ++ ebytes (ENode TMap id root_mark kids) ++ rest /\ len hd = 10 /\ sc_need_to_split sc = root_mark /\
    all_nodes (node_tiled (split_block_size cs) (fun id => assoc_find N.eqb id (si_info (sc_split sc))))
              (ENode TMap id root_mark kids).
Proof.
  intros cs cp mem ty p o v content buf fuel Hcs Hcp Hd Hs Hf Hu.
  destruct (Serialize_document cs mem ty p o v Hcs Hd) as (content' & Hs' & Hdoc).
  rewrite Hs in Hs'. injection Hs' as <-.
  assert (HL : lim cp (len (content ++ []))) by (rewrite app_nil_r; exact Hf).
  assert (HW : len content < W32) by (apply lim_W32 in HL; now rewrite app_nil_r in HL).
  destruct (init_ok cp _ ty v content [] buf fuel Hcp (Hdoc HW) HL Hu)
    as (sc & body & fl & ks & info & Y & Hi & (hd & Hhd & HC) & HY & Hw & Ht & Hns & Hsi & _).
  rewrite app_nil_r in *.
  destruct (wire_etree _ _ _ _ _ _ Hw) as (t & Hb & _ & Hn & Hm).
  destruct t as [|[] id m kids]; try contradiction. subst m.
  exists sc, hd, fl, id, kids, Y. split; [exact Hi|]. split; [now rewrite HC, Hb|].
  split; [unfold len; rewrite Hhd; reflexivity|]. split; [exact Hns|]. rewrite Hsi. exact Hn.
Qed.

Example C30_met :
  exists sc, initFromContent tiny 200 (sample_doc tiny NORMAL) 7 = Ok sc /\
    si_info (sc_split sc) = [(1, [70]); (2, [26; 26; 10]); (4, [13; 5]); (3, [9; 10])].
Proof. eexists. split; vm_compute; reflexivity. Qed.

(** ** C46: the dictionary. *)
Lemma Forall2_in_l {A B} (R : A -> B -> Prop) l l' a : Forall2 R l l' -> In a l -> exists b, In b l' /\ R a b.
Proof.
  induction 1 as [|x y l l' Hx HF IH]; [intros []|]. intros [->|H]; [exists y; split; [now left|exact Hx]|].
  destruct (IH H) as (b & Hb & HR). exists b. split; [now right|exact HR].
Qed.

Lemma str_wire_dict ks s b : str_wire (dict_of REPLACE ks) s b -> In s ks.
Proof. cbn. intros H. inversion H as [|d id s' Hid Hs]; subst. now apply nth_error_In in Hs. Qed.

Lemma wire_occurs ks T sz k v : forall fl b, wire (dict_of REPLACE ks) T sz v fl b -> occurs k v -> In k ks.
Proof.
  induction v as [x|l IH|l IH] using value_ind'; intros fl b H Ho.
  - inversion Ho; subst. inversion H as [? ? Hx| |]; subst. inversion Hx; subst. eapply str_wire_dict; eauto.
  - inversion Ho as [|v ? Hin Hov| |]; subst. inversion H as [|? id ch ? L1 L2 HF HS|]; subst.
    rewrite in_rev in Hin. destruct (Forall2_in_l _ _ _ _ HF Hin) as (ch' & _ & f & b & Hw & _).
    rewrite Forall_forall in IH. apply in_rev in Hin. eapply IH; eauto.
  - inversion H as [| |? id ch ? L1 L2 HF HS]; subst. inversion Ho as [| |v ? Hin|e ? Hin Hov]; subst.
    + destruct (Forall2_in_l _ _ _ _ HF Hin) as (ch' & _ & kb & f & b & Hk & _). eapply str_wire_dict; exact Hk.
    + destruct (Forall2_in_l _ _ _ _ HF Hin) as (ch' & _ & kb & f & b & _ & Hw & _).
      rewrite Forall_forall in IH. eapply IH; eauto.
Qed.

(** [strings] is the dictionary by id: string number i has id i.  The written table
    is a permutation of it (hash iteration order), so it lists every string once;
    every string id in the body is resolved by it ([wire] with that dictionary), in
    particular it is below the dictionary size. *)
Theorem C46_dictionary : forall c mem p o v content,
  sane c -> denotes mem o v -> Serialize c mem REPLACE p o = Ok content -> len content < 2 ^ 32 ->
  exists strings entries fl hd body rest,
    content = hd ++ body ++ section (dict_bytes entries) ++ rest /\ len hd = 10 /\
    NoDup strings /\
    (forall k, In k strings <-> (k = root_key \/ occurs k v)) /\
    Permutation entries (number_from 0 strings) /\
    exists T, wire (Some (fun id => nth_error strings (N.to_nat id))) T (split_block_size c)
                   (VMap [(root_key, v)]) fl body.
Proof.
  intros c mem p o v content Hc Hd Hs HL.
  destruct (Serialize_document c mem REPLACE p o v Hc Hd) as (content' & Hs' & Hdoc).
  rewrite Hs in Hs'. injection Hs' as <-. specialize (Hdoc HL).
  inversion Hdoc as [body fl ks dl info Hnd Hno Hks HP Hni Hinf Hw Hcon]. clear Hdoc.
  exists ks, dl, fl, (be_bytes 8 (10 + len body) ++ [n2b (SeriTypeToChar REPLACE)] ++ [n2b (if fl then 10 else 0)]),
    body, (section (split_bytes info)).
  split; [now rewrite <- !app_assoc|].
  split; [rewrite !len_app, be_bytes_len, !len_cons, len_nil; reflexivity|].
  split; [exact Hnd|]. split; [|split; [exact HP|exists (table_of info); exact Hw]].
  intros k. split; [apply Hks|]. intros [->|Ho].
  - eapply wire_occurs; [exact Hw|]. eapply oc_key. now left.
  - eapply wire_occurs; [exact Hw|]. eapply oc_val; [now left|exact Ho].
Qed.

(** Example: "id" and "dup" occur several times in the sample, once in the table. *)
Example C46_met : exists sc, initFromContent tiny 200 (sample_doc tiny REPLACE) 7 = Ok sc /\
  exists m, sc_map sc = Some m /\ map snd (sm_map m) = [4; 3; 2; 1; 0].
Proof. eexists. split; [vm_compute; reflexivity|]. eexists. split; vm_compute; reflexivity. Qed.

(** ** C43: data in the invalid state. *)

(** Trees as they can be built with the API, data nodes in the invalid state
    included; the flag says whether there is one. *)
Inductive maybe_invalid (mem : memory) : bool -> obj -> Prop :=
| mi_data : maybe_invalid mem true data_default
| mi_data_view : maybe_invalid mem true data_view_default
| mi_valid dt s x : data_denotes dt s x -> maybe_invalid mem false (OData dt s)
| mi_valid_view dt s x : view_denotes mem dt s x -> maybe_invalid mem false (ODataView dt s)
| mi_array p size items bs : size = len items ->
    Forall2 (maybe_invalid mem) bs items -> maybe_invalid mem (existsb (fun b => b) bs) (OArray p size items)
| mi_map p size items bs : size = len items ->
    Forall2 (fun b i => maybe_invalid mem b (snd i)) bs items ->
    maybe_invalid mem (existsb (fun b => b) bs) (OMap p size items)
| mi_map_view p size items bs : size = len items ->
    Forall2 (fun b i => (exists s, read_view mem (fst i) = Ok s) /\ maybe_invalid mem b (snd i)) bs items ->
    maybe_invalid mem (existsb (fun b => b) bs) (OMapView p size items).

Lemma maybe_invalid_false mem o : forall b, maybe_invalid mem b o -> b = false -> exists v, denotes mem o v.
Proof.
  assert (HE : forall bs, existsb (fun b : bool => b) bs = false -> forall b, In b bs -> b = false).
  { intros bs H b Hb. destruct b; [|reflexivity]. exfalso.
    assert (existsb (fun b : bool => b) bs = true) by (apply existsb_exists; exists true; auto). congruence. }
  induction o as [|dt s|dt s|p n l IH|p n l IH|p n l IH] using obj_ind'; intros b H Hb; inversion H; subst; try discriminate.
  - eexists. constructor. eassumption.
  - eexists. eapply den_data_view. eassumption.
  - match goal with H : existsb _ _ = false |- _ => specialize (HE _ H); clear H end.
    assert (exists vs, Forall2 (denotes mem) l vs) as (vs & HF).
    { clear H. match goal with H : Forall2 _ bs l |- _ => rename H into HF end.
      induction HF as [|b o bs l Hbo HF IHF]; [exists []; constructor|].
      inversion IH as [|? ? Ho IH']; subst. destruct (Ho b Hbo) as (v & Hv); [apply HE; now left|].
      destruct IHF as (vs & Hvs); [exact IH'|intros; apply HE; now right|]. exists (v :: vs). now constructor. }
    exists (VArr (rev vs)). constructor; [reflexivity|]. now rewrite rev_involutive.
  - match goal with H : existsb _ _ = false |- _ => specialize (HE _ H); clear H end.
    assert (exists vs, Forall2 (fun i e => fst i = fst e /\ denotes mem (snd i) (snd e)) l vs) as (vs & HF).
    { clear H. match goal with H : Forall2 _ bs l |- _ => rename H into HF end.
      induction HF as [|b o bs l Hbo HF IHF]; [exists []; constructor|].
      inversion IH as [|? ? Ho IH']; subst. destruct (Ho b Hbo) as (v & Hv); [apply HE; now left|].
      destruct IHF as (vs & Hvs); [exact IH'|intros; apply HE; now right|]. exists ((fst o, v) :: vs). constructor; auto. }
    exists (VMap vs). now constructor.
  - match goal with H : existsb _ _ = false |- _ => specialize (HE _ H); clear H end.
    assert (exists vs, Forall2 (fun i e => read_view mem (fst i) = Ok (fst e) /\ denotes mem (snd i) (snd e)) l vs) as (vs & HF).
    { clear H. match goal with H : Forall2 _ bs l |- _ => rename H into HF end.
      induction HF as [|b o bs l [[s Hs] Hbo] HF IHF]; [exists []; constructor|].
      inversion IH as [|? ? Ho IH']; subst. destruct (Ho b Hbo) as (v & Hv); [apply HE; now left|].
      destruct IHF as (vs & Hvs); [exact IH'|intros; apply HE; now right|]. exists ((s, v) :: vs). constructor; auto. }
    exists (VMap vs). now constructor.
Qed.

(** The loop over the elements stops at the first one that throws. *)
Definition item_result {I} (f : I -> sstate -> outcome sstate) (bad : bool) (i : I) : Prop :=
  forall st, good st -> if bad then f i st = Throw ERuntime else exists st', f i st = Ok st' /\ good st'.

Lemma seri_items_throw c {I} (f : I -> sstate -> outcome sstate) bs l :
  Forall2 (item_result f) bs l -> existsb (fun b => b) bs = true ->
  forall st cs bl, good st -> seri_items c f l st cs bl = Throw ERuntime.
Proof.
  induction 1 as [|b i bs l Hi HF IH]; cbn [existsb]; [discriminate|]. intros Hb st cs bl Hg. cbn [seri_items].
  specialize (Hi st Hg). destruct b.
  - now rewrite Hi.
  - destruct Hi as (st' & -> & Hg'). cbn [obind]. destruct (cut_block c st' cs bl). now apply IH.
Qed.

Lemma container_throw c {I} (f : I -> sstate -> outcome sstate) bs l n st :
  char_signed c = true -> Forall2 (item_result f) bs l ->
  existsb (fun b => b) bs = true -> good st -> container_valueSeri c n f l st = Throw ERuntime.
Proof.
  intros Hc HF Hb Hg. unfold container_valueSeri. rewrite st_seriLength_ok by exact Hc. cbn [obind].
  unfold seri_split_id. cbn [sinfo with_outer]. destruct (sinfo st) as [si|] eqn:Hsi; [|now elim Hg].
  cbn [RequestId]. rewrite st_seriLength_ok by exact Hc. cbn [obind].
  rewrite (seri_items_throw c f bs l HF Hb); [reflexivity|]. unfold good; cbn. congruence.
Qed.

Lemma GetType_maybe mem b o : maybe_invalid mem b o -> exists t, GetType o = Ok t.
Proof. intros H. inversion H; cbn; eauto. Qed.

Lemma child_result c mem b o : char_signed c = true -> maybe_invalid mem b o ->
  (b = true -> forall st, good st -> valueSeri c mem o st = Throw ERuntime) ->
  item_result (fun o st => seri_child c o (valueSeri c mem o) st) b o.
Proof.
  intros Hc Hm Hbad st Hg. destruct b.
  - unfold seri_child. destruct (GetType_maybe _ _ _ Hm) as (t & ->). cbn [obind]. now rewrite Hbad.
  - destruct (maybe_invalid_false _ _ _ Hm eq_refl) as (v & Hv).
    destruct (seri_child_ok c mem o v st Hv (valueSeri_ok c mem o v Hc Hv) Hg) as (st' & e & H1 & H2).
    exists st'. split; [exact H1|]. eapply post_good; eauto.
Qed.

Lemma entry_result c mem b o k : char_signed c = true -> maybe_invalid mem b o ->
  (b = true -> forall st, good st -> valueSeri c mem o st = Throw ERuntime) ->
  forall st, good st ->
  let r := obind (seri_key c k st) (fun st1 => seri_child c o (valueSeri c mem o) st1) in
  if b then r = Throw ERuntime else exists st', r = Ok st' /\ good st'.
Proof.
  intros Hc Hm Hbad st Hg. destruct (seri_key_ok c k st Hc Hg) as (st1 & e1 & H1 & P1). rewrite H1. cbn [obind].
  apply (child_result c mem b o Hc Hm Hbad). eapply post_good; eauto.
Qed.

Lemma valueSeri_throw c mem o : char_signed c = true -> forall b, maybe_invalid mem b o -> b = true ->
  forall st, good st -> valueSeri c mem o st = Throw ERuntime.
Proof.
  intros Hc. induction o as [|dt s|dt s|p n l IH|p n l IH|p n l IH] using obj_ind'; intros b H Hb st Hg;
    inversion H; subst; try discriminate; cbn [valueSeri]; try reflexivity.
  - eapply container_throw; [exact Hc| |match goal with H : existsb _ _ = true |- _ => exact H end|exact Hg].
    match goal with H : Forall2 _ bs l |- _ => rename H into HF end. clear -HF IH Hc.
    induction HF as [|b o bs l Hbo HF IHF]; constructor; inversion IH; subst; auto.
    apply child_result; eauto.
  - eapply container_throw; [exact Hc| |match goal with H : existsb _ _ = true |- _ => exact H end|exact Hg].
    match goal with H : Forall2 _ bs l |- _ => rename H into HF end. clear -HF IH Hc.
    induction HF as [|b [k o] bs l Hbo HF IHF]; constructor; inversion IH; subst; auto.
    intros st Hg. apply entry_result; eauto.
  - eapply container_throw; [exact Hc| |match goal with H : existsb _ _ = true |- _ => exact H end|exact Hg].
    match goal with H : Forall2 _ bs l |- _ => rename H into HF end. clear -HF IH Hc.
    induction HF as [|b [k o] bs l [[s Hs] Hbo] HF IHF]; constructor; inversion IH; subst; auto.
    intros st Hg. cbn in Hs. rewrite Hs. cbn [obind]. apply entry_result; eauto.
Qed.

Theorem C43_invalid_data : forall c mem ty p o bad,
  sane c -> maybe_invalid mem bad o ->
  if bad then Serialize c mem ty p o = Throw ERuntime
  else exists content, Serialize c mem ty p o = Ok content.
Proof.
  intros c mem ty p o bad [Hc Hit] H. destruct bad.
  - unfold Serialize. rewrite (valueSeri_throw c mem _ Hc true); [reflexivity| |reflexivity|unfold good; cbn; congruence].
    apply (mi_map mem p 1 [(root_key, o)] [true]); [reflexivity|]. constructor; [exact H|constructor].
  - destruct (maybe_invalid_false _ _ _ H eq_refl) as (v & Hv).
    destruct (Serialize_document c mem ty p o v (conj Hc Hit) Hv) as (content & Hs & _). eauto.
Qed.

Example C43_met : maybe_invalid no_mem true (OArray p0 2 [data_of_num U32 7; OMap p0 1 [(k_id, data_default)]]).
Proof.
  apply (mi_array no_mem p0 2 _ [false; true]); [reflexivity|].
  constructor; [apply (mi_valid _ _ _ (VNum U32 7)); apply dd_num; reflexivity|]. constructor; [|constructor].
  apply (mi_map no_mem p0 1 _ [true]); [reflexivity|]. constructor; [apply mi_data|constructor].
Qed.
