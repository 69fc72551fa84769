(** * Properties C78-C79: how much memory a document can ask for. *)
From Verif Require Import Base BaseLemmas ModelVarint ModelData ModelSecondary ModelObject
  ModelParse ModelWrapper Spec SpecApi VarintProofs Wire NumProofs SeriProofs SeriProofs2 DocProofs ObjInd ParseLemmas
  NormalProofs SecondaryProofs ValueProofs RoundTrip GeneralProofs ApiProofs Samples PropRoundTrip PropDocument PropHostile FrameProofs PropTamper
  PropContainers PropCanonical Lenient LenientProofs LenientTables PropLenient.
From Coq Require Import ZifyBool ZifyNat ZifyN.

(** ** Measures of an object: nodes, bytes of strings, byte strings, custom data
    and keys, and depth of nesting. *)
Fixpoint nodes (o : obj) : N :=
  match o with
  | ONull => 0
  | OData _ _ | ODataView _ _ => 1
  | OArray _ _ l => 1 + fold_right N.add 0 (map nodes l)
  | OMap _ _ l => 1 + fold_right N.add 0 (map (fun e => nodes (snd e)) l)
  | OMapView _ _ l => 1 + fold_right N.add 0 (map (fun e => nodes (snd e)) l)
  end.

Fixpoint stored (o : obj) : N :=
  match o with
  | OData _ (SStr s) | OData _ (SVec s) => len s
  | OArray _ _ l => fold_right N.add 0 (map stored l)
  | OMap _ _ l => fold_right N.add 0 (map (fun e => len (fst e) + stored (snd e)) l)
  | OMapView _ _ l => fold_right N.add 0 (map (fun e => stored (snd e)) l)
  | _ => 0
  end.

Fixpoint nesting (o : obj) : N :=
  match o with
  | OArray _ _ l => 1 + fold_right N.max 0 (map nesting l)
  | OMap _ _ l => 1 + fold_right N.max 0 (map (fun e => nesting (snd e)) l)
  | OMapView _ _ l => 1 + fold_right N.max 0 (map (fun e => nesting (snd e)) l)
  | _ => 0
  end.

(** ** The same for values *)
Fixpoint vnodes (v : value) : N :=
  match v with
  | VScalar _ => 1
  | VArr l => 1 + fold_right N.add 0 (map vnodes l)
  | VMap l => 1 + fold_right N.add 0 (map (fun e => vnodes (snd e)) l)
  end.
Definition xstored (x : scalar) : N := match x with VStr s | VBytes s | VCustom s => len s | VNum _ _ => 0 end.
Fixpoint vstored (v : value) : N :=
  match v with
  | VScalar x => xstored x
  | VArr l => fold_right N.add 0 (map vstored l)
  | VMap l => fold_right N.add 0 (map (fun e => len (fst e) + vstored (snd e)) l)
  end.
Fixpoint vnesting (v : value) : N :=
  match v with
  | VScalar _ => 0
  | VArr l => 1 + fold_right N.max 0 (map vnesting l)
  | VMap l => 1 + fold_right N.max 0 (map (fun e => vnesting (snd e)) l)
  end.

Lemma fold_add_app a b : fold_right N.add 0 (a ++ b) = fold_right N.add 0 a + fold_right N.add 0 b.
Proof. induction a; cbn [app fold_right]; lia. Qed.
Lemma fold_max_app a b : fold_right N.max 0 (a ++ b) = N.max (fold_right N.max 0 a) (fold_right N.max 0 b).
Proof. induction a; cbn [app fold_right]; lia. Qed.
Lemma fold_add_rev a : fold_right N.add 0 (rev a) = fold_right N.add 0 a.
Proof. induction a; cbn [rev fold_right]; [reflexivity|]. rewrite fold_add_app. cbn [fold_right]. lia. Qed.
Lemma fold_max_rev a : fold_right N.max 0 (rev a) = fold_right N.max 0 a.
Proof. induction a; cbn [rev fold_right]; [reflexivity|]. rewrite fold_max_app. cbn [fold_right]. lia. Qed.

Lemma measures p v : nodes (tree_of p (mirror v)) = vnodes v /\ stored (tree_of p (mirror v)) = vstored v /\ nesting (tree_of p (mirror v)) = vnesting v.
Proof.
  induction v as [x|l IH|l IH] using value_ind'; cbn [mirror tree_of].
  - split; [reflexivity|]. split; [|reflexivity]. destruct x as [| | |[]]; reflexivity.
  - rewrite map_map. cbn [nodes stored nesting vnodes vstored vnesting]. rewrite !map_rev, fold_add_rev, fold_add_rev, fold_max_rev, !map_map.
    rewrite Forall_forall in IH.
    rewrite (map_ext_in (fun x => nodes (tree_of p (mirror x))) vnodes) by (intros; now apply IH).
    rewrite (map_ext_in (fun x => stored (tree_of p (mirror x))) vstored) by (intros; now apply IH).
    rewrite (map_ext_in (fun x => nesting (tree_of p (mirror x))) vnesting) by (intros; now apply IH). auto.
  - cbn [nodes stored nesting vnodes vstored vnesting]. rewrite !map_rev, fold_add_rev, fold_add_rev, fold_max_rev, !map_map. cbn [fst snd].
    rewrite Forall_forall in IH.
    rewrite (map_ext_in (fun x : bytes * value => nodes (tree_of p (mirror (snd x)))) (fun e => vnodes (snd e))) by (intros; now apply IH).
    rewrite (map_ext_in (fun x : bytes * value => len (fst x) + stored (tree_of p (mirror (snd x)))) (fun e => len (fst e) + vstored (snd e))) by (intros; f_equal; now apply IH).
    rewrite (map_ext_in (fun x : bytes * value => nesting (tree_of p (mirror (snd x)))) (fun e => vnesting (snd e))) by (intros; now apply IH). auto.
Qed.

Lemma vint_len1 n b : vint n b -> 1 <= len b.
Proof. intros H. apply vint_len in H. unfold len. lia. Qed.

Lemma lstr_len D k kb : lstr D k kb -> 1 <= len kb.
Proof. intros []; [rewrite len_app|]; match goal with H : vint _ _ |- _ => apply vint_len1 in H end; lia. Qed.

(** ** Every node costs three bytes *)
Lemma wire_cost strict D : forall v b, lwire strict D v b ->
  3 * vnodes v <= len b + 1 /\ 3 * vnesting v <= len b + 1 /\ (D = None -> 3 * vnodes v + vstored v <= len b + 1) /\
  (forall M, (forall d id s, D = Some d -> d id = Some s -> len s <= M) -> vstored v <= (M + 1) * len b).
Proof.
  fix IH 3. intros v b H. destruct H as [x b Hx|l cnt id i chunks Hc Hi HF|l cnt id i chunks Hc Hi HF].
  - clear IH. cbn [vnodes vstored vnesting].
    destruct Hx as [s b Hb|s l Hv|s l Hv|t m l Hv Hm Hs]; cbn [xstored].
    + destruct Hb as [s l HD Hv|d id s l HD Hv Hd]; rewrite ?len_cons, ?len_app; apply vint_len1 in Hv.
      * split; [lia|]. split; [lia|]. split; [intros _; lia|]. intros M _. nia.
      * split; [lia|]. split; [lia|]. split; [congruence|]. intros M HM. specialize (HM d _ s HD Hd). nia.
    + rewrite len_cons, len_app; apply vint_len1 in Hv. split; [lia|]. split; [lia|]. split; [intros _; lia|]. intros M _. nia.
    + rewrite len_cons, len_app; apply vint_len1 in Hv. split; [lia|]. split; [lia|]. split; [intros _; lia|]. intros M _. nia.
    + rewrite len_cons, len_app; apply vint_len1 in Hv. split; [lia|]. split; [lia|]. split; [intros _; lia|]. intros M _. lia.
  - apply vint_len1 in Hc. apply vint_len1 in Hi. rewrite !len_app. cbn [vnodes vstored vnesting].
    rewrite <- (fold_add_rev (map vnodes l)), <- (fold_add_rev (map vstored l)), <- (fold_max_rev (map vnesting l)), <- !map_rev.
    assert (G : let r := rev l in
      3 * fold_right N.add 0 (map vnodes r) <= len (concat chunks) /\ 3 * fold_right N.max 0 (map vnesting r) <= len (concat chunks) /\
      (D = None -> 3 * fold_right N.add 0 (map vnodes r) + fold_right N.add 0 (map vstored r) <= len (concat chunks)) /\
      (forall M, (forall d id s, D = Some d -> d id = Some s -> len s <= M) -> fold_right N.add 0 (map vstored r) <= (M + 1) * len (concat chunks))).
    { cbn zeta. clear Hc. induction HF as [|v ch vs chs (t & b & Hw & _ & ->) HF IHF]; cbn [map fold_right concat].
      - change (len (@nil byte)) with 0. split; [lia|]. split; [lia|]. split; intros; lia.
      - destruct (IH _ _ Hw) as (A1 & A2 & A3 & A4). destruct IHF as (B1 & B2 & B3 & B4). rewrite len_app, len_cons.
        split; [lia|]. split; [lia|]. split; [intros HD; specialize (A3 HD); specialize (B3 HD); lia|].
        intros M HM. specialize (A4 M HM). specialize (B4 M HM). nia. }
    clear IH HF. cbn zeta in G. destruct G as (G1 & G2 & G3 & G4). split; [lia|]. split; [lia|]. split; [intros HD; specialize (G3 HD); lia|].
    intros M HM. specialize (G4 M HM). nia.
  - apply vint_len1 in Hc. apply vint_len1 in Hi. rewrite !len_app. cbn [vnodes vstored vnesting].
    assert (G :
      3 * fold_right N.add 0 (map (fun e => vnodes (snd e)) l) <= len (concat chunks) /\ 3 * fold_right N.max 0 (map (fun e => vnesting (snd e)) l) <= len (concat chunks) /\
      (D = None -> 3 * fold_right N.add 0 (map (fun e => vnodes (snd e)) l) + fold_right N.add 0 (map (fun e => len (fst e) + vstored (snd e)) l) <= len (concat chunks)) /\
      (forall M, (forall d id s, D = Some d -> d id = Some s -> len s <= M) -> fold_right N.add 0 (map (fun e => len (fst e) + vstored (snd e)) l) <= (M + 1) * len (concat chunks))).
    { clear Hc. induction HF as [|[k v] ch vs chs (kb & t & b & Hk & Hw & _ & ->) HF IHF]; cbn [map fold_right concat fst snd].
      - change (len (@nil byte)) with 0. split; [lia|]. split; [lia|]. split; intros; lia.
      - cbn [fst snd] in *. destruct (IH _ _ Hw) as (A1 & A2 & A3 & A4). destruct IHF as (B1 & B2 & B3 & B4). rewrite !len_app, len_cons.
        pose proof (lstr_len _ _ _ Hk).
        split; [lia|]. split; [lia|]. split.
        + intros HD. specialize (A3 HD); specialize (B3 HD). destruct Hk as [s w _ Hv|d ? s w HD' Hv Hd]; [rewrite len_app in *; lia|congruence].
        + intros M HM. specialize (A4 M HM). specialize (B4 M HM).
          assert (len k <= (M + 1) * len kb).
          { destruct Hk as [s w _ Hv|d ? s w HD' Hv Hd]; [rewrite len_app in *; nia|]. specialize (HM d _ s HD' Hd). nia. }
          nia. }
    clear IH HF. destruct G as (G1 & G2 & G3 & G4). split; [lia|]. split; [lia|]. split; [intros HD; specialize (G3 HD); lia|].
    intros M HM. specialize (G4 M HM). nia.
Qed.

Lemma fold_add_in {A} (f : A -> N) l x : In x l -> f x <= fold_right N.add 0 (map f l).
Proof. induction l as [|y l IH]; [intros []|]. cbn [map fold_right]. intros [->|H]; [lia|]. apply IH in H. lia. Qed.
Lemma fold_max_in {A} (f : A -> N) l x : In x l -> f x <= fold_right N.max 0 (map f l).
Proof. induction l as [|y l IH]; [intros []|]. cbn [map fold_right]. intros [->|H]; [lia|]. apply IH in H. lia. Qed.

Lemma fold_add_in2 {A} (f g : A -> N) l x : In x l ->
  3 * f x + g x <= 3 * fold_right N.add 0 (map f l) + fold_right N.add 0 (map g l).
Proof. intros H. pose proof (fold_add_in f l x H). pose proof (fold_add_in g l x H). lia. Qed.

Lemma last_root_in entries v : last_root entries = Some v -> In (root_key, v) entries.
Proof.
  unfold last_root. intros Hl. apply in_rev. revert Hl. induction (rev entries) as [|[k w] l IH]; cbn [assoc_find]; [discriminate|].
  destruct (bytes_eqb_spec root_key k) as [->|]; [intros [= ->]; now left|]. intros H. right. auto.
Qed.

Lemma meaning_cost strict D ty entries content rest p : lenient_doc strict D ty entries content rest ->
  let o := meaning p entries in
  3 * nodes o + 10 <= len content /\ 3 * nesting o + 10 <= len content /\ (D = None -> 3 * nodes o + stored o + 10 <= len content) /\
  (forall M, (forall d id s, D = Some d -> d id = Some s -> len s <= M) -> stored o <= (M + 1) * len content).
Proof.
  intros [size t f body rest' A1 A2 A3 A4 Hw Hr]. cbn zeta. rewrite !len_app, !len_cons, len_nil, A1.
  assert (1 <= len rest') by (destruct rest'; [congruence|rewrite len_cons; lia]).
  destruct (wire_cost _ _ _ _ Hw) as (W1 & W2 & W3 & W4). cbn [vnodes vstored vnesting] in *.
  unfold meaning. destruct (last_root entries) as [v|] eqn:Hl.
  2:{ cbn [nodes stored nesting]. split; [lia|]. split; [lia|]. split; intros; lia. }
  apply last_root_in in Hl. destruct (measures p v) as (-> & -> & ->).
  pose proof (fold_add_in (fun e => vnodes (snd e)) _ _ Hl) as I1. pose proof (fold_max_in (fun e => vnesting (snd e)) _ _ Hl) as I2.
  pose proof (fold_add_in (fun e => len (fst e) + vstored (snd e)) _ _ Hl) as I3. cbn [fst snd] in *.
  split; [lia|]. split; [lia|]. split; [intros HD; specialize (W3 HD); lia|]. intros M HM. specialize (W4 M HM). nia.
Qed.

(** C78.  The objects made from a plain document are no larger than the document:
    three bytes per node plus every stored byte fit into it; nesting likewise.
    (In particular the element counts announced in hostile bytes allocate nothing.) *)
Theorem C78_plain_documents_linear : forall c fuel content buf p o, sane c -> fits c content ->
  b2n (nth 8 content x00) = 0 -> Parse c fuel content buf p sequential = Ok o ->
  3 * nodes o + stored o + 10 <= len content /\ 3 * nesting o + 10 <= len content.
Proof.
  intros c fuel content buf p o Hsane HL Hty H.
  destruct (C73_accepted_means _ _ _ _ _ _ Hsane HL H) as (ty & D & entries & rest & HT & Hd & ->).
  destruct (meaning_cost _ _ _ _ _ _ p Hd) as (_ & M2 & M3 & _).
  split; [apply M3|exact M2]. apply HT. clear HT M2 M3. destruct Hd as [size t f body rest A1 A2 A3 A4 A5 A6]. unfold len in A1. rewrite app_nth2 in Hty by lia.
  replace (8 - length size)%nat with 0%nat in Hty by lia. cbn in Hty. rewrite Hty in A3. destruct ty; [reflexivity|discriminate].
Qed.

(** C79.  In every document, nodes and nesting are linear in its size, and what is
    stored is at most quadratic ... *)
Theorem C79_any_document_quadratic_partial : forall c fuel content buf p o, sane c -> fits c content ->
  Parse c fuel content buf p sequential = Ok o ->
  3 * nodes o + 10 <= len content /\ 3 * nesting o + 10 <= len content /\ stored o <= (len content + 2) * len content.
Proof.
  intros c fuel content buf p o Hsane HL H. unfold Parse in H. apply obind_ok in H as (sc & Hsc & H).
  unfold Parse_prog in H. cbn [po_type po_ref] in H.
  destruct (body_sound c fuel content buf p sc o Hsane HL Hsc H) as (ty & entries & rest & Hd & ->).
  destruct (meaning_cost _ _ _ _ _ _ p Hd) as (M1 & M2 & _ & M4). split; [exact M1|]. split; [exact M2|].
  replace (len content + 2) with (len content + 1 + 1) by lia. apply M4. intros d id s Hk Hs. unfold known_option in Hk.
  destruct (sc_map sc) as [m|]; [|discriminate]. injection Hk as <-. unfold known_strings in Hs.
  destruct (getter c (Some m) id) as [v| | | |]; try discriminate. destruct (read_local (root_env c content) v) as [b| | | |] eqn:Hr; try discriminate.
  injection Hs as ->. unfold read_local in Hr. cbn [r_content root_env] in Hr.
  unfold read_range in Hr. destruct (_ =? 0); [injection Hr as <-; rewrite len_nil; lia|]. destruct (_ <=? _); [|discriminate].
  injection Hr as <-. unfold slice. unfold len. rewrite firstn_length, skipn_length, app_length. cbn. lia.
Qed.

(** ... and the square is reached: the dictionary format lets a document of
    4 n + 40 bytes ask for n * n bytes. *)
Fixpoint enc (k : nat) (n : N) : bytes :=
  match k with
  | O => [n2b n]
  | S k' => n2b (128 + n mod 128) :: enc k' (n / 128)
  end.

Lemma enc_groups k : forall n, n < 2 ^ (7 * (N.of_nat k + 1)) -> groups (enc k n) n /\ len (enc k n) = N.of_nat k + 1.
Proof.
  induction k as [|k IH]; intros n Hn; cbn [enc].
  - change (2 ^ _) with 128 in Hn. rewrite len_cons, len_nil. split; [|lia]. rewrite <- (b2n_n2b n) at 2 by lia. constructor. rewrite b2n_n2b by lia. lia.
  - replace (7 * (N.of_nat (S k) + 1)) with (7 + 7 * (N.of_nat k + 1)) in Hn by lia. rewrite N.pow_add_r in Hn. change (2 ^ 7) with 128 in Hn.
    assert (Hq : n / 128 < 2 ^ (7 * (N.of_nat k + 1))) by (apply N.div_lt_upper_bound; [discriminate|exact Hn]).
    destruct (IH _ Hq) as [Hg Hl]. rewrite len_cons, Hl. split; [|lia].
    assert (Hm : n mod 128 < 128) by (apply N.mod_lt; discriminate).
    replace n with (b2n (n2b (128 + n mod 128)) - 128 + 128 * (n / 128)) at 3.
    + constructor; [|exact Hg]. rewrite b2n_n2b by lia. lia.
    + rewrite b2n_n2b by lia. rewrite (N.div_mod n 128) at 3 by discriminate. lia.
Qed.

Lemma enc_vint n : n < 2 ^ 35 -> vint n (enc 4 n) /\ len (enc 4 n) = 5.
Proof.
  intros H. destruct (enc_groups 4 n) as [Hg Hl]; [exact H|]. split; [|exact Hl]. exists n. split; [exact Hg|]. split; [rewrite Hl; vm_compute; discriminate|].
  symmetry. apply N.mod_small. change (2 ^ 35) with 34359738368 in H. change (2 ^ 64) with 18446744073709551616. lia.
Qed.

Definition blob (n : N) : bytes := repeat (n2b 97) (N.to_nat n).
Definition bomb_items (n : N) : list bytes := repeat (str [0; 1; 1]) (N.to_nat n).
Definition bomb_body (n : N) : bytes :=
  str [1] ++ str [0] ++ concat [str [0] ++ n2b (ObjectTypeToChar TArray) :: (enc 4 n ++ str [0] ++ concat (bomb_items n))].
Definition bomb_dict (n : N) : bytes :=
  str [2] ++ concat [str [4] ++ root_key ++ str [0]; enc 4 n ++ blob n ++ str [1]] ++ [].
Definition bomb_rest (n : N) : bytes := enc 4 (len (bomb_dict n)) ++ bomb_dict n ++ str [1] ++ str [0] ++ [].
Definition bomb (n : N) : bytes := be_bytes 8 (10 + len (bomb_body n)) ++ [n2b 1] ++ [n2b 0] ++ bomb_body n ++ bomb_rest n.
Definition bomb_value (n : N) : value := VArr (repeat (VScalar (VStr (blob n))) (N.to_nat n)).
Definition bomb_strings (n : N) : list (bytes * N) := [(root_key, 0); (blob n, 1)].
Definition bomb_reading (n : N) (id : N) : option bytes := if id =? 0 then Some root_key else if id =? 1 then Some (blob n) else None.

Lemma len_repeat {A} (x : A) n : len (repeat x n) = N.of_nat n.
Proof. unfold len. now rewrite repeat_length. Qed.
Lemma rev_repeat_same {A} (x : A) n : rev (repeat x n) = repeat x n.
Proof.
  assert (H : forall k, repeat x k ++ [x] = x :: repeat x k) by (induction k as [|k IH]; cbn; [reflexivity|now rewrite IH]).
  induction n as [|n IH]; cbn; [reflexivity|]. now rewrite IH, H.
Qed.
Lemma concat_items n : len (concat (bomb_items n)) = 3 * n.
Proof.
  unfold bomb_items. assert (H : forall k, len (concat (repeat (str [0; 1; 1]) k)) = 3 * N.of_nat k).
  { induction k as [|k IH]; [reflexivity|]. cbn [repeat concat]. rewrite len_app, IH. change (len (str [0; 1; 1])) with 3. lia. }
  rewrite H. lia.
Qed.

Lemma bomb_sizes n : n < 2 ^ 35 -> len (bomb_body n) = 3 * n + 10 /\ len (bomb_dict n) = n + 13.
Proof.
  intros H. destruct (enc_vint n H) as [_ Hl]. unfold bomb_body, bomb_dict, blob. cbn [concat]. rewrite !app_nil_r.
  repeat (rewrite len_app || rewrite len_cons). rewrite concat_items, !Hl, len_repeat.
  change (len (str [1])) with 1. change (len (str [0])) with 1. change (len (str [2])) with 1. change (len (str [4])) with 1. change (len root_key) with 4. lia.
Qed.

Lemma blob_not_root n : blob n <> root_key.
Proof. unfold blob. destruct (N.to_nat n) as [|k]; cbn; [discriminate|]. intros H. injection H as H _. discriminate. Qed.

Theorem C79_amplification_refuted : forall c buf p n, sane c -> n <= 2 ^ 28 ->
  exists content o, len content = 4 * n + 40 /\ Parse c (length content) content buf p sequential = Ok o /\ stored o = n * n.
Proof.
  intros c buf p n Hsane Hn. change (2 ^ 28) with 268435456 in Hn.
  assert (H35 : n < 2 ^ 35) by (change (2 ^ 35) with 34359738368; lia).
  destruct (bomb_sizes n H35) as [Lb Ld]. destruct (enc_vint n H35) as [Vn Ln].
  destruct (enc_vint (len (bomb_dict n))) as [Vd Ldd]; [rewrite Ld; change (2 ^ 35) with 34359738368; lia|].
  assert (Hlen : len (bomb n) = 4 * n + 40).
  { unfold bomb, bomb_rest. rewrite !len_app, be_bytes_len, !len_cons, !len_nil, Lb, Ldd, Ld. change (len (str [1])) with 1. change (len (str [0])) with 1. lia. }
  exists (bomb n), (meaning p [(root_key, bomb_value n)]). split; [exact Hlen|]. split.
  - apply C73_documents_accepted with (ty := REPLACE) (D := Some (bomb_reading n)) (rest := bomb_rest n); auto.
    + unfold fits. rewrite Hlen. change (2 ^ 31) with 2147483648. change (2 ^ 32) with 4294967296. destruct (ndebug c); lia.
    + unfold bomb. constructor.
      * apply be_bytes_len.
      * rewrite big_endian_network, of_network_be; [reflexivity|]. rewrite Lb. change (2 ^ (8 * 8)) with 18446744073709551616. lia.
      * reflexivity.
      * now left.
      * unfold bomb_body. apply lw_map with (i := 0); [vint_tac|vint_tac|]. constructor; [|constructor].
        exists (str [0]), (n2b (ObjectTypeToChar TArray)), (enc 4 n ++ str [0] ++ concat (bomb_items n)).
        split. { apply ls_dict with (d := bomb_reading n) (id := 0); [reflexivity|vint_tac|reflexivity]. }
        split; [|split; reflexivity]. unfold bomb_value. apply lw_arr with (i := 0).
        { rewrite len_repeat, N2Nat.id. exact Vn. }
        { vint_tac. }
        assert (rev (repeat (VScalar (VStr (blob n))) (N.to_nat n)) = repeat (VScalar (VStr (blob n))) (N.to_nat n)) as ->.
        { apply rev_repeat_same. }
        unfold bomb_items. induction (N.to_nat n) as [|k IH]; cbn [repeat]; constructor; [|exact IH].
        exists (n2b 0), (str [1; 1]). split; [|split; reflexivity]. constructor.
        change (str [1; 1]) with (n2b BRIDGE_STRING :: str [1]). apply lx_str. apply ls_dict with (d := bomb_reading n) (id := 1); [reflexivity|vint_tac|reflexivity].
      * unfold bomb_rest. intros H. apply (f_equal len) in H. rewrite len_app, Ldd in H. change (len (@nil byte)) with 0 in H. lia.
    + unfold bomb_rest. eapply lt_replace with (strings := bomb_strings n) (splits := []).
      * exact Vd.
      * unfold bomb_dict. apply ldict_ with (n := 2); [vint_tac|reflexivity|]. constructor; [|constructor; [|constructor]].
        { exists (str [4]), 0, (str [0]). split; [vint_tac|]. split; [vint_tac|]. split; reflexivity. }
        { exists (enc 4 n), 1, (str [1]). cbn [fst snd]. split; [unfold blob; rewrite len_repeat, N2Nat.id; exact Vn|]. split; [vint_tac|]. split; reflexivity. }
      * intros id. unfold bomb_reading, bomb_strings. destruct (N.eqb_spec id 0) as [->|H0]; [reflexivity|]. destruct (N.eqb_spec id 1) as [->|H1].
        { cbn [id_of]. destruct (bytes_eqb_spec (blob n) root_key) as [E|_]; [now apply blob_not_root in E|]. now rewrite bytes_eqb_refl. }
        { intros s. cbn [id_of]. destruct (bytes_eqb s root_key); [congruence|]. destruct (bytes_eqb s (blob n)); congruence. }
      * intros _ s1 s2 id. unfold bomb_strings. cbn [id_of].
        destruct (bytes_eqb_spec s1 root_key) as [->|]; destruct (bytes_eqb_spec s2 root_key) as [->|]; auto;
        try (destruct (bytes_eqb_spec s1 (blob n)) as [->|]); try (destruct (bytes_eqb_spec s2 (blob n)) as [->|]); congruence.
      * vint_tac.
      * apply (lsplit_ [] 0 (str [0]) [] []); [vint_tac|reflexivity|constructor|constructor].
  - assert (meaning p [(root_key, bomb_value n)] = tree_of p (mirror (bomb_value n))) as -> by reflexivity.
    destruct (measures p (bomb_value n)) as (_ & -> & _). unfold bomb_value. cbn [vstored].
    assert (H : forall k, fold_right N.add 0 (map vstored (repeat (VScalar (VStr (blob n))) k)) = N.of_nat k * n).
    { induction k as [|k IH]; [reflexivity|]. cbn [repeat map fold_right]. rewrite IH. cbn [vstored xstored]. unfold blob. rewrite len_repeat. lia. }
    rewrite H. lia.
Qed.

(** The hypotheses of C78 are met by hostile bytes, and the bounds are strict. *)
Example C78_met : exists o, Parse x86_release 100 odd_doc 7 p1 sequential = Ok o /\ b2n (nth 8 odd_doc x00) = 0 /\
  nodes o = 2 /\ stored o = 1 /\ nesting o = 1 /\ len odd_doc = 44.
Proof. eexists. split; [vm_compute; reflexivity|]. repeat split. Qed.
