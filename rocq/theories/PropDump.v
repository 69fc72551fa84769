(** * Property C39: dump. *)
From Verif Require Import Base BaseLemmas ModelVarint ModelData ModelSecondary ModelObject
  ModelParse ModelWrapper ModelDump Spec ObjInd ValueProofs RoundTrip Samples PropRoundTrip.
From Coq Require Import Strings.String.
From Coq Require Import ZifyBool ZifyNat ZifyN.
Local Open Scope N_scope.
Ltac Zify.zify_post_hook ::= Z.to_euclidean_division_equations.

(** ** The outline of a value: a list of (indentation, text) lines *)
Definition type_name (x : scalar) : string :=
  match x with
  | VStr _ => "string" | VBytes _ => "bytes" | VCustom _ => "custom"
  | VNum I32 _ => "int32" | VNum U32 _ => "uint32" | VNum I64 _ => "int64" | VNum U64 _ => "uint64"
  | VNum F32 _ => "float" | VNum F64 _ => "double"
  end.

Definition titled (t : string) (b : bytes) : bytes := lit t ++ lit "[ " ++ b ++ lit " ]".

Fixpoint outline (v : value) (level : nat) : list (nat * bytes) :=
  match v with
  | VScalar x => [(level, titled "Data" (lit (type_name x)))]
  | VArr l => (level, titled "Array" (to_string (len l))) :: List.concat (rev (map (fun w => outline w (level + 1)%nat) l))
  | VMap l => (level, titled "Map" (to_string (len l))) ::
      flat_map (fun e => (level + 1, lit "< " ++ fst e ++ lit " > : ")%nat :: outline (snd e) (level + 2)%nat) l
  end.

Definition show (x : nat * bytes) : bytes := repeat (n2b 32) (fst x) ++ snd x.
Definition render (l : list (nat * bytes)) : bytes :=
  match l with [] => [] | x :: l' => show x ++ flat_map (fun y => newline :: show y) l' end.

(** How much deeper than the root the outline is indented. *)
Fixpoint indent_of (v : value) : nat :=
  match v with
  | VScalar _ => 0
  | VArr l => fold_right (fun w n => Nat.max (1 + indent_of w) n) 0%nat l
  | VMap l => fold_right (fun e n => Nat.max (2 + indent_of (snd e)) n) 1%nat l
  end.

(** Sizes are printed in decimal without leading zeros. *)
Inductive decimal : bytes -> N -> Prop :=
| dec_digit d : d < 10 -> decimal [n2b (48 + d)] d
| dec_more s n d : decimal s n -> 0 < n -> d < 10 -> decimal (s ++ [n2b (48 + d)]) (10 * n + d).

Lemma to_digits_decimal fuel n acc : (N.to_nat (N.log2 n) < fuel)%nat ->
  exists s, to_digits fuel n acc = s ++ acc /\ decimal s n.
Proof.
  revert n acc. induction fuel as [|fuel IH]; intros n acc Hf; [lia|]. cbn [to_digits].
  destruct (N.ltb_spec n 10).
  - exists [n2b (48 + n mod 10)]. split; [reflexivity|]. rewrite N.mod_small by lia. now constructor.
  - destruct (IH (n / 10) (n2b (48 + n mod 10) :: acc)) as (s & -> & Hs).
    + assert (N.log2 (n / 10) < N.log2 n); [|lia].
      apply N.log2_lt_pow2; [lia|].
      pose proof (N.log2_spec n ltac:(lia)) as [_ Hl]. rewrite N.pow_succ_r' in Hl. lia.
    + exists (s ++ [n2b (48 + n mod 10)]). split; [now rewrite <- app_assoc|].
      replace n with (10 * (n / 10) + n mod 10) at 2 by lia. constructor; [exact Hs|lia|lia].
Qed.

Theorem C39_sizes_decimal : forall n, decimal (to_string n) n.
Proof.
  intros n. destruct (to_digits_decimal (S (N.to_nat (N.log2 n))) n []) as (s & H & Hs); [lia|].
  unfold to_string. rewrite H, app_nil_r. exact Hs.
Qed.

Lemma type_name_ok x dt : match x with VStr _ => dt = BRIDGE_STRING | VBytes _ => dt = BRIDGE_BYTES | VCustom _ => dt = BRIDGE_CUSTOM
  | VNum t _ => dt = dt_of_num t end -> DataTypeToStr dt = lit (type_name x).
Proof. destruct x as [| | |[] n]; intros ->; reflexivity. Qed.

Lemma outline_head v level : exists h t, outline v level = h :: t.
Proof. destruct v; cbn; eauto. Qed.

Definition tail_lines (l : list (nat * bytes)) : bytes := flat_map (fun y => newline :: show y) l.

Lemma render_cons v level : [newline] ++ render (outline v level) = tail_lines (outline v level).
Proof. destruct (outline_head v level) as (h & t & ->). reflexivity. Qed.

Lemma blanks_ok level : (0 <= level)%Z -> blanks level = Ok (repeat (n2b 32) (Z.to_nat level)).
Proof. unfold blanks. intros. destruct (Z.ltb_spec level 0); [lia|reflexivity]. Qed.
Lemma int_add_ok level k : (level + k <= INT_MAX)%Z -> int_add level k = Ok (level + k)%Z.
Proof. unfold int_add. intros. destruct (Z.leb_spec (level + k) INT_MAX); [reflexivity|lia]. Qed.

(** A child's closure writes the child's outline. *)
Definition writes (f : bytes -> Z -> outcome bytes) (v : value) : Prop :=
  forall buf level, (0 <= level)%Z -> (level + Z.of_nat (indent_of v) <= INT_MAX)%Z ->
    f buf level = Ok (buf ++ render (outline v (Z.to_nat level))).

Lemma dump_array_ok fs l : Forall2 writes fs l -> forall buf level, (0 <= level)%Z ->
  (level + Z.of_nat (fold_right (fun w n => Nat.max (1 + indent_of w) n) 0%nat l) <= INT_MAX)%Z ->
  dump_array fs buf level = Ok (buf ++ tail_lines (flat_map (fun w => outline w (Z.to_nat level + 1)) l)).
Proof.
  induction 1 as [|f v fs l Hf HF IH]; intros buf level H0 Hm; cbn [dump_array flat_map].
  - cbn. now rewrite app_nil_r.
  - cbn [fold_right] in Hm. rewrite int_add_ok by lia. cbn [obind]. rewrite Hf by lia. cbn [obind].
    rewrite IH by lia. f_equal. unfold tail_lines at 2. rewrite flat_map_app. fold tail_lines.
    rewrite <- !app_assoc. f_equal. rewrite app_assoc. rewrite render_cons.
    replace (Z.to_nat (level + 1)) with (Z.to_nat level + 1)%nat by lia. reflexivity.
Qed.

Lemma dump_map_ok (es : list (outcome bytes * (bytes -> Z -> outcome bytes))) l :
  Forall2 (fun e q => fst e = Ok (fst q) /\ writes (snd e) (snd q)) es l -> forall buf level, (0 <= level)%Z ->
  (level + Z.of_nat (fold_right (fun e n => Nat.max (2 + indent_of (snd e)) n) 1%nat l) <= INT_MAX)%Z ->
  dump_map (repeat (n2b 32) (Z.to_nat (level + 1))) es buf level =
    Ok (buf ++ tail_lines (flat_map (fun e => (Z.to_nat level + 1, lit "< " ++ fst e ++ lit " > : ")%nat :: outline (snd e) (Z.to_nat level + 2)) l)).
Proof.
  induction 1 as [|[rk f] [k v] es l [Hk Hf] HF IH]; intros buf level H0 Hm; cbn [dump_map flat_map].
  - cbn. now rewrite app_nil_r.
  - cbn [fst snd] in *. subst rk. cbn [obind]. cbn [fold_right snd] in Hm. rewrite int_add_ok by lia. cbn [obind].
    rewrite Hf by lia. cbn [obind]. rewrite IH by lia. f_equal.
    unfold tail_lines at 2. rewrite flat_map_app. fold tail_lines.
    change (flat_map (fun y => newline :: show y) ((Z.to_nat level + 1, lit "< " ++ k ++ lit " > : ")%nat :: outline v (Z.to_nat level + 2)))
      with ((newline :: show (Z.to_nat level + 1, lit "< " ++ k ++ lit " > : ")%nat) ++ tail_lines (outline v (Z.to_nat level + 2))).
    rewrite <- render_cons. unfold show; cbn [fst snd].
    replace (Z.to_nat (level + 1)) with (Z.to_nat level + 1)%nat by lia.
    replace (Z.to_nat (level + 2)) with (Z.to_nat level + 2)%nat by lia.
    cbn [app]. repeat (rewrite <- !app_assoc; cbn [app]). reflexivity.
Qed.

Lemma max_app (l l' : list value) :
  fold_right (fun w n => Nat.max (1 + indent_of w) n) 0%nat (l ++ l') =
  Nat.max (fold_right (fun w n => Nat.max (1 + indent_of w) n) 0%nat l) (fold_right (fun w n => Nat.max (1 + indent_of w) n) 0%nat l').
Proof. induction l; cbn [app fold_right]; lia. Qed.
Lemma max_rev (l : list value) :
  fold_right (fun w n => Nat.max (1 + indent_of w) n) 0%nat (rev l) = fold_right (fun w n => Nat.max (1 + indent_of w) n) 0%nat l.
Proof. induction l; cbn [rev]; [reflexivity|]. rewrite max_app, IHl. cbn [fold_right]. lia. Qed.

Lemma dump_ok mem o v : denotes mem o v -> writes (dump mem o) v.
Proof.
  revert v. induction o as [|dt s|dt s|p size items IH|p size items IH|p size items IH] using obj_ind'; intros v Hd buf level H0 Hm;
    inversion Hd as [? ? x Hx|? ? x Hx|? ? ? l Hsz HI|? ? ? l Hsz HI|? ? ? l Hsz HI]; subst; cbn [dump].
  - unfold dump_data. rewrite blanks_ok by exact H0. cbn [obind outline render]. f_equal. f_equal.
    rewrite (type_name_ok x) by now destruct Hx. cbn [flat_map]. rewrite app_nil_r. unfold show, titled; cbn [fst snd].
    now rewrite <- app_assoc.
  - unfold dump_data. rewrite blanks_ok by exact H0. cbn [obind outline render]. f_equal. f_equal.
    rewrite (type_name_ok x) by now destruct Hx. cbn [flat_map]. rewrite app_nil_r. unfold show, titled; cbn [fst snd].
    now rewrite <- app_assoc.
  - unfold dump_head. rewrite blanks_ok by exact H0. cbn [obind].
    rewrite (dump_array_ok (map (dump mem) items) (rev l)); [|clear -IH HI| exact H0 |cbn [indent_of] in Hm; now rewrite max_rev].
    + cbn [outline render]. rewrite <- map_rev, <- flat_map_concat_map.
      f_equal. rewrite <- app_assoc. f_equal. unfold tail_lines. f_equal.
      unfold show, titled; cbn [fst snd]. replace (len items) with (len l)
        by (apply len_Forall2 in HI; rewrite HI; unfold len; now rewrite rev_length). reflexivity.
    + induction HI; cbn; constructor; inversion IH; subst; auto.
  - unfold dump_head. rewrite blanks_ok by exact H0. cbn [obind].
    assert (1 <= indent_of (VMap l))%nat by (cbn [indent_of]; clear; induction l; cbn [fold_right]; lia).
    rewrite int_add_ok by lia. cbn [obind]. rewrite blanks_ok by lia. cbn [obind].
    rewrite (dump_map_ok _ l); [|clear -IH HI|exact H0|exact Hm].
    + cbn [outline render]. f_equal. rewrite <- app_assoc. f_equal. unfold tail_lines. f_equal.
      unfold show, titled; cbn [fst snd]. replace (len items) with (len l) by (symmetry; eapply len_Forall2; eauto). reflexivity.
    + induction HI as [|x y items l [Hk Hv] HI IHI]; cbn; constructor; inversion IH; subst; cbn; auto. split; [congruence|auto].
  - unfold dump_head. rewrite blanks_ok by exact H0. cbn [obind].
    assert (1 <= indent_of (VMap l))%nat by (cbn [indent_of]; clear; induction l; cbn [fold_right]; lia).
    rewrite int_add_ok by lia. cbn [obind]. rewrite blanks_ok by lia. cbn [obind].
    rewrite (dump_map_ok _ l); [|clear -IH HI|exact H0|exact Hm].
    + cbn [outline render]. f_equal. rewrite <- app_assoc. f_equal. unfold tail_lines. f_equal.
      unfold show, titled; cbn [fst snd]. replace (len items) with (len l) by (symmetry; eapply len_Forall2; eauto). reflexivity.
    + induction HI as [|x y items l [Hk Hv] HI IHI]; cbn; constructor; inversion IH; subst; cbn; auto.
Qed.

(** C39.  [dump] appends the outline of the content and nothing else, for every
    indentation level that does not overflow an [int]. *)
Theorem C39_dump_outline : forall mem o v buf level,
  denotes mem o v -> (0 <= level)%Z -> (level + Z.of_nat (indent_of v) <= INT_MAX)%Z ->
  dump mem o buf level = Ok (buf ++ render (outline v (Z.to_nat level))).
Proof. intros. now apply dump_ok. Qed.

(** A negative level is refused with an exception (std::length_error). *)
Theorem C39_negative_level : forall mem o v buf level,
  denotes mem o v -> (level < 0)%Z -> dump mem o buf level = Throw ELogic.
Proof.
  intros mem o v buf level Hd Hl. assert (Hb : blanks level = Throw ELogic).
  { unfold blanks. destruct (Z.ltb_spec level 0); [reflexivity|lia]. }
  inversion Hd; subst; cbn [dump]; unfold dump_data, dump_head; rewrite Hb; reflexivity.
Qed.

(** Hence trees with the same content have the same dump, whether made of views
    or not. *)
Theorem C39_same_for_views : forall mem mem' o o' v buf level,
  denotes mem o v -> denotes mem' o' v -> (0 <= level)%Z -> (level + Z.of_nat (indent_of v) <= INT_MAX)%Z ->
  dump mem o buf level = dump mem' o' buf level.
Proof. intros. now rewrite (C39_dump_outline mem o v), (C39_dump_outline mem' o' v). Qed.

(** One sequential round trip dumps the outline with the maps reversed, two
    restore it. *)
Theorem C39_round_trips : forall c1 c2 c3 c4 mem ty1 ty2 p q r o v content1 buf1 fuel1 pr1 level,
  sane c1 -> sane c2 -> sane c3 -> sane c4 -> denotes mem o v -> (pr1 = true -> no_custom v) ->
  (0 <= level)%Z -> (level + Z.of_nat (indent_of v) <= INT_MAX)%Z ->
  Serialize c1 mem ty1 p o = Ok content1 -> fits c2 content1 -> (List.length content1 <= fuel1)%nat ->
  exists o1, Parse c2 fuel1 content1 buf1 q {| po_type := Normal; po_ref := pr1 |} = Ok o1 /\
    forall mem1, (pr1 = true -> mem1 buf1 = Some content1) ->
      exists content2, Serialize c3 mem1 ty2 q o1 = Ok content2 /\
        forall buf2 fuel2 pr2, fits c4 content2 -> (List.length content2 <= fuel2)%nat -> (pr2 = true -> no_custom v) ->
        exists o2, Parse c4 fuel2 content2 buf2 r {| po_type := Normal; po_ref := pr2 |} = Ok o2 /\
          forall mem2, (pr2 = true -> mem2 buf2 = Some content2) ->
            forall buf, dump mem2 o2 buf level = dump mem o buf level.
Proof.
  intros c1 c2 c3 c4 mem ty1 ty2 p q r o v content1 buf1 fuel1 pr1 level H1 H2 H3 H4 Hd Hnc Hl0 Hl Hs Hf Hfuel.
  destruct (C21_two_round_trips c1 c2 c3 c4 mem ty1 ty2 p q r o v content1 buf1 fuel1 pr1 Normal) as (o1 & HP1 & Ho1); auto.
  exists o1. split; [exact HP1|]. intros mem1 Hm1. destruct (Ho1 mem1 Hm1) as [_ (content2 & Hs2 & Ho2)].
  exists content2. split; [exact Hs2|]. intros buf2 fuel2 pr2 Hf2 Hfuel2 Hnc2.
  destruct (Ho2 buf2 fuel2 pr2 Hf2 Hfuel2 Hnc2) as (o2 & HP2 & Hd2). exists o2. split; [exact HP2|].
  intros mem2 Hm2 buf. eapply C39_same_for_views; eauto.
Qed.

Example C39_met : dump no_mem (OArray p0 2 [data_of_num I32 5; OMap p0 1 [(k_id, data_of_string k_tags)]]) (lit "x") 1 =
  Ok (lit "x" ++ lit " Array[ 2 ]" ++ [newline] ++ lit "  Data[ int32 ]" ++ [newline] ++
      lit "  Map[ 1 ]" ++ [newline] ++ lit "   < id > : " ++ [newline] ++ lit "    Data[ string ]").
Proof. reflexivity. Qed.

Example C39_met_sample : exists b, dump no_mem sample [] 0 = Ok b /\ len b = 202.
Proof. eexists. vm_compute. split; reflexivity. Qed.
