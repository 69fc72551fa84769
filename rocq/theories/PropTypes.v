(** * Properties C65, C66: the variant's storage, and which types adaptor accepts. *)
From Verif Require Import Base BaseLemmas ModelTypes.
From Coq Require Import ZifyBool ZifyNat ZifyN.

Lemma is_same_spec a b : reflect (a = b) (is_same a b).
Proof. unfold is_same. destruct (ty_eq_dec a b); constructor; assumption. Qed.

Lemma Count_len Ts : Count Ts = len Ts.
Proof.
  unfold len. induction Ts as [|T Ts IH]; [reflexivity|]. destruct Ts; [reflexivity|]. change (1 + Count (t :: Ts) = N.of_nat (length (T :: t :: Ts))).
  rewrite IH. cbn [length]. lia.
Qed.

Lemma Index_spec T Ts : Ts <> [] -> (Index T Ts < len Ts <-> In T Ts).
Proof.
  unfold len. induction Ts as [|U Ts IH]; [congruence|]. intros _. destruct Ts as [|V Ts].
  - cbn. destruct (is_same_spec T U) as [->|Hne]; [split; intros; [now left|lia]|]. split; [lia|]. intros [->|[]]. congruence.
  - change (Index T (U :: V :: Ts)) with (if is_same T U then 0 else 1 + Index T (V :: Ts)). specialize (IH ltac:(discriminate)).
    destruct (is_same_spec T U) as [->|Hne]; [split; intros; [now left|cbn; lia]|].
    assert (E : In T (U :: V :: Ts) <-> In T (V :: Ts)) by (split; [intros [->|H]; [congruence|exact H]|now right]).
    rewrite E, <- IH. cbn [length]. lia.
Qed.

Lemma NotExist_spec T Ts : NotExist T Ts = true <-> ~ In T Ts.
Proof.
  induction Ts as [|U Ts IH]; [cbn; tauto|]. destruct Ts as [|V Ts].
  - cbn. destruct (is_same_spec T U) as [->|Hne]; cbn; [split; [discriminate|tauto]|]. split; [intros _ [->|[]]; congruence|reflexivity].
  - change (NotExist T (U :: V :: Ts)) with (if is_same T U then false else NotExist T (V :: Ts)).
    destruct (is_same_spec T U) as [->|Hne]; [split; [discriminate|intros H; exfalso; apply H; now left]|]. rewrite IH.
    split; intros H; [intros [->|Hin]; [congruence|auto]|intros Hin; apply H; now right].
Qed.

Lemma Unique_spec Ts : Unique Ts = true <-> NoDup Ts.
Proof.
  induction Ts as [|U Ts IH]; [cbn; split; constructor|]. destruct Ts as [|V Ts].
  - cbn. split; [intros _; repeat constructor; intros []|reflexivity].
  - change (Unique (U :: V :: Ts)) with (Unique (V :: Ts) && NotExist U (V :: Ts))%bool. rewrite Bool.andb_true_iff, IH, NotExist_spec.
    split; [intros [? ?]; now constructor|intros H; inversion H; auto].
Qed.

Lemma max_op_spec op Ts : Ts <> [] -> exists m, max_op op Ts = Some m /\ (forall T, In T Ts -> op T <= m) /\ exists T, In T Ts /\ op T = m.
Proof.
  induction Ts as [|U Ts IH]; [congruence|]. intros _. destruct Ts as [|V Ts].
  - exists (op U). cbn. split; [reflexivity|]. split; [intros T [->|[]]; lia|]. exists U. auto.
  - destruct (IH ltac:(discriminate)) as (m & E & Hm & T & HT & Em).
    exists (if m <? op U then op U else m). split; [cbn in *; destruct Ts; [injection E as <-; reflexivity|now rewrite E]|].
    destruct (N.ltb_spec m (op U)) as [Hlt|Hge]; (split; [intros W [<-|HW]; [|specialize (Hm W HW)]; lia|]).
    + exists U. split; [now left|reflexivity].
    + exists T. split; [now right|exact Em].
Qed.

Definition power_of_two (n : N) : Prop := exists k, n = 2 ^ k.

(** A sequence of constructions, the previous object being destroyed in between. *)
Fixpoint constructs (size_of : ty -> N) (Ts : list ty) (l : list (ty * bytes)) (b : vbuf) : option (outcome vbuf) :=
  match l with
  | [] => Some (Ok b)
  | (T, rep) :: l' =>
      match v_construct size_of Ts T rep b with
      | Some (Ok b') => constructs size_of Ts l' b'
      | r => r
      end
  end.

(** C65.  For every list of alternatives on every platform: the class template can be
    instantiated exactly when the alternatives differ; a member function for T
    compiles exactly when T is one of them; the buffer is as large as the largest
    alternative and its alignment serves all of them; and after any sequence of
    constructions reading back the last type gives the object constructed last,
    without ever leaving the buffer. *)
Theorem C65_variant_storage : forall size_of align_of Ts,
  Ts <> [] -> (forall T, power_of_two (align_of T)) ->
  (Unique Ts = true <-> NoDup Ts) /\
  (forall T, ValidType Ts T = true <-> In T Ts) /\
  exists size align, MaxSize size_of Ts = Some size /\ MaxAlign align_of Ts = Some align /\
    (forall T, In T Ts -> size_of T <= size /\ forall addr, addr mod align = 0 -> addr mod align_of T = 0) /\
    (exists T, In T Ts /\ size_of T = size) /\ (exists T, In T Ts /\ align_of T = align) /\
    forall b0 l T rep, len b0 = size ->
      (forall T' rep', In (T', rep') (l ++ [(T, rep)]) -> In T' Ts /\ len rep' = size_of T') ->
      exists b, constructs size_of Ts (l ++ [(T, rep)]) b0 = Some (Ok b) /\ len b = size /\ v_get size_of Ts T b = Some (Ok rep).
Proof.
  intros size_of align_of Ts Hne Hpow. split; [apply Unique_spec|].
  assert (HV : forall T, ValidType Ts T = true <-> In T Ts).
  { intros T. unfold ValidType. rewrite N.ltb_lt, Count_len. now apply Index_spec. }
  split; [exact HV|].
  destruct (max_op_spec size_of Ts Hne) as (size & Es & Hs & Ts1 & HTs1 & Es1).
  destruct (max_op_spec align_of Ts Hne) as (align & Ea & Ha & Ta & HTa & Ea1).
  exists size, align. split; [exact Es|]. split; [exact Ea|]. split.
  { intros T HT. split; [now apply Hs|]. intros addr Hm. specialize (Ha T HT). rewrite <- Ea1 in Ha, Hm.
    destruct (Hpow T) as [k Ek], (Hpow Ta) as [k' Ek']. rewrite Ek, Ek' in *.
    assert (Hk : k <= k') by (apply N.pow_le_mono_r_iff with (a := 2); [lia|exact Ha]).
    apply N.mod_divide in Hm; [|apply N.pow_nonzero; lia]. apply N.mod_divide; [apply N.pow_nonzero; lia|].
    eapply N.divide_trans; [|exact Hm]. exists (2 ^ (k' - k)). rewrite <- N.pow_add_r. f_equal. lia. }
  split; [eauto|]. split; [eauto|].
  intros b0 l T rep Hb0 Hl.
  assert (Hstep : forall T rep b, len b = size -> In T Ts -> len rep = size_of T ->
     v_construct size_of Ts T rep b = Some (Ok (rep ++ skipn (N.to_nat (size_of T)) b)) /\ len (rep ++ skipn (N.to_nat (size_of T)) b) = size).
  { intros T' rep' b Hb HT' Hr. unfold v_construct. rewrite (proj2 (HV T') HT'). cbn. specialize (Hs T' HT'). rewrite Hb.
    destruct (N.ltb_spec size (size_of T')); [lia|]. split; [reflexivity|]. unfold len in *. rewrite app_length, skipn_length. lia. }
  revert b0 Hb0. induction l as [|[T' rep'] l IH]; intros b0 Hb0.
  - destruct (Hl T rep) as [HT Hr]; [now left|]. destruct (Hstep T rep b0 Hb0 HT Hr) as [E1 E2].
    exists (rep ++ skipn (N.to_nat (size_of T)) b0). cbn. rewrite E1. split; [reflexivity|]. split; [exact E2|].
    unfold v_get. rewrite (proj2 (HV T) HT). cbn. rewrite E2. specialize (Hs T HT). destruct (N.ltb_spec size (size_of T)); [lia|].
    do 2 f_equal. rewrite <- Hr. unfold len. rewrite Nat2N.id. rewrite firstn_app, Nat.sub_diag, firstn_all. cbn. apply app_nil_r.
  - destruct (Hl T' rep') as [HT Hr]; [now left|]. destruct (Hstep T' rep' b0 Hb0 HT Hr) as [E1 E2].
    cbn. rewrite E1. apply IH; [|exact E2]. intros T'' rep'' Hin. apply Hl. now right.
Qed.

(** Both variants of the library, with the sizes of x86-64 Linux. *)
Definition x86_size (t : ty) : N :=
  match t with TVec _ => 24 | TString => 32 | TStringView => 16 | TI64 | TU64 | TDouble => 8 | TChar => 1 | TMapS _ | TMapV _ => 56 | _ => 4 end.
Definition x86_align (t : ty) : N :=
  match t with TI32 | TU32 | TFloat => 4 | TChar => 1 | _ => 8 end.
Example C65_met : Unique bridge_variant = true /\ Unique bridge_view_variant = true /\
  MaxSize x86_size bridge_variant = Some 32 /\ MaxAlign x86_align bridge_variant = Some 8 /\
  MaxSize x86_size bridge_view_variant = Some 16 /\
  ValidType bridge_variant TStringView = false /\ ValidType bridge_view_variant TStringView = true /\
  (forall T, power_of_two (x86_align T)) /\ Unique [TI32; TString; TI32] = false.
Proof.
  repeat split; try reflexivity.
  intros T. destruct T; (exists 2; reflexivity) || (exists 0; reflexivity) || (exists 3; reflexivity).
Qed.

(** The two variants of the library: Data holds the six number types, std::string and
    std::vector<char>; DataView holds the six number types and std::string_view; and
    nothing else can be put into them. *)
Inductive number_type : ty -> Prop :=
| nt_i32 : number_type TI32 | nt_u32 : number_type TU32 | nt_i64 : number_type TI64 | nt_u64 : number_type TU64
| nt_f32 : number_type TFloat | nt_f64 : number_type TDouble.
Theorem C65_data_alternatives : forall T,
  (ValidType bridge_variant T = true <-> number_type T \/ T = TString \/ T = TVec TChar) /\
  (ValidType bridge_view_variant T = true <-> number_type T \/ T = TStringView) /\
  NoDup bridge_variant /\ NoDup bridge_view_variant.
Proof.
  intros T. assert (G : forall Ts, Ts <> [] -> ValidType Ts T = true <-> In T Ts).
  { intros Ts Hne. unfold ValidType. rewrite N.ltb_lt, Count_len. now apply Index_spec. }
  rewrite !G by discriminate. split; [|split; [|split; apply Unique_spec; reflexivity]]; cbn [bridge_variant bridge_view_variant In]; split.
  - intros H. repeat destruct H as [<-|H]; try (left; constructor); auto. contradiction.
  - intros [[]|[->| ->]]; tauto.
  - intros H. repeat destruct H as [<-|H]; try (left; constructor); auto. contradiction.
  - intros [[]| ->]; tauto.
Qed.

(** ** C66 *)

(** [t] is [k] layers of vector / unordered_map around [leaf]. *)
Inductive layers : nat -> ty -> ty -> Prop :=
| ly_leaf t : layers 0 t t
| ly_vec k leaf t : layers k leaf t -> layers (S k) leaf (TVec t)
| ly_maps k leaf t : layers k leaf t -> layers (S k) leaf (TMapS t)
| ly_mapv k leaf t : layers k leaf t -> layers (S k) leaf (TMapV t).

(** The supported element types, listed. *)
Definition element (t : ty) : Prop :=
  In t [TI32; TU32; TI64; TU64; TFloat; TDouble; TString] \/ exists n, t = TCustom n.

Lemma bridge_type_spec t : bridge_type t = true <-> element t \/ t = TVec TChar.
Proof.
  split.
  - destruct t as [| | | | | | | | | | | |t| |]; intros H; cbn in H; try discriminate H; try (left; left; cbn; tauto); try (left; right; eauto; fail).
    right. unfold bridge_type, bridge_built_in_type, bridge_binary in H. cbn in H. destruct (is_same_spec (TVec TChar) (TVec t)); [congruence|discriminate].
  - intros [[H|(n & ->)]| -> ]; [|reflexivity|reflexivity]. cbn in H. repeat destruct H as [<-|H]; try reflexivity. destruct H.
Qed.

Lemma container_layers t : bridge_container_type t = true -> exists u, (t = TVec u \/ t = TMapS u \/ t = TMapV u).
Proof. destruct t; cbn; intros H; try discriminate H; eauto. Qed.

Lemma adaptor_type_spec t : bridge_adaptor_type t = true <-> exists k leaf, layers (S k) leaf t /\ element leaf.
Proof.
  unfold bridge_adaptor_type. split.
  - revert t. assert (G : forall t u, AdaptorTrait t = Some u -> bridge_type u = true -> bridge_container_type u = false /\ exists k, layers (S k) u t).
    { induction t; intros u H Hu; cbn in H; try discriminate H;
        (destruct (bridge_container_type t) eqn:E;
          [destruct (IHt u H Hu) as [Hc (k & Hk)]; split; [exact Hc|]; exists (S k); constructor; exact Hk
          |injection H as <-; split; [exact E|]; exists 0%nat; constructor; constructor]). }
    intros t H. destruct (AdaptorTrait t) as [u|] eqn:E; [|discriminate]. destruct (G t u E H) as [Hc (k & Hk)]. exists k, u. split; [exact Hk|].
    apply bridge_type_spec in H as [H| -> ]; [exact H|discriminate Hc].
  - intros (k & leaf & HL & He). assert (Hb : bridge_type leaf = true) by (apply bridge_type_spec; now left).
    assert (Hc : bridge_container_type leaf = false).
    { destruct He as [H|(n & ->)]; [|reflexivity]. cbn in H. repeat destruct H as [<-|H]; try reflexivity. destruct H. }
    assert (E : AdaptorTrait t = Some leaf); [|now rewrite E].
    remember (S k) as m eqn:Em. revert k Em. induction HL as [t|k' leaf t HL IH|k' leaf t HL IH|k' leaf t HL IH]; intros k Em; [discriminate Em| | |];
      (cbn; injection Em as ->; inversion HL; subst; [rewrite Hc; reflexivity| | |];
       cbn [bridge_container_type]; eapply IH; eauto).
Qed.

Lemma compiles_eq cv t : adaptor_compiles cv t =
  match viable t with
  | [OvData] => match Data_from cv {| e_ty := t; e_const := true; e_cat := LV |} with Some _ => true | None => false end
  | [_] => match t with TVec T | TMapS T | TMapV T => adaptor_compiles cv T | _ => false end
  | _ => false
  end.
Proof. destruct t; reflexivity. Qed.

(** A class converts to exactly one of std::string and std::vector<char>. *)
Definition one_conversion (cv : conversions) (n : N) : Prop :=
  (to_string cv n = true /\ to_bytes cv n = false) \/ (to_string cv n = false /\ to_bytes cv n = true).

(** The elements a container may hold so that the body of adaptor compiles. *)
Definition good_element (cv : conversions) (t : ty) : Prop :=
  In t [TI32; TU32; TI64; TU64; TFloat; TDouble; TString] \/ exists n, t = TCustom n /\ one_conversion cv n.

(** C66.  For every type: at most one overload of adaptor applies; one applies
    exactly to the supported element types, byte vectors, any nesting of vector and
    unordered_map around an element type, and a single container of byte vectors (not
    a deeper one); and the calls made inside then compile, provided the elements are
    no classes with SerializeToBridge (or these happen to convert to exactly one of
    std::string and std::vector<char>).  Missing: classes with SerializeToBridge in
    general, see the refutation below. *)
Theorem C66_adaptor_types_partial : forall cv t,
  (length (viable t) <= 1)%nat /\
  (viable t <> [] <->
     (exists k leaf, layers k leaf t /\ element leaf) \/ (exists k, (k <= 1)%nat /\ layers k (TVec TChar) t)) /\
  (adaptor_compiles cv t = true <->
     (exists k leaf, layers k leaf t /\ good_element cv leaf) \/ (exists k, (k <= 1)%nat /\ layers k (TVec TChar) t)).
Proof.
  intros cv.
  assert (Hb : forall t, bridge_type t = true -> bridge_container_type t = true -> t = TVec TChar).
  { intros t H Hc. apply bridge_type_spec in H as [[H|(n & ->)]| -> ]; [|discriminate Hc|reflexivity].
    cbn in H. repeat destruct H as [<-|H]; try discriminate Hc. destruct H. }
  assert (Hone : forall t, (length (viable t) <= 1)%nat).
  { intros t. unfold viable. destruct (bridge_type t) eqn:E.
    - destruct (bridge_container_type t) eqn:Ec; [rewrite (Hb t E Ec); cbn; lia|]. destruct t; try discriminate Ec; cbn; lia.
    - destruct t; cbn; try lia; match goal with |- context [if ?b then _ else _] => destruct b end; cbn; lia. }
  assert (Hin : forall t, viable t <> [] <-> bridge_type t = true \/ exists u, (t = TVec u \/ t = TMapS u \/ t = TMapV u) /\ (bridge_adaptor_type u || bridge_type u)%bool = true).
  { intros t. unfold viable. destruct (bridge_type t) eqn:E; [split; [auto|cbn; discriminate]|]. cbn [app]. split.
    - intros H. right. destruct t; try congruence;
        (exists t; split; [auto|]; match goal with H : (if ?b then _ else _) <> _ |- _ => destruct b; [reflexivity|congruence] end).
    - intros [H|(u & [->|[->| -> ]] & H)]; [discriminate|rewrite H; discriminate..]. }
  assert (Hdata : forall t, bridge_type t = true -> viable t = [OvData]).
  { intros t H. pose proof (Hone t) as H1. unfold viable in *. rewrite H in *. cbn [app] in *.
    match goal with |- _ :: ?l = _ => destruct l; [reflexivity|cbn in H1; lia] end. }
  assert (Hvia : forall t, viable t <> [] <->
     (exists k leaf, layers k leaf t /\ element leaf) \/ (exists k, (k <= 1)%nat /\ layers k (TVec TChar) t)).
  { intros t. rewrite Hin. split.
    - intros [Hv|(u & Hu & Hc)].
      + apply bridge_type_spec in Hv as [Hv| -> ]; [left; exists 0%nat, t; split; [apply ly_leaf|exact Hv]|right; exists 0%nat; split; [lia|apply ly_leaf]].
      + assert (HL : forall k leaf, layers k leaf u -> layers (S k) leaf t) by (intros k leaf HL; destruct Hu as [->|[->| -> ]]; constructor; exact HL).
        apply Bool.orb_true_iff in Hc as [Hc|Hc].
        * apply adaptor_type_spec in Hc as (k & leaf & HL' & He). left. exists (S (S k)), leaf. split; [apply HL, HL'|exact He].
        * apply bridge_type_spec in Hc as [Hc| -> ];
            [left; exists 1%nat, u; split; [apply HL, ly_leaf|exact Hc]|right; exists 1%nat; split; [lia|apply HL, ly_leaf]].
    - intros [(k & leaf & HL & He)|(k & Hk & HL)].
      + destruct k as [|[|k]].
        * inversion HL; subst. left. apply bridge_type_spec. now left.
        * right. inversion HL; subst; (eexists; split; [eauto|]); apply Bool.orb_true_iff; right;
            match goal with H : layers 0 _ _ |- _ => inversion H; subst end; apply bridge_type_spec; now left.
        * right. inversion HL; subst; (eexists; split; [eauto|]); apply Bool.orb_true_iff; left; apply adaptor_type_spec; eauto.
      + destruct k as [|[|k]]; [| |lia].
        * inversion HL; subst. now left.
        * right. inversion HL; subst; (eexists; split; [eauto|]); apply Bool.orb_true_iff; right;
            match goal with H : layers 0 _ _ |- _ => inversion H; subst end; reflexivity. }
  assert (Hgood : forall t, bridge_type t = true -> (adaptor_compiles cv t = true <-> good_element cv t \/ t = TVec TChar)).
  { intros t Ht. rewrite compiles_eq, (Hdata t Ht). apply bridge_type_spec in Ht as [[Ht|(n & ->)]| -> ].
    - assert (G : good_element cv t) by (left; exact Ht). split; [auto|]. intros _.
      cbn in Ht. repeat destruct Ht as [<-|Ht]; try reflexivity. destruct Ht.
    - unfold Data_from, serialize_proxy_alt, serialize_variant. cbn. unfold good_element, one_conversion.
      destruct (to_string cv n) eqn:E1, (to_bytes cv n) eqn:E2; cbn; split; try discriminate; try reflexivity;
        intros H; try (left; right; exists n; rewrite E1, E2; tauto);
        (destruct H as [[H|(m & H & Hm)]|H]; [cbn in H; intuition discriminate|injection H as <-; rewrite E1, E2 in Hm; intuition discriminate|discriminate H]).
    - split; auto. }
  assert (Hstep : forall u t, (t = TVec u \/ t = TMapS u \/ t = TMapV u) -> bridge_type t = false ->
     (bridge_adaptor_type u || bridge_type u)%bool = true -> adaptor_compiles cv t = adaptor_compiles cv u).
  { intros u t Ht E Hc. rewrite compiles_eq. unfold viable. rewrite E. destruct Ht as [->|[->| -> ]]; rewrite Hc; reflexivity. }
  assert (Hel : forall t, good_element cv t -> element t) by (intros t [H|(n & H & _)]; [now left|right; eauto]).
  assert (Hnc : forall k leaf t, layers k leaf t -> element leaf -> t <> TVec TChar).
  { intros k leaf t HL He ->. inversion HL; subst.
    - destruct He as [H|(n & H)]; [cbn in H; intuition discriminate|discriminate H].
    - match goal with H : layers _ _ TChar |- _ => inversion H; subst end. destruct He as [H|(n & H)]; [cbn in H; intuition discriminate|discriminate H]. }
  assert (Huniq : forall k leaf t, layers k leaf t -> element leaf -> forall k' leaf', layers k' leaf' t -> element leaf' \/ leaf' = TVec TChar -> leaf = leaf').
  { intros k leaf t HL He. induction HL as [t|k leaf t HL IH|k leaf t HL IH|k leaf t HL IH]; intros k' leaf' HL' He'.
    - inversion HL'; subst; try reflexivity; exfalso; (destruct He as [He|(n & He)]; [cbn in He; intuition discriminate|discriminate He]).
    - inversion HL'; subst; [|eapply IH; eauto].
      exfalso. destruct He' as [[H|(n & H)]|H]; [cbn in H; intuition discriminate|discriminate H|].
      eapply (Hnc (S k) leaf (TVec t)); [constructor; exact HL|exact He|exact H].
    - inversion HL'; subst; [|eapply IH; eauto].
      exfalso. destruct He' as [[H|(n & H)]|H]; [cbn in H; intuition discriminate|discriminate H|discriminate H].
    - inversion HL'; subst; [|eapply IH; eauto].
      exfalso. destruct He' as [[H|(n & H)]|H]; [cbn in H; intuition discriminate|discriminate H|discriminate H]. }
  (* the element at the bottom decides *)
  assert (Hbot : forall t k leaf, layers k leaf t -> element leaf -> adaptor_compiles cv t = true <-> good_element cv leaf).
  { intros t k leaf HL He. revert He. induction HL as [t|k leaf t HL IH|k leaf t HL IH|k leaf t HL IH]; intros He.
    - rewrite Hgood by (apply bridge_type_spec; now left). split; [|auto]. intros [H|H]; [exact H|]. exfalso. exact (Hnc 0%nat t t (ly_leaf t) He H).
    - destruct (bridge_type (TVec t)) eqn:Eb.
      { exfalso. eapply (Hnc (S k) leaf (TVec t)); [constructor; exact HL|exact He|]. now apply Hb. }
      rewrite (Hstep t (TVec t) ltac:(auto) Eb); [now apply IH|]. apply Bool.orb_true_iff.
      destruct k as [|k]; [right; inversion HL; subst; apply bridge_type_spec; now left|left; apply adaptor_type_spec; eauto].
    - rewrite (Hstep t (TMapS t) ltac:(auto) eq_refl); [now apply IH|]. apply Bool.orb_true_iff.
      destruct k as [|k]; [right; inversion HL; subst; apply bridge_type_spec; now left|left; apply adaptor_type_spec; eauto].
    - rewrite (Hstep t (TMapV t) ltac:(auto) eq_refl); [now apply IH|]. apply Bool.orb_true_iff.
      destruct k as [|k]; [right; inversion HL; subst; apply bridge_type_spec; now left|left; apply adaptor_type_spec; eauto]. }
  intros t. split; [apply Hone|]. split; [apply Hvia|]. split.
  - intros H. assert (Hv : viable t <> []) by (rewrite compiles_eq in H; intros E; rewrite E in H; discriminate H).
    apply Hvia in Hv as [(k & leaf & HL & He)|Hv]; [|right; exact Hv]. left. exists k, leaf. split; [exact HL|]. now apply (Hbot t k leaf HL He).
  - intros [(k & leaf & HL & He)|(k & Hk & HL)]; [now apply (Hbot t k leaf HL (Hel _ He))|].
    assert (Hbytes : adaptor_compiles cv (TVec TChar) = true) by reflexivity.
    destruct k as [|[|k]]; [| |lia].
    + inversion HL; subst. exact Hbytes.
    + inversion HL; subst; match goal with H : layers 0 _ _ |- _ => inversion H; subst end; reflexivity.
Qed.

Definition no_conversions : conversions := {| to_string := fun _ => false; to_bytes := fun _ => false; to_view := fun _ => false |}.

(** The full statement (if an overload applies, its body compiles) is false: a class
    with SerializeToBridge and without conversions satisfies the constraint, but
    bp.data(t) with a const lvalue does not compile, so neither does adaptor for it or
    any container of it. *)
Theorem C66_custom_refuted : forall cv k t n,
  ~ one_conversion cv n -> layers k (TCustom n) t -> viable t <> [] /\ adaptor_compiles cv t = false.
Proof.
  intros cv k t n Hn HL. assert (He : element (TCustom n)) by (right; eauto).
  destruct (C66_adaptor_types_partial cv t) as (_ & Hv & Hc). split; [apply Hv; left; eauto|].
  destruct (adaptor_compiles cv t) eqn:E; [|reflexivity]. exfalso.
  assert (G : forall k leaf t, layers k leaf t -> leaf = TCustom n -> forall k' leaf', layers k' leaf' t -> good_element cv leaf' \/ leaf' = TVec TChar -> False).
  { clear - Hn. intros k leaf t HL E. subst leaf. remember (TCustom n) as lf eqn:El.
    induction HL as [t|k lf t HL IH|k lf t HL IH|k lf t HL IH]; intros k' leaf' HL' Hg; inversion HL'; subst;
      try (eapply (IH eq_refl); [eassumption|exact Hg]; fail);
      destruct Hg as [[Hg|(m & Hg & Hm)]|Hg]; try (cbn in Hg; intuition discriminate); try discriminate Hg;
      try (injection Hg as <-; exact (Hn Hm)).
    injection Hg as ->. inversion HL. }
  destruct (proj1 Hc eq_refl) as [(k' & leaf' & HL' & Hg)|(k' & Hk' & HL')]; eapply (G k (TCustom n) t HL eq_refl); eauto.
Qed.

Example C66_met : adaptor_compiles no_conversions (TMapS (TVec (TMapV (TVec TDouble)))) = true /\
  ~ one_conversion no_conversions 3 /\ layers 2 (TCustom 3) (TMapS (TVec (TCustom 3))) /\
  adaptor_compiles no_conversions (TVec (TVec TChar)) = true /\ adaptor_compiles no_conversions (TVec (TVec (TVec TChar))) = false /\
  adaptor_compiles no_conversions TChar = false /\ adaptor_compiles no_conversions (TCharArray 4) = false /\ viable (TVec TChar) = [OvData].
Proof. unfold one_conversion. cbn. repeat split; try (intuition discriminate). repeat constructor. Qed.
