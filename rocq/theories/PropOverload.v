(** * Property C87: which C++ types the Data API accepts, and what it records. *)
From Verif Require Import Base BaseLemmas ModelData ModelObject ModelWrapper ModelTypes PropTypes.
From Coq Require Import ZifyBool ZifyNat ZifyN.

(** The table of the README: what the storage holds under each tag. *)
Inductive tag_holds : N -> ty -> Prop :=
| th_bytes : tag_holds BRIDGE_BYTES (TVec TChar)
| th_string : tag_holds BRIDGE_STRING TString
| th_i32 : tag_holds BRIDGE_INT32 TI32
| th_u32 : tag_holds BRIDGE_UINT32 TU32
| th_i64 : tag_holds BRIDGE_INT64 TI64
| th_u64 : tag_holds BRIDGE_UINT64 TU64
| th_f32 : tag_holds BRIDGE_FLOAT TFloat
| th_f64 : tag_holds BRIDGE_DOUBLE TDouble
| th_custom : tag_holds BRIDGE_CUSTOM (TVec TChar).

(** ... and under each tag of a DataView. *)
Inductive view_tag_holds : N -> ty -> Prop :=
| vt_bytes : view_tag_holds BRIDGE_BYTES TStringView
| vt_string : view_tag_holds BRIDGE_STRING TStringView
| vt_num dt t : number_type t -> tag_holds dt t -> view_tag_holds dt t.

(** A non-const temporary (or moved object). *)
Definition movable (e : expr) : Prop := e_const e = false /\ e_cat e = RV.

(** The argument's own tag, as a user would list them. *)
Inductive own_tag : ty -> N -> Prop :=
| ot_num t dt : number_type t -> tag_holds dt t -> own_tag t dt
| ot_string : own_tag TString BRIDGE_STRING
| ot_bytes : own_tag (TVec TChar) BRIDGE_BYTES
| ot_array n : own_tag (TCharArray n) BRIDGE_STRING
| ot_custom n : own_tag (TCustom n) BRIDGE_CUSTOM.

Ltac by_type t := destruct t as [| | | | | | | | |m|m|m|[]| |].

(** C87, writing.  [Data(x)], [bp.data(x)] and [d = x] compile exactly for the numbers,
    std::string, std::vector<char>, named character arrays and string literals, custom
    objects that are non-const temporaries -- and custom objects of other kinds exactly
    if the class converts to one of std::string and std::vector<char>.  The recorded tag
    is the one of the argument's type. *)
Theorem C87_data_accepts : forall cv e,
  ((exists r, Data_from cv e = Some r) <->
     number_type (e_ty e) \/ e_ty e = TString \/ e_ty e = TVec TChar \/
     (exists n, e_ty e = TCharArray n /\ e_cat e = LV) \/
     (exists n, e_ty e = TCustom n /\ (movable e \/ one_conversion cv n))) /\
  (forall dt alt, Data_from cv e = Some (dt, alt) -> own_tag (e_ty e) dt).
Proof.
  intros cv [t c k]. unfold Data_from, serialize_proxy_alt, serialize_variant, custom_arg, DataTypeTrait, movable, one_conversion.
  cbn [e_ty e_const e_cat forward_arg a_ty a_const a_ref].
  assert (Hnum : forall u, ~ number_type u -> u <> TString -> u <> TVec TChar -> (forall n, u <> TCharArray n) -> (forall n, u <> TCustom n) ->
    ~ (number_type u \/ u = TString \/ u = TVec TChar \/ (exists n, u = TCharArray n /\ k = LV) \/ (exists n, u = TCustom n /\ (c = false /\ k = RV \/ one_conversion cv n)))).
  { intros u H1 H2 H3 H4 H5 [H|[H|[H|[(n & H & _)|(n & H & _)]]]]; [tauto..|exact (H4 n H)|exact (H5 n H)]. }
  by_type t; cbn [bridge_custom_type InnerDataTypeTrait andb];
    try (split; [split; [intros _|intros _; eexists; reflexivity]|intros dt alt E; injection E as <- <-; repeat constructor; fail];
         solve [left; constructor|right; left; reflexivity|right; right; left; reflexivity]);
    try (split; [split; [intros [r E]; discriminate E|intros H; exfalso; revert H; apply Hnum; try (intros H; inversion H; fail); discriminate]|discriminate]).
  - destruct k; (split; [split|]).
    + intros _. right; right; right; left. eauto.
    + intros _. eexists. reflexivity.
    + intros dt alt E. injection E as <- <-. apply ot_array.
    + intros [r E]. discriminate E.
    + intros [H|[H|[H|[(n & H & H')|(n & H & _)]]]]; try discriminate; inversion H.
    + discriminate.
  - destruct c, k, (to_string cv m) eqn:E1, (to_bytes cv m) eqn:E2; cbn [negb andb];
      (split; [split; [|] |
         intros dt alt E; try discriminate E; injection E as <- <-; apply ot_custom]);
      try (intros _; eexists; reflexivity);
      try (intros [r E]; discriminate E);
      try (intros _; right; right; right; right; exists m; split; [reflexivity|]; rewrite ?E1, ?E2; tauto);
      (intros [H|[H|[H|[(n & H & H')|(n & H & H')]]]]; try discriminate; [inversion H|]; injection H as <-; rewrite E1, E2 in H'; intuition discriminate).
Qed.

(** C87, writing: what is stored is what the tag says, provided a custom object is
    passed as a non-const temporary, or its class does not convert to std::string. *)
Theorem C87_tag_matches_partial : forall cv e dt alt,
  Data_from cv e = Some (dt, alt) ->
  (forall n, e_ty e = TCustom n -> movable e \/ to_string cv n = false) ->
  tag_holds dt alt.
Proof.
  intros cv [t c k] dt alt. unfold Data_from, serialize_proxy_alt, serialize_variant, custom_arg, DataTypeTrait, movable.
  cbn [e_ty e_const e_cat forward_arg a_ty a_const a_ref].
  by_type t; cbn [bridge_custom_type InnerDataTypeTrait andb]; intros E H; try discriminate E; try (injection E as <- <-; constructor; fail).
  - destruct k; [injection E as <- <-; constructor|discriminate E].
  - specialize (H m eq_refl).
    destruct c, k, (to_string cv m) eqn:E1, (to_bytes cv m); cbn [negb andb] in E; try discriminate E; try (injection E as <- <-; constructor; fail);
      destruct H as [[H1 H2]|H]; discriminate.
Qed.

(** Without the proviso it is false: a named object of a class that has
    SerializeToBridge and also converts to std::string is stored as a std::string under
    the tag CUSTOM; reading it back, serializing it and assigning to it then use the
    string as a std::vector<char>. *)
Theorem C87_tag_refuted :
  exists cv e, Data_from cv e = Some (BRIDGE_CUSTOM, TString) /\ ~ tag_holds BRIDGE_CUSTOM TString /\
    forall s, Data_Get CCustom BRIDGE_CUSTOM (SStr s) = UB.
Proof.
  exists {| to_string := fun _ => true; to_bytes := fun _ => false; to_view := fun _ => false |}, {| e_ty := TCustom 0; e_const := false; e_cat := LV |}.
  split; [reflexivity|]. split; [intros H; inversion H|]. intros s. reflexivity.
Qed.

(** C87, views.  [DataView(x)], [bp.data_view(x)] and [v = x] compile exactly for the
    numbers, std::string, std::vector<char>, std::string_view, character arrays and what
    converts to std::string_view; tag and storage always agree, and custom objects are
    never recorded as custom. *)
Theorem C87_view_accepts : forall cv e,
  ((exists r, DataView_from cv e = Some r) <->
     number_type (e_ty e) \/ In (e_ty e) [TString; TVec TChar; TStringView] \/ (exists n, e_ty e = TCharArray n) \/
     (exists n, (e_ty e = TCustom n \/ e_ty e = TOther n) /\ to_view cv n = true)) /\
  (forall dt alt, DataView_from cv e = Some (dt, alt) -> view_tag_holds dt alt /\ (own_tag (e_ty e) dt \/ dt = BRIDGE_STRING)).
Proof.
  intros cv [t c k]. unfold DataView_from. cbn [e_ty].
  assert (Hnone : ~ (exists n, t = TCustom n \/ t = TOther n) -> (exists n, (t = TCustom n \/ t = TOther n) /\ to_view cv n = true) -> False) by (intros H (n & Hn & _); eauto).
  split.
  - split.
    + intros [r E]. by_type t; cbn in E; try discriminate E; try (left; solve [constructor]); try (right; left; cbn; tauto); try (right; right; left; eauto; fail);
        right; right; right; exists m; (split; [tauto|]); destruct (to_view cv m); [reflexivity|discriminate E|reflexivity|discriminate E].
    + intros [H|[H|[(n & ->)|(n & H & Hn)]]].
      * destruct H; cbn; eauto.
      * cbn in H. destruct H as [<-|[<-|[<-|[]]]]; cbn; eauto.
      * cbn. eauto.
      * destruct H as [-> | -> ]; cbn; rewrite Hn; eauto.
  - intros dt alt. by_type t; cbn; intros E; try discriminate E;
      try (injection E as <- <-; split; [repeat constructor|left; repeat constructor]; fail);
      try (injection E as <- <-; split; [repeat constructor|right; reflexivity]; fail);
      destruct (to_view cv m); try discriminate E; injection E as <- <-; (split; [constructor|right; reflexivity]).
Qed.

(** C87, reading.  [Data::Get<T>] compiles exactly for the eight built-in types and for
    custom types; [Data::GetPtr<T>], and [Get<T>] and [GetPtr<T>] of the wrapper, only for
    the eight built-in types; [GetView<T>] also for references to character arrays. *)
Theorem C87_readers : forall a,
  (Data_Get_compiles a = true <-> exists t, a = plain t /\ (number_type t \/ t = TString \/ t = TVec TChar \/ exists n, t = TCustom n)) /\
  (Data_GetPtr_compiles a = true <-> exists t, a = plain t /\ (number_type t \/ t = TString \/ t = TVec TChar)) /\
  (Wrapper_Get_compiles a = true <-> exists t, a = plain t /\ (number_type t \/ t = TString \/ t = TVec TChar)) /\
  (Wrapper_GetPtr_compiles a = true <-> exists t, a = plain t /\ (number_type t \/ t = TString \/ t = TVec TChar)) /\
  (Wrapper_GetView_compiles a = true <->
     (exists t, a = plain t /\ (number_type t \/ t = TString \/ t = TVec TChar)) \/ (exists n, a_ty a = TCharArray n /\ a_ref a = true)).
Proof.
  assert (HB : forall t, ~ (number_type t \/ t = TString \/ t = TVec TChar) -> (forall n, t <> TCustom n) ->
     forall c r, ~ (exists t', {| a_ty := t; a_const := c; a_ref := r |} = plain t' /\ (number_type t' \/ t' = TString \/ t' = TVec TChar \/ exists n, t' = TCustom n))).
  { intros t H Hc c r (t' & E & H'). injection E as <- -> ->. destruct H' as [H'|[H'|[H'|(n & H')]]]; [tauto..|exact (Hc n H')]. }
  intros [t c r]. unfold plain. repeat split; intros H.
  all: destruct c, r; try (by_type t; cbn in H; discriminate H).
  all: try (exfalso; destruct H as (t' & E & _); discriminate E).
  all: try (exists t; split; [reflexivity|]; by_type t; cbn in H; try discriminate H; try tauto; try (left; constructor; fail); right; right; right; eauto; fail).
  all: try (destruct H as (t' & E & H); injection E as <-; destruct H as [[]|[->|[->|(n & ->)]]]; reflexivity).
  all: try (destruct H as (t' & E & H); injection E as <-; destruct H as [[]|[->| -> ]]; reflexivity).
  all: try (destruct H as [(t' & E & H)|(n & E & H)]; [discriminate E|cbn in E, H; subst t; try discriminate H; reflexivity]).
  all: try (by_type t; cbn in H; try discriminate H; right; cbn; eauto; fail).
  - by_type t; cbn in H; try discriminate H; left; eexists; (split; [reflexivity|]); try tauto; left; constructor.
  - destruct H as [(t' & E & H)|(n & E & H)]; [injection E as <-; destruct H as [[]|[->| -> ]]; reflexivity|discriminate H].
Qed.

(** Whatever built-in type a [Data] was made from, the same type reads it back: the
    reader compiles, expects the recorded tag and looks at the stored alternative. *)
Theorem C87_write_read : forall cv e dt alt,
  Data_from cv e = Some (dt, alt) -> (forall n, e_ty e <> TCharArray n) ->
  (forall n, e_ty e = TCustom n -> movable e) ->
  Data_Get_compiles (plain (e_ty e)) = true /\ DataTypeTrait (plain (e_ty e)) = Some dt /\
  (bridge_custom_type (e_ty e) = false -> e_ty e = alt /\ Wrapper_Get_compiles (plain (e_ty e)) = true).
Proof.
  intros cv [t c k] dt alt E Ha Hc. unfold Data_from, serialize_proxy_alt, serialize_variant, custom_arg, DataTypeTrait, movable in *.
  cbn [e_ty e_const e_cat forward_arg a_ty a_const a_ref] in *.
  by_type t; cbn in E; try discriminate E; try (injection E as <- <-; repeat split; fail).
  - destruct (Ha m eq_refl).
  - destruct (Hc m eq_refl) as [-> ->]. cbn in E. injection E as <- <-. split; [reflexivity|]. split; [reflexivity|]. discriminate.
Qed.

Example C87_met :
  Data_from no_conversions {| e_ty := TCustom 0; e_const := false; e_cat := RV |} = Some (BRIDGE_CUSTOM, TVec TChar) /\
  Data_from no_conversions {| e_ty := TCustom 0; e_const := false; e_cat := LV |} = None /\
  Data_from no_conversions {| e_ty := TString; e_const := true; e_cat := LV |} = Some (BRIDGE_STRING, TString) /\
  Data_from no_conversions {| e_ty := TStringView; e_const := false; e_cat := LV |} = None /\
  DataView_from no_conversions {| e_ty := TCharArray 5; e_const := true; e_cat := LV |} = Some (BRIDGE_STRING, TStringView) /\
  DataView_from no_conversions {| e_ty := TVec TChar; e_const := true; e_cat := LV |} = Some (BRIDGE_BYTES, TStringView) /\
  Wrapper_Get_compiles (plain (TCustom 0)) = false /\ Data_Get_compiles (plain (TCustom 0)) = true.
Proof. repeat split. Qed.
