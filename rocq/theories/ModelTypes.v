(** * Compile-time parts: variant.h and the type traits behind adaptor.h.

    Template metafunctions are functions on types; a type is a value of [ty].  A
    template without matching specialisation (a hard error or, inside a constraint,
    "not satisfied") is [None] or [false]. *)
From Verif Require Import Base ModelData.

(** C++ types that matter here; [TCustom] stands for the user classes with
    SerializeToBridge/ConstructFromBridge, [TOther] for every other type. *)
(* The types named in type_trait.h:36-147, data_type.h:52-59, 116-118. *)
Inductive ty :=
| TI32 | TU32 | TI64 | TU64 | TFloat | TDouble | TChar
| TString | TStringView
| TCharArray (n : N)          (* char[n] *)
| TCustom (n : N) | TOther (n : N)
| TVec (t : ty)               (* std::vector<t> *)
| TMapS (t : ty)              (* std::unordered_map<std::string, t> *)
| TMapV (t : ty).             (* std::unordered_map<std::string_view, t> *)

(* Equality of types, as std::is_same_v decides it (variant.h:44, type_trait.h:37-40). *)
Definition ty_eq_dec : forall a b : ty, {a = b} + {a <> b}.
Proof. decide equality; apply N.eq_dec. Defined.
(* std::is_same_v, variant.h:44, 49, 58, 63; type_trait.h:37-44, 63, 68. *)
Definition is_same (a b : ty) : bool := if ty_eq_dec a b then true else false.

(** ** variant.h *)
Section Variant.
  (** The platform's sizes and alignments. *)
  Variable size_of align_of : ty -> N.

  (** variant.h:9-24 [BRIDGE_VARIANT_MACRO]; there is no specialisation for an empty
      pack. *)
  Fixpoint max_op (op : ty -> N) (Ts : list ty) : option N :=
    match Ts with
    | [] => None
    | [T] => Some (op T)
    | T :: Ts' => match max_op op Ts' with
                  | Some m => Some (if m <? op T then op T else m)
                  | None => None
                  end
    end.
  Definition MaxSize := max_op size_of.
  Definition MaxAlign := max_op align_of.

  (** variant.h:26-38 [Count]. *)
  Fixpoint Count (Ts : list ty) : N :=
    match Ts with [] => 0 | [_] => 1 | _ :: Ts' => 1 + Count Ts' end.

  (** variant.h:40-52 [Index]: the specialisation for one type wins for the last. *)
  Fixpoint Index (T : ty) (Ts : list ty) : N :=
    match Ts with
    | [] => 0
    | [LastType] => if is_same T LastType then 0 else 1
    | TheT :: Ts' => if is_same T TheT then 0 else 1 + Index T Ts'
    end.

  (** variant.h:54-67 [NotExist]. *)
  Fixpoint NotExist (T : ty) (Ts : list ty) : bool :=
    match Ts with
    | [] => true
    | [LastT] => negb (is_same T LastT)
    | TheT :: Ts' => if is_same T TheT then false else NotExist T Ts'
    end.

  (** variant.h:69-84 [Unique], [variant_types]. *)
  Fixpoint Unique (Ts : list ty) : bool :=
    match Ts with
    | [] => true
    | [_] => true
    | T :: Ts' => Unique Ts' && NotExist T Ts'
    end.

  (** variant.h:92-95 [ValidType]. *)
  Definition ValidType (Ts : list ty) (T : ty) : bool := Index T Ts <? Count Ts.

  (** variant.h:134 [char buf_\[MaxSize\]], at the start of the object; the class has
      alignment [MaxAlign].  A stored object of type T is its [size_of T] bytes. *)
  Definition vbuf := bytes.

  (** variant.h:100-104 [construct]: rejected at compile time ([None]) for a type not
      in the list; placement new writes the object at the start of the buffer. *)
  Definition v_construct (Ts : list ty) (T : ty) (rep : bytes) (b : vbuf) : option (outcome vbuf) :=
    if negb (ValidType Ts T) then None
    else Some (if len b <? size_of T then UB else Ok (rep ++ skipn (N.to_nat (size_of T)) b)).

  (** variant.h:112-128 [get], [move]. *)
  Definition v_get (Ts : list ty) (T : ty) (b : vbuf) : option (outcome bytes) :=
    if negb (ValidType Ts T) then None
    else Some (if len b <? size_of T then UB else Ok (firstn (N.to_nat (size_of T)) b)).
End Variant.

(** data_type.h:116-118 the two variants of the library. *)
Definition bridge_variant : list ty := [TVec TChar; TString; TI32; TU32; TI64; TU64; TFloat; TDouble].
(* data_type.h:118. *)
Definition bridge_view_variant : list ty := [TStringView; TI32; TU32; TI64; TU64; TFloat; TDouble].

(** ** type_trait.h *)

(** type_trait.h:36-40. *)
Definition bridge_integral (t : ty) : bool := is_same TI32 t || is_same TU32 t || is_same TI64 t || is_same TU64 t.
(* type_trait.h:42-44. *)
Definition bridge_floating (t : ty) : bool := is_same TFloat t || is_same TDouble t.
(** type_trait.h:46-63: besides [std::string] only references to character arrays,
    which are no values of [ty]: [adaptor] deduces a non-reference type. *)
Definition bridge_string (t : ty) : bool := is_same TString t.
(** type_trait.h:65-68. *)
Definition bridge_binary (t : ty) : bool := is_same (TVec TChar) t.
(** type_trait.h:73-77. *)
Definition bridge_custom_type (t : ty) : bool := match t with TCustom _ => true | _ => false end.
(** type_trait.h:79-83. *)
Definition bridge_built_in_type (t : ty) : bool := bridge_integral t || bridge_floating t || bridge_string t || bridge_binary t.
(* type_trait.h:85-87. *)
Definition bridge_type (t : ty) : bool := bridge_custom_type t || bridge_built_in_type t.

(** type_trait.h:89-111 [is_bridge_container]. *)
Definition bridge_container_type (t : ty) : bool := match t with TVec _ | TMapS _ | TMapV _ => true | _ => false end.

(** type_trait.h:113-147 [AdaptorTrait<T>::type]; the constrained specialisation is
    preferred. *)
Fixpoint AdaptorTrait (t : ty) : option ty :=
  match t with
  | TVec T | TMapS T | TMapV T => if bridge_container_type T then AdaptorTrait T else Some T
  | _ => None
  end.

(** type_trait.h:149-150. *)
Definition bridge_adaptor_type (t : ty) : bool :=
  match AdaptorTrait t with Some u => bridge_type u | None => false end.

(** ** Template arguments and value categories *)

(** What user classes convert to implicitly (conversion functions, base classes); for
    [TOther n] this covers other types too, e.g. a pointer to characters converts to
    both [std::string] and [std::string_view].  Not modelled: [serialize] overloads a
    user adds in the namespace of the class. *)
(* Conversions considered when serialize is called at object.h:134 (serialize.h:32-58). *)
Record conversions := { to_string : N -> bool; to_bytes : N -> bool; to_view : N -> bool }.

(** An argument expression: its type, constness and value category. *)
(* Value category of the argument obj of object.h:173, 179. *)
Inductive vcat := LV | RV.
(* The argument obj of object.h:173, 179, 279, 291. *)
Record expr := { e_ty : ty; e_const : bool; e_cat : vcat }.

(** A template argument: [t], [const t], [t&] or [const t&]. *)
(* The template argument T of object.h:172, 178, 186, 197, data_type.h:100. *)
Record targ := { a_ty : ty; a_const : bool; a_ref : bool }.
(* An explicit template argument, as in Get<T>(), object.h:186, 197, 308, 318. *)
Definition plain (t : ty) : targ := {| a_ty := t; a_const := false; a_ref := false |}.

(** [T] deduced for a forwarding parameter [T&&]. *)
(* Deduction of T in object.h:172-173, 178-179, 132-133. *)
Definition forward_arg (e : expr) : targ :=
  {| a_ty := e_ty e; a_const := e_const e; a_ref := match e_cat e with LV => true | RV => false end |}.

(** type_trait.h:11-34 [NoRefNoPointer] (pointers are [TOther], rejected anyway). *)
Definition NoRefNoPointer (a : targ) : bool := negb (a_ref a).

(** type_trait.h:73-77 for any template argument: [T::ConstructFromBridge] does not
    exist for a reference and does not return [const T]. *)
Definition custom_arg (a : targ) : bool := bridge_custom_type (a_ty a) && negb (a_const a) && negb (a_ref a).

(** type_trait.h:36-68 for any template argument. *)
Definition number_arg (a : targ) : bool :=
  (bridge_integral (a_ty a) || bridge_floating (a_ty a)) && negb (a_const a) && negb (a_ref a).
(* bridge_string<T>, type_trait.h:46-63, on a template argument. *)
Definition string_arg (a : targ) : bool :=
  match a_ty a with
  | TCharArray _ => a_ref a
  | t => bridge_string t && negb (a_const a) && negb (a_ref a)
  end.
(* bridge_binary<T>, type_trait.h:65-68, on a template argument. *)
Definition binary_arg (a : targ) : bool := bridge_binary (a_ty a) && negb (a_const a) && negb (a_ref a).

(** data_type.h:37-59 [InnerDataTypeTrait<T>::dt]; [None]: incomplete type. *)
Definition InnerDataTypeTrait (t : ty) : option N :=
  match t with
  | TCustom _ => Some BRIDGE_CUSTOM
  | TVec TChar => Some BRIDGE_BYTES
  | TString => Some BRIDGE_STRING
  | TI32 => Some BRIDGE_INT32 | TU32 => Some BRIDGE_UINT32
  | TI64 => Some BRIDGE_INT64 | TU64 => Some BRIDGE_UINT64
  | TFloat => Some BRIDGE_FLOAT | TDouble => Some BRIDGE_DOUBLE
  | _ => None
  end.

(** data_type.h:100-114 [DataTypeTrait<T>::dt]. *)
Definition DataTypeTrait (a : targ) : option N :=
  match a_ty a, a_ref a with
  | TCharArray _, true => Some BRIDGE_STRING
  | t, _ => InnerDataTypeTrait t
  end.

(** serialize.h:14-21, 32, 38-40, 46-52, 60-62: the overload of [serialize] chosen
    for [bridge_variant&]; the result is the alternative it constructs.  For a class
    the two conversions are ambiguous with each other. *)
Definition serialize_variant (cv : conversions) (e : expr) : option ty :=
  match e_ty e with
  | TCharArray _ => Some TString
  | TString => Some TString
  | TVec TChar => Some (TVec TChar)
  | TI32 | TU32 | TI64 | TU64 | TFloat | TDouble => Some (e_ty e)
  | TCustom n | TOther n =>
      match to_string cv n, to_bytes cv n with
      | true, false => Some TString
      | false, true => Some (TVec TChar)
      | _, _ => None
      end
  | _ => None
  end.

(** object.h:132-141 [serialize_proxy]: the constrained one stores the
    [std::vector<char>] returned by SerializeToBridge. *)
Definition serialize_proxy_alt (cv : conversions) (e : expr) : option ty :=
  if custom_arg (forward_arg e) then Some (TVec TChar) else serialize_variant cv e.

(** object.h:172-176 [Data(T&&)], 178-184 [operator=(T&&)], 1009-1013 [bp.data(x)]: does it
    compile, and if so which tag and which alternative does it store? *)
Definition Data_from (cv : conversions) (e : expr) : option (N * ty) :=
  match DataTypeTrait (forward_arg e), serialize_proxy_alt cv e with
  | Some dt, Some alt => Some (dt, alt)
  | _, _ => None
  end.

(** object.h:278-288, 290-304 [DataView(const T&)], [DataView(const std::string_view&)] and
    the assignments; serialize.h:34-36, 42-44, 54-58, 64-66. *)
Definition DataView_from (cv : conversions) (e : expr) : option (N * ty) :=
  if bridge_built_in_type (e_ty e) then
    match InnerDataTypeTrait (e_ty e) with
    | Some dt => Some (dt, if bridge_integral (e_ty e) || bridge_floating (e_ty e) then e_ty e else TStringView)
    | None => None
    end
  else match e_ty e with
       | TStringView | TCharArray _ => Some (BRIDGE_STRING, TStringView)
       | TCustom n | TOther n => if to_view cv n then Some (BRIDGE_STRING, TStringView) else None
       | _ => None
       end.

(** object.h:186-195 [Data::Get<T>] with 143-152 [get_proxy], parse.h:18-21. *)
Definition Data_Get_compiles (a : targ) : bool :=
  NoRefNoPointer a &&
  match DataTypeTrait a with
  | None => false
  | Some _ => custom_arg a || (negb (a_const a) && ValidType bridge_variant (a_ty a))
  end.

(** object.h:197-204 [Data::GetPtr<T>] with 154-163 [get_ptr_proxy]: for a custom type
    the pointer to the stored vector does not convert to the return type. *)
Definition Data_GetPtr_compiles (a : targ) : bool :=
  NoRefNoPointer a &&
  match DataTypeTrait a with
  | None => false
  | Some _ => negb (custom_arg a) && (negb (a_const a) && ValidType bridge_variant (a_ty a))
  end.

(** object.h:308-325 [DataView::Get<T>] with 264-271 [view_get_proxy]. *)
Definition DataView_Get_compiles (a : targ) : bool := number_arg a || string_arg a || binary_arg a.

(** object.h:1130-1158 [get_proxy_]: the alias at 1142 needs [DataView::Get<T>] for [Get]
    too; 1221-1248 [ObjectWrapper::Get, GetView, GetPtr]. *)
Definition Wrapper_Get_compiles (a : targ) : bool := DataView_Get_compiles a && Data_Get_compiles a.
(* ObjectWrapper::GetView, object.h:1227-1230 with 1142-1152. *)
Definition Wrapper_GetView_compiles (a : targ) : bool := DataView_Get_compiles a.
(* ObjectWrapper::GetPtr, object.h:1232-1242. *)
Definition Wrapper_GetPtr_compiles (a : targ) : bool := Data_GetPtr_compiles a.

(** ** adaptor.h: overload resolution.  For an argument of type [t] each overload is
    viable if its parameter matches and its constraint holds. *)
(* adaptor.h:13-15, 32-41, 43-51, 53-61. *)
Inductive overload := OvData | OvVector | OvMap | OvMapView.

(* The constraints at adaptor.h:14, 33, 44, 54. *)
Definition viable (t : ty) : list overload :=
  (if bridge_type t then [OvData] else []) ++                                       (* 13-15 *)
  match t with
  | TVec T => if bridge_adaptor_type T || bridge_type T then [OvVector] else []     (* 31-40 *)
  | TMapS T => if bridge_adaptor_type T || bridge_type T then [OvMap] else []       (* 42-51 *)
  | TMapV T => if bridge_adaptor_type T || bridge_type T then [OvMapView] else []   (* 53-62 *)
  | _ => []
  end.

(** Does [adaptor(x, bp)] compile for [x] of type [t]?  One viable overload (two
    would be ambiguous: neither is more specialised and more constrained), and the
    call in its body compiles: [bp.data(t)] with a [const T&] (adaptor.h:15), or
    [adaptor] of the elements. *)
Fixpoint adaptor_compiles (cv : conversions) (t : ty) : bool :=
  match viable t with
  | [OvData] => match Data_from cv {| e_ty := t; e_const := true; e_cat := LV |} with Some _ => true | None => false end
  | [_] => match t with TVec T | TMapS T | TMapV T => adaptor_compiles cv T | _ => false end
  | _ => false
  end.
