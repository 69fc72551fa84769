(** * Model of the life cycle of Data and DataView: construction, assignment,
    the manual destruction of the untagged storage (object.h:167-262, 274-342,
    variant.h:85-135, serialize.h:14-66). *)
From Verif Require Import Base ModelData ModelObject ModelWrapper.
Local Open Scope out_scope.

(** What can be written on the right of [Data(x)] or [d = x].  Lvalue and rvalue
    overloads (serialize.h:32-52) store the same content. *)
Inductive arg :=
| AStr (s : bytes)               (* std::string *)
| ACstr (arr : bytes)            (* const char (&)\[n\] *)
| ABytes (s : bytes)             (* std::vector<char> *)
| ACustom (s : bytes)            (* a non-const temporary of a custom type whose SerializeToBridge
                                    returns s (named objects: ModelTypes.v [Data_from]) *)
| ANum (t : numty) (n : N)
| AThrowing                      (* custom type whose SerializeToBridge throws *)
| AOwn.                          (* the object designated by this->GetPtr<std::string>() *)

(** The raw storage [buf_] of the variant.  [Raw]: no object alive in it.
    [Holds id s]: the object constructed by the [id]-th placement new. *)
(* char buf_[...], variant.h:134, with construct (98-101) and destruct (128-131). *)
Inductive slot := Raw | Holds (id : nat) (s : store).

(** A Data with the log of what happened to payloads: the next construction
    number and the constructions already destroyed (latest first). *)
(* The members of Data, object.h:250-251; the log is a ghost. *)
Record dlife := { d_dt : N; d_slot : slot; d_next : nat; d_destroyed : list nat }.

(** object.h:170 [Data()]. *)
Definition dl_default : dlife :=
  {| d_dt := BRIDGE_INVALID; d_slot := Raw; d_next := 0; d_destroyed := [] |}.

(** variant.h:97-101 [construct]: placement new, whatever is there. *)
Definition construct (s : store) (d : dlife) : dlife :=
  {| d_dt := d_dt d; d_slot := Holds (d_next d) s; d_next := S (d_next d);
     d_destroyed := d_destroyed d |}.

(** variant.h:127-131 [destruct<T>]: the storage must hold a live [T]. *)
Definition destruct (is_T : store -> bool) (d : dlife) : outcome dlife :=
  match d_slot d with
  | Holds id s =>
      if is_T s then Ok {| d_dt := d_dt d; d_slot := Raw; d_next := d_next d;
                           d_destroyed := id :: d_destroyed d |}
      else UB
  | Raw => UB
  end.

(* Does the storage of variant.h:134 hold a std::string (for object.h:255). *)
Definition is_str (s : store) : bool := match s with SStr _ => true | _ => false end.
(* Does the storage of variant.h:134 hold a std::vector<char> (for object.h:257). *)
Definition is_vec (s : store) : bool := match s with SVec _ => true | _ => false end.

(** object.h:253-259 [destruct_by_datatype]. *)
Definition destruct_by_datatype (d : dlife) : outcome dlife :=
  if d_dt d =? BRIDGE_STRING then destruct is_str d
  else if (d_dt d =? BRIDGE_CUSTOM) || (d_dt d =? BRIDGE_BYTES) then destruct is_vec d
  else Ok d.

(* The content of variant.h:134 as seen by get, variant.h:115-119. *)
Definition slot_store (s : slot) : store := match s with Raw => SNone | Holds _ x => x end.

(** data_type.h:100-114 [DataTypeTrait<T>::dt] of an argument. *)
Definition arg_dt (a : arg) : N :=
  match a with
  | AStr _ | ACstr _ | AOwn => BRIDGE_STRING
  | ABytes _ => BRIDGE_BYTES
  | ACustom _ | AThrowing => BRIDGE_CUSTOM
  | ANum t _ => dt_of_num t
  end.

(** object.h:132-141 [serialize_proxy] with serialize.h:14-66.  The new state is
    returned also when an exception leaves. *)
Definition serialize_proxy (a : arg) (d : dlife) : outcome (dlife * option exn) :=
  match a with
  | AStr s => Ok (construct (SStr s) d, None)
  | ACstr arr => Ok (construct (SStr (cstr_content arr)) d, None)
  | ABytes s | ACustom s => Ok (construct (SVec s) d, None)
  | ANum t n => Ok (construct (SNum t n) d, None)
  | AThrowing => Ok (d, Some ERuntime)
  | AOwn => s <- get_str (slot_store (d_slot d)) ;; Ok (construct (SStr s) d, None)
  end.

(* data_type_ = ..., object.h:174, 181, 211. *)
Definition set_dt (t : N) (d : dlife) : dlife :=
  {| d_dt := t; d_slot := d_slot d; d_next := d_next d; d_destroyed := d_destroyed d |}.

(** object.h:172-176 [explicit Data(T&&)] (a throwing constructor leaves no object:
    [None]). *)
Definition Data_new (a : arg) : outcome (option dlife) :=
  '(d, e) <- serialize_proxy a (set_dt (arg_dt a) dl_default) ;;
  Ok (match e with None => Some d | Some _ => None end).

(** object.h:178-184 [Data::operator=]. *)
Definition Data_assign (a : arg) (d : dlife) : outcome (dlife * option exn) :=
  d1 <- destruct_by_datatype d ;;
  serialize_proxy a (set_dt (arg_dt a) d1).

(** object.h:186-195 [Get<T>], 197-204 [GetPtr<T>], 206 [GetDataType] of this state. *)
Definition dl_Get (T : cty) (d : dlife) : outcome (option scalar) :=
  Data_Get T (d_dt d) (slot_store (d_slot d)).

(** The object seen by the rest of the model. *)
(* The members of Data, object.h:250-251, without the ghosts. *)
Definition dl_obj (d : dlife) : obj := OData (d_dt d) (slot_store (d_slot d)).

(** ** DataView: the storage is never destroyed (all alternatives are trivial). *)
(* Arguments accepted by DataView: object.h:278-288, 290-304. *)
Inductive varg :=
| WStr (v : view)                (* std::string, std::string_view *)
| WCstr (v : view) (arr : bytes) (* const char (&)\[n\]; [v] designates [arr] *)
| WBytes (v : view)              (* std::vector<char> *)
| WNum (t : numty) (n : N).

(* DataTypeTrait<T>::dt for these arguments, data_type.h:52-59, 100-114; object.h:280, 286, 294, 301. *)
Definition varg_dt (a : varg) : N :=
  match a with
  | WStr _ | WCstr _ _ => BRIDGE_STRING
  | WBytes _ => BRIDGE_BYTES
  | WNum t _ => dt_of_num t
  end.

(** [std::char_traits<char>::length] on the characters of an array: the position of
    the first NUL; without one it reads past the end. *)
(* The conversion const char* -> std::string_view in front of object.h:285 and 300. *)
Fixpoint strlen (arr : bytes) : outcome N :=
  match arr with
  | [] => UB
  | b :: r => if byte_eqb b x00 then Ok 0 else omap N.succ (strlen r)
  end.

(** serialize.h:34-36, 42-44, 54-58, 64-66: overloads for [bridge_view_variant&].
    A character array never reaches the overload of serialize.h:23-30: [const T&]
    deduces [T = char\[n\]], which is no [bridge_built_in_type] (type_trait.h:45-63
    knows only references to arrays), so the constructor and assignment for
    [const std::string_view&] (object.h:285-288, 300-304) are chosen and the array
    is converted by [std::string_view(char const *p)]. *)
Definition varg_store (a : varg) : outcome store :=
  match a with
  | WStr v | WBytes v => Ok (SView v)
  | WCstr v arr => omap (fun n => SView {| v_buf := v_buf v; v_off := v_off v; v_len := n |}) (strlen arr)
  | WNum t n => Ok (SNum t n)
  end.

(** object.h:278-283, 285-288 constructors; 290-298, 300-304 [operator=] (the
    asserted condition is always true for these argument types). *)
Definition DataView_new (a : varg) : outcome obj := omap (ODataView (varg_dt a)) (varg_store a).
(* DataView::operator=, object.h:290-304: the same stores as the constructors. *)
Definition DataView_assign (a : varg) (o : obj) : outcome obj :=
  match o with
  | ODataView _ _ => DataView_new a
  | _ => UB
  end.
