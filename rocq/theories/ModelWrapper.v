(** * Model of typed reads (Data::Get, DataView::Get), of ObjectWrapper and of
    ObjectWrapperIterator (object.h:186-204, 308-325, 1055-1260). *)
From Verif Require Import Base ModelData ModelSecondary ModelObject.
Local Open Scope out_scope.

(** The type arguments [T] accepted by [Get<T>]; [CCustom] is a
    bridge_custom_type (DataTypeTrait<T>::dt = BRIDGE_CUSTOM). *)
(* T in object.h:186, 308, 318, 1222, 1227. *)
Inductive cty := CStr | CBytes | CCustom | CNum (t : numty).

(** data_type.h:37-59, 100-114 [DataTypeTrait<T>::dt]. *)
Definition dt_of_cty (T : cty) : N :=
  match T with
  | CStr => BRIDGE_STRING | CBytes => BRIDGE_BYTES | CCustom => BRIDGE_CUSTOM
  | CNum t => dt_of_num t
  end.

(** A value as handed to the user: a string, a byte vector, the serialized bytes
    of a custom value, or a number. *)
(* The values inside the optionals returned by object.h:187, 310, 320. *)
Inductive scalar :=
| VStr (s : bytes) | VBytes (s : bytes) | VCustom (s : bytes) | VNum (t : numty) (n : N).

(** object.h:186-195 [Data::Get<T>] with get_proxy (143-152): the tag is compared,
    then the storage is read at the type of [T]. *)
Definition Data_Get (T : cty) (dt : N) (s : store) : outcome (option scalar) :=
  if negb (dt_of_cty T =? dt) then Ok None
  else match T with
  | CStr => l <- get_str s ;; Ok (Some (VStr l))
  | CBytes => l <- get_vec s ;; Ok (Some (VBytes l))
  | CCustom => l <- get_vec s ;; Ok (Some (VCustom l))
  | CNum t => n <- get_num t s ;; Ok (Some (VNum t n))
  end.

(** object.h:308-325 [DataView::Get<T>] with view_get_proxy (264-270).  For
    strings and bytes the result is a view. *)
Inductive view_result := RView (v : view) | RNum (t : numty) (n : N).

(* object.h:308-325 with 264-270. *)
Definition DataView_Get (T : cty) (dt : N) (s : store) : outcome (option view_result) :=
  match T with
  | CNum t =>
      if negb (dt_of_num t =? dt) then Ok None
      else n <- get_num t s ;; Ok (Some (RNum t n))
  | CStr | CBytes =>
      if negb (dt =? BRIDGE_STRING) && negb (dt =? BRIDGE_BYTES) then Ok None
      else if negb (dt =? dt_of_cty T) then Throw ERuntime
      else v <- get_view s ;; Ok (Some (RView v))
  | CCustom => Ok None            (* does not compile: no such overload *)
  end.

(** ** ObjectWrapper.  A wrapper is an object pointer; [ONull] is empty. *)

(** object.h:1244 [Empty]. *)
Definition w_Empty (w : obj) : bool := match w with ONull => true | _ => false end.

(** object.h:1166-1171 [GetType]. *)
Definition w_GetType (w : obj) : outcome (option objtype) :=
  match w with
  | ONull => Ok None
  | _ => t <- GetType w ;; Ok (Some t)
  end.

(** object.h:1173-1182 [operator\[\](const std::string&)]. *)
Definition w_key (mem : memory) (w : obj) (key : bytes) : outcome obj :=
  match w with
  | OMap _ _ items => Ok (Map_at items key)
  | OMapView _ _ items => MapView_at mem items key
  | _ => Ok ONull
  end.

(** object.h:1201-1206 [operator\[\](size_t)]. *)
Definition w_idx (w : obj) (n : N) : outcome obj :=
  match w with
  | OArray _ size items => Ok (Array_at size items n)
  | _ => Ok ONull
  end.

(** object.h:1208-1220 [Size]. *)
Definition w_Size (w : obj) : option N :=
  match w with
  | OArray _ size _ | OMap _ size _ | OMapView _ size _ => Some size
  | _ => None
  end.

(** object.h:1131-1140, 1222-1225 [Get<T>].  (For a custom type this call does not
    compile, see ModelTypes.v [Wrapper_Get_compiles]: there [CCustom] stands for
    [AsData(obj)->Get<T>()], object.h:1284-1293, on the same object.) *)
Definition w_Get (T : cty) (w : obj) : outcome (option scalar) :=
  match w with
  | OData dt s => Data_Get T dt s
  | _ => Ok None
  end.

(** object.h:1144-1152, 1227-1230 [GetView<T>]. *)
Definition w_GetView (T : cty) (w : obj) : outcome (option view_result) :=
  match w with
  | ODataView dt s => DataView_Get T dt s
  | _ => Ok None
  end.

(** object.h:197-204, 1232-1242 [GetPtr<T>]: null unless an owning Data of type
    [T]; the pointee is what [Get<T>] copies.  (Does not compile for a custom type.) *)
Definition w_GetPtr (T : cty) (w : obj) : outcome (option scalar) :=
  match w with
  | OData dt s => Data_Get T dt s
  | _ => Ok None
  end.

(** object.h:206, 306 [GetDataType]. *)
Definition GetDataType (w : obj) : outcome N :=
  match w with OData dt _ | ODataView dt _ => Ok dt | _ => UB end.

(** ** ObjectWrapperIterator (object.h:1059-1126, 1250-1260): which kind of
    container and the items still to be visited ([iter_ == end_] when none). *)
Inductive witer :=
| ItMap (l : list (bytes * obj))
| ItMapView (l : list (view * obj))
| ItArray (l : list obj).

(** object.h:1184-1199 [GetIteraotr]. *)
Definition w_GetIterator (w : obj) : option witer :=
  match w with
  | OArray _ _ items => Some (ItArray items)
  | OMap _ _ items => Some (ItMap items)
  | OMapView _ _ items => Some (ItMapView items)
  | _ => None
  end.

(** object.h:1080-1089 [Valid]. *)
Definition it_Valid (i : witer) : bool :=
  match i with
  | ItMap [] | ItMapView [] | ItArray [] => false
  | _ => true
  end.

(** object.h:1091-1102 [operator++]; advancing past the end dereferences null. *)
Definition it_next (i : witer) : outcome witer :=
  match i with
  | ItMap (_ :: l) => Ok (ItMap l)
  | ItMapView (_ :: l) => Ok (ItMapView l)
  | ItArray (_ :: l) => Ok (ItArray l)
  | _ => UB
  end.

(** object.h:1104-1112 [GetKey]; the result is a view, here its content. *)
Definition it_GetKey (mem : memory) (i : witer) : outcome bytes :=
  match i with
  | ItMap ((k, _) :: _) => Ok k
  | ItMapView ((v, _) :: _) => read_view mem v
  | ItArray _ => Throw ERuntime
  | _ => UB
  end.

(** object.h:1250-1260 [GetValue]. *)
Definition it_GetValue (i : witer) : outcome obj :=
  match i with
  | ItMap ((_, o) :: _) => Ok o
  | ItMapView ((_, o) :: _) => Ok o
  | ItArray (o :: _) => Ok o
  | _ => UB
  end.

(** The loop [for (; it.Valid(); ++it)] collecting keys and values. *)
(* A user's loop over ObjectWrapperIterator, object.h:1080-1114. *)
Fixpoint it_collect (mem : memory) (fuel : nat) (keys : bool) (i : witer)
  : outcome (list (bytes * obj)) :=
  match fuel with
  | O => Fuel
  | S f =>
      if it_Valid i then
        k <- (if keys then it_GetKey mem i else Ok []) ;;
        o <- it_GetValue i ;;
        i' <- it_next i ;;
        r <- it_collect mem f keys i' ;;
        Ok ((k, o) :: r)
      else Ok []
  end.

(** ** The casts (object.h:1262-1293): [nullptr] is [ONull]; calling one with a null
    pointer dereferences it. *)
Definition AsMap (o : obj) : outcome obj :=
  t <- GetType o ;;
  match t with
  | TMap => r <- IsRefType o ;; Ok (if r : bool then ONull else o)
  | _ => Ok ONull
  end.
(* object.h:1273-1282. *)
Definition AsArray (o : obj) : outcome obj :=
  t <- GetType o ;;
  match t with TArray => Ok o | _ => Ok ONull end.
(* object.h:1284-1293. *)
Definition AsData (o : obj) : outcome obj :=
  t <- GetType o ;;
  match t with
  | TData => r <- IsRefType o ;; Ok (if r : bool then ONull else o)
  | _ => Ok ONull
  end.
