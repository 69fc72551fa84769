(** * Specification: what a bridge object means to its user.

    This file does not depend on the serializer or on any parser.  An object
    denotes a [value] (a JSON-like tree); an access path leads to a sub-value;
    [seen_at] is what the user finds there. *)
From Verif Require Import Base ModelData ModelObject ModelWrapper.

(** Arrays in index order; map entries in iteration order (most recently inserted
    first), so the first entry with a given key is the visible one. *)
Inductive value :=
| VScalar (x : scalar)
| VArr (l : list value)
| VMap (l : list (bytes * value)).

(** How many bytes a number of each type has. *)
Definition width (t : numty) : N :=
  match t with I32 | U32 | F32 => 4 | I64 | U64 | F64 => 8 end.

(** A number fits the type it claims to have. *)
Definition num_ok (t : numty) (n : N) : Prop := n < 2 ^ (8 * width t).

(** Which stored contents of a Data denote which scalar. *)
Inductive data_denotes : N -> store -> scalar -> Prop :=
| dd_str s : data_denotes BRIDGE_STRING (SStr s) (VStr s)
| dd_bytes s : data_denotes BRIDGE_BYTES (SVec s) (VBytes s)
| dd_custom s : data_denotes BRIDGE_CUSTOM (SVec s) (VCustom s)
| dd_num t n : num_ok t n -> data_denotes (dt_of_num t) (SNum t n) (VNum t n).

(** The same for a DataView, whose strings live in memory.  A view's length is a
    64-bit number. *)
Inductive view_denotes (mem : memory) : N -> store -> scalar -> Prop :=
| vd_str v s : read_view mem v = Ok s -> view_denotes mem BRIDGE_STRING (SView v) (VStr s)
| vd_bytes v s : read_view mem v = Ok s -> view_denotes mem BRIDGE_BYTES (SView v) (VBytes s)
| vd_num t n : num_ok t n -> view_denotes mem (dt_of_num t) (SNum t n) (VNum t n).

(** [denotes mem o v]: o is a complete object tree (no null child, no data node
    in the invalid state, sizes agree with the children, all views readable) with
    content [v]. *)
Inductive denotes (mem : memory) : obj -> value -> Prop :=
| den_data dt s x : data_denotes dt s x -> denotes mem (OData dt s) (VScalar x)
| den_data_view dt s x : view_denotes mem dt s x -> denotes mem (ODataView dt s) (VScalar x)
| den_array p size items l :
    size = len items ->
    Forall2 (denotes mem) items (rev l) ->
    denotes mem (OArray p size items) (VArr l)
| den_map p size items l :
    size = len items ->
    Forall2 (fun i e => fst i = fst e /\ denotes mem (snd i) (snd e)) items l ->
    denotes mem (OMap p size items) (VMap l)
| den_map_view p size items l :
    size = len items ->
    Forall2 (fun i e => read_view mem (fst i) = Ok (fst e) /\ denotes mem (snd i) (snd e)) items l ->
    denotes mem (OMapView p size items) (VMap l).

(** ** Access paths *)
Inductive step := Key (k : bytes) | Idx (n : N).

Fixpoint lookup (k : bytes) (l : list (bytes * value)) : option value :=
  match l with
  | [] => None
  | (k', v) :: l' => if bytes_eqb k' k then Some v else lookup k l'
  end.

Definition sub (v : value) (s : step) : option value :=
  match s, v with
  | Key k, VMap l => lookup k l
  | Idx n, VArr l => nth_error l (N.to_nat n)
  | _, _ => None
  end.

Fixpoint find (v : value) (p : list step) : option value :=
  match p with
  | [] => Some v
  | s :: p' => match sub v s with Some v' => find v' p' | None => None end
  end.

(** What a user sees at the end of a path: nothing, a typed scalar, an array of a
    given size or a map of a given size. *)
Inductive seen :=
| Nothing
| SeenScalar (x : scalar)
| SeenArray (n : N)
| SeenMap (n : N).

Definition top (v : value) : seen :=
  match v with
  | VScalar x => SeenScalar x
  | VArr l => SeenArray (len l)
  | VMap l => SeenMap (len l)
  end.

Definition seen_at (v : value) (p : list step) : seen :=
  match find v p with Some v' => top v' | None => Nothing end.

(** No map of the tree contains the same key twice. *)
Inductive distinct_keys : value -> Prop :=
| dk_scalar x : distinct_keys (VScalar x)
| dk_arr l : Forall distinct_keys l -> distinct_keys (VArr l)
| dk_map l : NoDup (map fst l) -> Forall (fun e => distinct_keys (snd e)) l ->
             distinct_keys (VMap l).

(** No custom-type datum in the tree. *)
Inductive no_custom : value -> Prop :=
| nc_scalar x : (forall s, x <> VCustom s) -> no_custom (VScalar x)
| nc_arr l : Forall no_custom l -> no_custom (VArr l)
| nc_map l : Forall (fun e => no_custom (snd e)) l -> no_custom (VMap l).

(** The value with the iteration order of every map reversed. *)
Fixpoint mirror (v : value) : value :=
  match v with
  | VScalar x => VScalar x
  | VArr l => VArr (map mirror l)
  | VMap l => VMap (rev (map (fun e => (fst e, mirror (snd e))) l))
  end.

(** Equal up to the order of map entries, at every level. *)
Inductive same_content : value -> value -> Prop :=
| same_scalar x : same_content (VScalar x) (VScalar x)
| same_arr l l' : Forall2 same_content l l' -> same_content (VArr l) (VArr l')
| same_map l l1 l' :
    Permutation l l1 ->
    Forall2 (fun a b => fst a = fst b /\ same_content (snd a) (snd b)) l1 l' ->
    same_content (VMap l) (VMap l').

(** ** The same observation made through the API: walk with ObjectWrapper, then
    ask type and size, and read a data node at the type its tag names (Get<T> on
    an owning node, GetView<T> on a view). *)
Local Open Scope out_scope.

Fixpoint api_walk (mem : memory) (w : obj) (p : list step) : outcome obj :=
  match p with
  | [] => Ok w
  | Key k :: p' => w' <- w_key mem w k ;; api_walk mem w' p'
  | Idx n :: p' => w' <- w_idx w n ;; api_walk mem w' p'
  end.

Definition cty_of_dt (dt : N) : option cty :=
  if dt =? BRIDGE_STRING then Some CStr
  else if dt =? BRIDGE_BYTES then Some CBytes
  else if dt =? BRIDGE_CUSTOM then Some CCustom
  else option_map CNum (num_of_dt dt).

Definition api_scalar (mem : memory) (w : obj) : outcome seen :=
  dt <- GetDataType w ;;
  match cty_of_dt dt with
  | None => Ok Nothing
  | Some T =>
      own <- w_Get T w ;;
      match own with
      | Some x => Ok (SeenScalar x)
      | None =>
          r <- w_GetView T w ;;
          match r with
          | Some (RNum t n) => Ok (SeenScalar (VNum t n))
          | Some (RView v) =>
              s <- read_view mem v ;;
              Ok (SeenScalar (match T with CBytes => VBytes s | _ => VStr s end))
          | None => Ok Nothing
          end
      end
  end.

Definition api_seen (mem : memory) (o : obj) (p : list step) : outcome seen :=
  w <- api_walk mem o p ;;
  if w_Empty w then Ok Nothing
  else
    t <- w_GetType w ;;
    match t, w_Size w with
    | Some TArray, Some n => Ok (SeenArray n)
    | Some TMap, Some n => Ok (SeenMap n)
    | Some TData, None => api_scalar mem w
    | _, _ => Ok Nothing
    end.

(** ** Size limits.  The reader can handle documents below 4 GiB, and below 2 GiB
    when asserts are enabled (varint_decode takes an [int] length). *)
Definition fits (c : cfg) (content : bytes) : Prop :=
  len content < (if ndebug c then 2 ^ 32 else 2 ^ 31).

(** ** Strings occurring in a value: its map keys and its string values. *)
Inductive occurs (k : bytes) : value -> Prop :=
| oc_str : occurs k (VScalar (VStr k))
| oc_arr v l : In v l -> occurs k v -> occurs k (VArr l)
| oc_key v l : In (k, v) l -> occurs k (VMap l)
| oc_val e l : In e l -> occurs k (snd e) -> occurs k (VMap l).

(** ** Views reachable from a tree (values and keys) all satisfy [P]. *)
Inductive all_views (P : view -> Prop) : obj -> Prop :=
| av_null : all_views P ONull
| av_data dt s : (forall v, s = SView v -> P v) -> all_views P (OData dt s)
| av_data_view dt s : (forall v, s = SView v -> P v) -> all_views P (ODataView dt s)
| av_array p n l : Forall (all_views P) l -> all_views P (OArray p n l)
| av_map p n l : Forall (fun e => all_views P (snd e)) l -> all_views P (OMap p n l)
| av_map_view p n l :
    Forall (fun e => P (fst e) /\ all_views P (snd e)) l -> all_views P (OMapView p n l).

(** The view lies inside the first [n] bytes of buffer [buf]. *)
Definition inside (buf : nat) (n : N) (v : view) : Prop :=
  v_buf v = buf /\ v_off v + v_len v <= n.

(** The tree refers to no buffer at all. *)
Definition owning (o : obj) : Prop := all_views (fun _ => False) o.

(** ** Well-formed trees: every data node has one of the supported tags and a
    payload of that type, no child is null, and [Size()] (a [size_t]) is the number
    of children.  [pr] says whether the tree is made of views or owns its data;
    [P] constrains the pools captured by the containers. *)
Inductive typed_view : N -> store -> Prop :=
| tv_str v : typed_view BRIDGE_STRING (SView v)
| tv_bytes v : typed_view BRIDGE_BYTES (SView v)
| tv_num t n : num_ok t n -> typed_view (dt_of_num t) (SNum t n).

Inductive well_formed (P : pool -> Prop) : bool -> obj -> Prop :=
| wf_data dt s x : data_denotes dt s x -> well_formed P false (OData dt s)
| wf_data_view dt s : typed_view dt s -> well_formed P true (ODataView dt s)
| wf_array pr p size l : P p -> size = len l mod 2 ^ 64 -> Forall (well_formed P pr) l ->
    well_formed P pr (OArray p size l)
| wf_map p size l : P p -> size = len l mod 2 ^ 64 -> Forall (fun e => well_formed P false (snd e)) l ->
    well_formed P false (OMap p size l)
| wf_map_view p size l : P p -> size = len l mod 2 ^ 64 -> Forall (fun e => well_formed P true (snd e)) l ->
    well_formed P true (OMapView p size l).
