(** * Model of adaptor.h. *)
From Verif Require Import Base ModelData ModelSecondary ModelObject ModelWrapper.
Local Open Scope out_scope.

(** The C++ values [adaptor] accepts (adaptor.h:13-28, type_trait.h:85-150): a
    bridge_type, a [std::vector], an [unordered_map] keyed by [std::string] or by
    [std::string_view].  Hash tables are listed in insertion order.
    (Simplification: C++ makes the elements of a container the same type; here they
    may differ, so the theorems cover more.  For custom elements [bp.data(t)] on a
    [const T&] normally does not compile, see ModelTypes.v [adaptor_compiles].) *)
Inductive cpp :=
| CppScalar (x : scalar)
| CppVector (l : list cpp)
| CppMap (l : list (bytes * cpp))
| CppViewMap (l : list (view * cpp)).

(** adaptor.h:13-15 [bp.data(t)]. *)
Definition data_of (x : scalar) : obj :=
  match x with
  | VStr s => data_of_string s
  | VBytes s => data_of_bytes s
  | VCustom s => data_of_custom s
  | VNum t n => data_of_num t n
  end.

(** The loops of adaptor.h:36-39, 47-49, 57-59: build each element, insert it. *)
Fixpoint insert_elements (live : pool -> bool) (ret : obj) (l : list (outcome obj)) : outcome obj :=
  match l with
  | [] => Ok ret
  | each :: l' => v <- each ;; ret' <- Array_Insert live ret v ;; insert_elements live ret' l'
  end.
(* The loop adaptor.h:47-49. *)
Fixpoint insert_entries (live : pool -> bool) (ret : obj) (l : list (bytes * outcome obj)) : outcome obj :=
  match l with
  | [] => Ok ret
  | (k, each) :: l' => v <- each ;; ret' <- Map_Insert live ret k v ;; insert_entries live ret' l'
  end.
(* The loop adaptor.h:57-59. *)
Fixpoint insert_view_entries (live : pool -> bool) (ret : obj) (l : list (view * outcome obj)) : outcome obj :=
  match l with
  | [] => Ok ret
  | (k, each) :: l' => v <- each ;; ret' <- MapView_Insert live ret k v ;; insert_view_entries live ret' l'
  end.

(** adaptor.h:13-15, 32-61 [adaptor]. *)
Fixpoint adaptor (c : cfg) (live : pool -> bool) (bp : pool) (x : cpp) : outcome obj :=
  match x with
  | CppScalar s => Ok (data_of s)
  | CppVector l => insert_elements live (array_new bp) (map (adaptor c live bp) l)
  | CppMap l => insert_entries live (map_new bp) (hash_order c (map (fun e => (fst e, adaptor c live bp (snd e))) l))
  | CppViewMap l => insert_view_entries live (map_view_new bp) (hash_order c (map (fun e => (fst e, adaptor c live bp (snd e))) l))
  end.
