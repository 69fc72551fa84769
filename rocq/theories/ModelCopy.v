(** * Copies of container objects.

    Array, Map and MapView have implicit copy constructors (object.h:497-500, 656-678,
    815-837 declare none): [Array b = a;] copies [last_child_] / [last_node_] and [size_],
    not the items.  (Assignment is deleted: [bridge_pool_] is a reference, object.h:380.) *)
From Verif Require Import Base ModelLinked.
Local Open Scope out_scope.

(* The implicit copy constructors of Array (object.h:497), Map (656) and MapView (815), beside the operations
   of ModelLinked. *)
Inductive k_op :=
| KOp (op : l_op)
| KCopy (c : nat).     (* a new container object, copy-constructed from container [c] *)

(* Memberwise copy of last_child_/last_node_ and size_ (object.h:644-645, 803-804, 959-960). *)
Definition k_step (w : l_world) (op : k_op) : outcome (l_world * l_answer) :=
  match op with
  | KOp op => l_step w op
  | KCopy c =>
      match nth_error (l_conts w) c with
      | Some x => Ok ({| l_heap := l_heap w; l_conts := l_conts w ++ [{| c_last := c_last x; c_size := c_size x |}] |}, LNone)
      | None => UB
      end
  end.

(* A sequence of such calls by the user; no counterpart of its own in object.h:497-961. *)
Fixpoint k_run (w : l_world) (ops : list k_op) : outcome (l_world * list l_answer) :=
  match ops with
  | [] => Ok (w, [])
  | op :: ops' =>
      '(w1, a) <- k_step w op ;;
      '(w2, r) <- k_run w1 ops' ;;
      Ok (w2, a :: r)
  end.
