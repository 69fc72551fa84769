(** * The containers at pointer level.

    ModelObject.v treats the singly linked lists of Array, Map and MapView as lists.
    Here they are what they are in the code: item nodes in pool memory, linked by
    [next_] pointers, several containers sharing one heap.  One model serves the
    three classes: an array item is a map item whose key is not looked at
    (object.h:489-494 [ArrayItem], 647-653 [MapItem], 807-813 [MapViewItem]). *)
From Verif Require Import Base.
Local Open Scope out_scope.

(** Pointers to items; [None] is nullptr. *)
(* ArrayItem*, MapItem*, MapViewItem*: object.h:492, 651, 810. *)
Definition ptr := option nat.

(** An item.  [i_val] is the [unique_ptr<Object>] member: a number naming the
    object it points to, or null. *)
(* ArrayItem object.h:490-495, MapItem 648-654, MapViewItem 807-813 (arrays: no key). *)
Record item := { i_key : bytes; i_val : option N; i_next : ptr }.

(** Pool memory: items are only ever added (ObjectPool::Alloc), address = index. *)
(* array_item_pool_, map_item_pool_, map_view_item_pool_, object.h:119, 121, 123. *)
Definition items_heap := list item.

(* Dereference of an item pointer, object.h:547, 553, 709-712. *)
Definition load (h : items_heap) (p : ptr) : outcome item :=
  match p with
  | None => UB                                       (* null dereference *)
  | Some a => match nth_error h a with Some i => Ok i | None => UB end
  end.

(* Overwriting one element of a list; helper of [save] (object.h:510, 519). *)
Fixpoint replace {A} (n : nat) (x : A) (l : list A) : list A :=
  match l, n with
  | [], _ => []
  | _ :: l', O => x :: l'
  | y :: l', S n' => y :: replace n' x l'
  end.

(* A store through an item pointer, object.h:510, 517, 519, 695-700. *)
Definition save (h : items_heap) (p : ptr) (i : item) : outcome items_heap :=
  match p with
  | None => UB
  | Some a => if (a <? length h)%nat then Ok (replace a i h) else UB
  end.

(** [p->next_ = q]. *)
(* tail->next_ = ..., object.h:510, 519, 573, 688, 700, 847. *)
Definition set_next (h : items_heap) (p q : ptr) : outcome items_heap :=
  i <- load h p ;; save h p {| i_key := i_key i; i_val := i_val i; i_next := q |}.

(** [bridge_pool_.map_item()] followed by the assignments to [key_] and [value_]:
    the constructor leaves [next_] null (object.h:494, 653, 812). *)
Definition new_item (h : items_heap) (k : bytes) (v : N) : ptr * items_heap :=
  (Some (length h), h ++ [{| i_key := k; i_val := Some v; i_next := None |}]).

(** The two fields of a container: [last_child_] / [last_node_] and [size_]. *)
(* object.h:644-645, 803-804, 959-960. *)
Record cont := { c_last : ptr; c_size : N }.

(** object.h:499-500, 677-678, 836-837. *)
Definition cont_new : cont := {| c_last := None; c_size := 0 |}.

(** object.h:515-525, 693-704, 943-954 [Insert]. *)
Definition l_Insert (h : items_heap) (c : cont) (k : bytes) (v : N) : outcome (items_heap * cont) :=
  let (node, h1) := new_item h k v in
  match c_last c with
  | None => Ok (h1, {| c_last := node; c_size := u64 (c_size c + 1) |})
  | Some _ =>
      h2 <- set_next h1 node (c_last c) ;;
      Ok (h2, {| c_last := node; c_size := u64 (c_size c + 1) |})
  end.

(** object.h:527-531, 730-733, 927-930 [Clear]. *)
Definition l_Clear (c : cont) : cont := {| c_last := None; c_size := 0 |}.

(** object.h:535-554 [Array::operator\[\]]. *)
Fixpoint l_walk (h : items_heap) (n : nat) (tmp : ptr) : outcome ptr :=
  match n with
  | O => Ok tmp
  | S n' => match tmp with
            | None => Ok None
            | Some _ => i <- load h tmp ;; l_walk h n' (i_next i)
            end
  end.
(* Array::operator[], object.h:535-554. *)
Definition l_at (h : items_heap) (c : cont) (n : N) : outcome (option N) :=
  if c_size c <=? n then Ok None
  else
    tmp <- l_walk h (N.to_nat (c_size c - 1 - n)) (c_last c) ;;
    match tmp with
    | None => Ok None
    | Some _ => i <- load h tmp ;; Ok (i_val i)
    end.

(** object.h:706-715, 852-861: the search loop of [operator\[\]] and [Get].  The
    number of iterations is bounded by [fuel]; result: the item found. *)
Fixpoint l_search (h : items_heap) (fuel : nat) (cur : ptr) (key : bytes) : outcome ptr :=
  match cur with
  | None => Ok None
  | Some _ =>
      match fuel with
      | O => Fuel
      | S f => i <- load h cur ;;
               if bytes_eqb (i_key i) key then Ok cur else l_search h f (i_next i) key
      end
  end.
(* Map::operator[] and MapView::operator[], object.h:706-715, 852-861. *)
Definition l_lookup (h : items_heap) (fuel : nat) (c : cont) (key : bytes) : outcome (option N) :=
  p <- l_search h fuel (c_last c) key ;;
  match p with None => Ok None | Some _ => i <- load h p ;; Ok (i_val i) end.

(** object.h:717-726, 932-941 [Get]: [return std::move(cur->value_)]. *)
Definition l_take (h : items_heap) (fuel : nat) (c : cont) (key : bytes) : outcome (option N * items_heap) :=
  p <- l_search h fuel (c_last c) key ;;
  match p with
  | None => Ok (None, h)
  | Some _ =>
      i <- load h p ;;
      h' <- save h p {| i_key := i_key i; i_val := None; i_next := i_next i |} ;;
      Ok (i_val i, h')
  end.

(** object.h:620-639, 658-675, 735-737, 817-834, 921-923: a loop
    [for (it = Begin(); it != End(); ++it)] reading key and value. *)
Fixpoint l_iterate (h : items_heap) (fuel : nat) (it : ptr) : outcome (list (bytes * option N)) :=
  match it with
  | None => Ok []
  | Some _ =>
      match fuel with
      | O => Fuel
      | S f => i <- load h it ;;
               rest <- l_iterate h f (i_next i) ;;
               Ok ((i_key i, i_val i) :: rest)
      end
  end.

(** object.h:565-576 (Array::valueParse), 1355-1366, 1447-1460, 1512-1525 (the block
    tasks): a chain built by appending at the tail.  Result: head, tail. *)
Fixpoint l_append (h : items_heap) (head tail : ptr) (l : list (bytes * N)) : outcome (items_heap * ptr * ptr) :=
  match l with
  | [] => Ok (h, head, tail)
  | (k, v) :: l' =>
      let (tmp, h1) := new_item h k v in
      match head with
      | None => l_append h1 tmp tmp l'
      | Some _ => h2 <- set_next h1 tail tmp ;; l_append h2 head tmp l'
      end
  end.

(** object.h:502-513, 680-691, 839-850 [Merge] of a block (head, tail, count). *)
Definition l_Merge (h : items_heap) (c : cont) (head tail : ptr) (count : N) : outcome (items_heap * cont) :=
  match head, tail with
  | Some _, Some _ =>
      h1 <- set_next h tail (c_last c) ;;
      Ok (h1, {| c_last := head; c_size := u64 (c_size c + count) |})
  | None, None => Ok (h, c)
  | _, _ => Abort
  end.

(** ** Programs over several containers *)
(* Array object.h:499-579 and 620-639, Map 677-755, MapView 836-876 and 921-954. *)
Inductive l_op :=
| LNew                                            (* bp.array() / map() / map_view() *)
| LInsert (c : nat) (k : bytes) (v : N)
| LClear (c : nat)
| LTake (c : nat) (k : bytes)
| LMergeBlock (c : nat) (l : list (bytes * N))    (* a block task, then Merge *)
| LParse (c : nat) (l : list (bytes * N))         (* Array::valueParse of count = |l| children *)
| LSize (c : nat)
| LAt (c : nat) (n : N)
| LLookup (c : nat) (k : bytes)
| LIterate (c : nat).

(* The results of these members (object.h:533, 535, 706, 717, 728, 735). *)
Inductive l_answer :=
| LNone | LNum (n : N) | LVal (v : option N) | LList (l : list (bytes * option N)).

(* The items of one pool (object.h:119, 121, 123) and the containers using it. *)
Record l_world := { l_heap : items_heap; l_conts : list cont }.
(* A new BridgePool, object.h:996. *)
Definition l_world0 : l_world := {| l_heap := []; l_conts := [] |}.

(* One call on one container, see [l_op] for the lines (object.h:499-579, 677-755, 836-876). *)
Definition l_step (w : l_world) (op : l_op) : outcome (l_world * l_answer) :=
  let h := l_heap w in
  let fuel := S (length h) in
  let on c (f : cont -> outcome (l_world * l_answer)) :=
    match nth_error (l_conts w) c with Some x => f x | None => UB end in
  let put c h' x := {| l_heap := h'; l_conts := replace c x (l_conts w) |} in
  match op with
  | LNew => Ok ({| l_heap := h; l_conts := l_conts w ++ [cont_new] |}, LNone)
  | LInsert c k v => on c (fun x => '(h', x') <- l_Insert h x k v ;; Ok (put c h' x', LNone))
  | LClear c => on c (fun x => Ok (put c h (l_Clear x), LNone))
  | LTake c k => on c (fun x => '(v, h') <- l_take h fuel x k ;; Ok (put c h' x, LVal v))
  | LMergeBlock c l => on c (fun x =>
      '(h1, head, tail) <- l_append h None None l ;;
      '(h2, x') <- l_Merge h1 x head tail (len l) ;; Ok (put c h2 x', LNone))
  | LParse c l => on c (fun x =>
      '(h1, head, _) <- l_append h None None l ;;
      Ok (put c h1 {| c_last := head; c_size := len l |}, LNone))
  | LSize c => on c (fun x => Ok (w, LNum (c_size x)))
  | LAt c n => on c (fun x => v <- l_at h x n ;; Ok (w, LVal v))
  | LLookup c k => on c (fun x => v <- l_lookup h fuel x k ;; Ok (w, LVal v))
  | LIterate c => on c (fun x => l <- l_iterate h fuel (c_last x) ;; Ok (w, LList l))
  end.

(* A sequence of calls by the user (object.h:499-579, 677-755, 836-954). *)
Fixpoint l_run (w : l_world) (ops : list l_op) : outcome (l_world * list l_answer) :=
  match ops with
  | [] => Ok (w, [])
  | op :: ops' =>
      '(w1, a) <- l_step w op ;;
      '(w2, r) <- l_run w1 ops' ;;
      Ok (w2, a :: r)
  end.
