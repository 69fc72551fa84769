(** * Lifetime of patterns (pattern.h:14-189).

    [~Pattern()] is not virtual (pattern.h:18), and composite patterns hold their parts
    as [std::unique_ptr<Pattern>]: deleting a part goes through a pointer to the base
    class. *)
From Verif Require Import Base ModelSecondary ModelPattern.
Local Open Scope out_scope.

(** [delete p] with [p] of type [Pattern*]: nothing for null; [Pattern] is abstract, so
    any other object has another class, and deleting it through a base class without a
    virtual destructor is undefined. *)
(* The non-virtual pattern.h:18 under unique_ptr<Pattern>, pattern.h:79, 121, 171, 188. *)
Definition delete_base (p : pattern) : outcome unit :=
  match p with PatNull => Ok tt | _ => UB end.

(* Destruction of the containers of pattern.h:79, 121, 171, 188. *)
Fixpoint delete_all (l : list pattern) : outcome unit :=
  match l with [] => Ok tt | p :: l' => _ <- delete_base p ;; delete_all l' end.

(** The [unique_ptr<Pattern>] members of a pattern (pattern.h:79, 121, 171, 188). *)
Definition parts (p : pattern) : list pattern :=
  match p with
  | PatMap _ kv => map snd kv
  | PatArr _ slots => slots
  | PatOr l | PatAnd l => l
  | _ => []
  end.

(** The end of life of a pattern whose class is known statically (a local object or a
    [unique_ptr<MapPattern>]): the implicit destructor destroys the members. *)
(* The implicit destructors of pattern.h:23, 85, 125, 157, 174. *)
Definition destroy (p : pattern) : outcome unit := delete_all (parts p).

(** Calls on such a pattern; the argument of type [unique_ptr<Pattern>&&] is a
    temporary converted from a pointer to the derived class, destroyed after the call
    (empty if it has been moved from). *)
(* Members of the patterns: pattern.h:69, 71, 73-76, 114-118, 159, 176. *)
Inductive pcall :=
| PSet (key : bytes) (p : pattern)      (* MapPattern::setPattern *)
| PRemove (key : bytes)                 (* MapPattern::removePattern *)
| PSetSize (n : N)                      (* MapPattern::setSize *)
| PSetNth (n : nat) (p : pattern)       (* ArrayPattern::setNthPattern *)
| PPush (p : pattern).                  (* OrPattern / AndPattern::PushPattern *)

(** pattern.h:69 (move assignment deletes the previous part), 71, 73-76, 114-118, 159,
    177; a member function of another class does not exist: [UB]. *)
Definition pcall_life (m : pattern) (c : pcall) : outcome pattern :=
  match m, c with
  | PatMap _ kv, PSet k p =>
      _ <- match assoc_find bytes_eqb k kv with Some old => delete_base old | None => Ok tt end ;;
      Ok (setPattern k p m)
  | PatMap _ kv, PRemove k =>
      _ <- match assoc_find bytes_eqb k kv with Some old => delete_base old | None => Ok tt end ;;
      Ok (removePattern k m)
  | PatMap _ _, PSetSize n => Ok (setSize n m)
  | PatArr fixed slots, PSetNth n p =>
      match nth_error slots n with
      | Some old => if fixed then _ <- delete_base old ;; Ok (setNthPattern n p m) else _ <- delete_base p ;; Ok m
      | None => _ <- delete_base p ;; Ok m
      end
  | PatOr _, PPush p | PatAnd _, PPush p => Ok (PushPattern p m)
  | _, _ => UB
  end.

(** A whole life: calls, then destruction. *)
(* Calls of pattern.h:69-76, 114-118, 159, 176 and then the destructor; no counterpart of its own. *)
Fixpoint pattern_life (m : pattern) (cs : list pcall) : outcome unit :=
  match cs with
  | [] => destroy m
  | c :: cs' => m' <- pcall_life m c ;; pattern_life m' cs'
  end.
