(** * Model of pattern.h. *)
From Verif Require Import Base ModelData ModelSecondary ModelObject ModelWrapper.
Local Open Scope out_scope.

(** pattern.h:14-189.  [PatNull] is an empty [std::unique_ptr<Pattern>], as left by
    [objects_.resize(n)] (line 112).
    - [PatMap size kv]: MapPattern, [size_pattern_] if [set_size_pattern_], and
      [match_kv_] in insertion order;
    - [PatArr fixed slots]: ArrayPattern, [set_length_pattern_] and [objects_];
    - [PatData dt]: DataPattern, [data_type_] if [set_data_type_pattern_];
    - [PatOr], [PatAnd]: OrPattern, AndPattern and their [patterns_]. *)
Inductive pattern :=
| PatNull
| PatMap (size : option N) (kv : list (bytes * pattern))
| PatArr (fixed : bool) (slots : list pattern)
| PatData (dt : option N)
| PatOr (l : list pattern)
| PatAnd (l : list pattern).

(** pattern.h:25 [MapPattern()]. *)
Definition MapPattern_new : pattern := PatMap None [].

(* match_kv_.erase(key), pattern.h:71. *)
Fixpoint kv_erase (k : bytes) (l : list (bytes * pattern)) : list (bytes * pattern) :=
  match l with
  | [] => []
  | (k', p) :: l' => if bytes_eqb k k' then l' else (k', p) :: kv_erase k l'
  end.

(** pattern.h:69-76 [setPattern], [removePattern], [setSize]. *)
Definition setPattern (key : bytes) (p : pattern) (m : pattern) : pattern :=
  match m with PatMap sz kv => PatMap sz (assoc_set bytes_eqb key p kv) | _ => m end.
(* pattern.h:71. *)
Definition removePattern (key : bytes) (m : pattern) : pattern :=
  match m with PatMap sz kv => PatMap sz (kv_erase key kv) | _ => m end.
(* pattern.h:73-76. *)
Definition setSize (n : N) (m : pattern) : pattern :=
  match m with PatMap _ kv => PatMap (Some n) kv | _ => m end.

(** pattern.h:87, 112 [ArrayPattern()], [ArrayPattern(size_t n)]. *)
Definition ArrayPattern_any : pattern := PatArr false [].
(* pattern.h:112. *)
Definition ArrayPattern_new (n : nat) : pattern := PatArr true (repeat PatNull n).

(* objects_[n] = ..., pattern.h:116. *)
Fixpoint set_nth {A} (n : nat) (x : A) (l : list A) : list A :=
  match n, l with
  | _, [] => []
  | O, _ :: l' => x :: l'
  | S n', y :: l' => y :: set_nth n' x l'
  end.

(** pattern.h:114-118 [setNthPattern]. *)
Definition setNthPattern (n : nat) (p : pattern) (a : pattern) : pattern :=
  match a with
  | PatArr fixed slots => if fixed && (n <? length slots)%nat then PatArr fixed (set_nth n p slots) else a
  | _ => a
  end.

(** pattern.h:127-128 [DataPattern()], [DataPattern(uint8_t)]. *)
Definition DataPattern_any : pattern := PatData None.
(* pattern.h:128. *)
Definition DataPattern_new (dt : N) : pattern := PatData (Some (dt mod 256)).

(** pattern.h:159, 176 [PushPattern]. *)
Definition PushPattern (p : pattern) (m : pattern) : pattern :=
  match m with PatOr l => PatOr (l ++ [p]) | PatAnd l => PatAnd (l ++ [p]) | _ => m end.

(** pattern.h:38-47 = 55-64: the loop over the required keys; [at_key] is the
    container's [operator\[\]]. *)
Fixpoint match_kv (at_key : bytes -> outcome obj) (l : list (bytes * (obj -> outcome bool))) : outcome bool :=
  match l with
  | [] => Ok true
  | (k, m) :: l' =>
      value <- at_key k ;;
      match value with
      | ONull => Ok false
      | _ => b <- m value ;; if b : bool then match_kv at_key l' else Ok false
      end
  end.

(** pattern.h:99-108: the loop over the slots, from index [i]. *)
Fixpoint match_slots (at_index : N -> obj) (i : N) (l : list (obj -> outcome bool)) : outcome bool :=
  match l with
  | [] => Ok true
  | m :: l' =>
      match at_index i with
      | ONull => Ok false
      | value => b <- m value ;; if b : bool then match_slots at_index (i + 1) l' else Ok false
      end
  end.

(* The loop pattern.h:162-167. *)
Fixpoint match_or (l : list (obj -> outcome bool)) (o : obj) : outcome bool :=
  match l with
  | [] => Ok false
  | m :: l' => b <- m o ;; if b : bool then Ok true else match_or l' o
  end.
(* The loop pattern.h:179-184. *)
Fixpoint match_and (l : list (obj -> outcome bool)) (o : obj) : outcome bool :=
  match l with
  | [] => Ok true
  | m :: l' => b <- m o ;; if b : bool then match_and l' o else Ok false
  end.

(* pattern.h:33-37, 50-54. *)
Definition size_ok (want : option N) (size : N) : bool :=
  match want with None => true | Some n => n =? size end.

(** pattern.h:27-67, 89-110, 130-150, 161-168, 178-185 [Match].  Calling it on or
    with a null pointer is undefined.  The keys of a MapPattern are tried in the
    hash table's order. *)
Fixpoint Match (c : cfg) (mem : memory) (p : pattern) (o : obj) {struct p} : outcome bool :=
  match p with
  | PatNull => UB
  | PatMap size kv =>
      let entries := hash_order c (map (fun e => (fst e, Match c mem (snd e))) kv) in
      match o with
      | ONull => UB
      | OMap _ n items => if size_ok size n then match_kv (fun k => Ok (Map_at items k)) entries else Ok false
      | OMapView _ n items => if size_ok size n then match_kv (MapView_at mem items) entries else Ok false
      | _ => Ok false
      end
  | PatArr fixed slots =>
      match o with
      | ONull => UB
      | OArray _ n items =>
          if fixed && negb (len slots =? n) then Ok false
          else match_slots (Array_at n items) 0 (map (Match c mem) slots)
      | _ => Ok false
      end
  | PatData dt =>
      match o with
      | ONull => UB
      | OData d _ | ODataView d _ => Ok (size_ok dt d)
      | _ => Ok false
      end
  | PatOr l => match_or (map (Match c mem) l) o
  | PatAnd l => match_and (map (Match c mem) l) o
  end.
