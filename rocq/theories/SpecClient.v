(** * Specification for programs using pools and containers together (C101-C103).

    No pointers, slots or blocks.  A program sees numbered pools, and numbered objects
    with their content.  Every object, and every entry of a container, has a home: the
    pool that keeps it alive.  Merging or moving a pool hands everything at home there
    over to the other pool; clearing, overwriting or destroying a pool ends everything at
    home there.  A call that looks at something that has no home any more is undefined.

    The calls themselves ([ccall], [bp_op]) are those of the API; the program's answers
    are numbers of objects. *)
From Verif Require Import Base ModelObject ModelStorage ModelFrames ModelClient.
Local Open Scope out_scope.

(** An entry of a container: key (empty for arrays), the object it refers to if any, and
    the home of the entry itself. *)
Record entry := { en_key : ckey; en_val : option nat; en_home : option nat }.

Inductive content :=
| SData (x : datum)
| SCont (l : list entry).     (* the newest entry first *)

(** An object: its class, the pool it was made from, its home and its content. *)
Record sobj := { so_cls : cls; so_made : nat; so_home : option nat; so_content : content }.

(** Which pools exist, and all objects ever made. *)
Record sstate := { st_alive : list bool; st_objs : list sobj }.
Definition sstate0 : sstate := {| st_alive := []; st_objs := [] |}.

Definition exists_pool (st : sstate) (i : nat) : bool :=
  match nth_error (st_alive st) i with Some b => b | None => false end.
Definition present (home : option nat) : bool := match home with Some _ => true | None => false end.

(** ** Pools *)
Definition rehome_all (f : nat -> option nat) (l : list sobj) : list sobj :=
  let g h := match h with Some i => f i | None => None end in
  map (fun o => {| so_cls := so_cls o; so_made := so_made o; so_home := g (so_home o);
                   so_content := match so_content o with
                                 | SData x => SData x
                                 | SCont es => SCont (map (fun e => {| en_key := en_key e; en_val := en_val e; en_home := g (en_home e) |}) es)
                                 end |}) l.

Definition only (c : bool) (st : sstate) : outcome sstate := if c then Ok st else UB.

Definition pool_call (st : sstate) (op : bp_op) : outcome sstate :=
  let n := length (st_alive st) in
  let ok := exists_pool st in
  match op with
  | BpNew => Ok {| st_alive := st_alive st ++ [true]; st_objs := st_objs st |}
  | BpAlloc _ _ _ => UB
  | BpMerge i j =>
      only (ok i && ok j && negb (Nat.eqb i j))
        {| st_alive := st_alive st;
           st_objs := rehome_all (fun h => Some (if Nat.eqb h j then i else h)) (st_objs st) |}
  | BpClear i =>
      only (ok i)
        {| st_alive := st_alive st;
           st_objs := rehome_all (fun h => if Nat.eqb h i then None else Some h) (st_objs st) |}
  | BpMove j =>
      only (ok j)
        {| st_alive := st_alive st ++ [true];
           st_objs := rehome_all (fun h => Some (if Nat.eqb h j then n else h)) (st_objs st) |}
  | BpAssign i j =>
      only (ok i && ok j && negb (Nat.eqb i j))
        {| st_alive := st_alive st;
           st_objs := rehome_all (fun h => if Nat.eqb h i then None else Some (if Nat.eqb h j then i else h)) (st_objs st) |}
  | BpDestroy i =>
      only (ok i)
        {| st_alive := firstn i (st_alive st) ++ false :: skipn (S i) (st_alive st);
           st_objs := rehome_all (fun h => if Nat.eqb h i then None else Some h) (st_objs st) |}
  end.

(** ** Objects *)
Definition set_obj (n : nat) (o : sobj) (st : sstate) : sstate :=
  {| st_alive := st_alive st; st_objs := firstn n (st_objs st) ++ o :: skipn (S n) (st_objs st) |}.
Definition with_content (c : content) (o : sobj) : sobj :=
  {| so_cls := so_cls o; so_made := so_made o; so_home := so_home o; so_content := c |}.

(** A new object in pool [i]. *)
Definition make (st : sstate) (i : nat) (k : cls) (c : content) : outcome sstate :=
  only (exists_pool st i)
    {| st_alive := st_alive st;
       st_objs := st_objs st ++ [{| so_cls := k; so_made := i; so_home := Some i; so_content := c |}] |}.

(** Object [n], if it is still there. *)
Definition the_obj (st : sstate) (n : nat) : outcome sobj :=
  match nth_error (st_objs st) n with
  | Some o => if present (so_home o) then Ok o else UB
  | None => UB
  end.
Definition entries (o : sobj) : outcome (list entry) := match so_content o with SCont l => Ok l | SData _ => UB end.
Definition value (o : sobj) : outcome datum := match so_content o with SData x => Ok x | SCont _ => UB end.
Definition key_for (k : cls) (key : ckey) : bool :=
  match k, key with KMap, RefKey _ | KMapView, OwnKey _ => false | _, _ => true end.
Definition is_array (o : sobj) : bool := cls_eqb (so_cls o) KArray.
Definition is_map (o : sobj) : bool := cls_eqb (so_cls o) KMap || cls_eqb (so_cls o) KMapView.

(** Looking at the entries one after the other, newest first. *)
Fixpoint goto (k : nat) (l : list entry) {struct l} : outcome (option nat) :=
  match l with
  | [] => Ok None
  | e :: l' => if present (en_home e) then match k with O => Ok (en_val e) | S k' => goto k' l' end else UB
  end.
Fixpoint seek (um : memory) (key : bytes) (l : list entry) : outcome (option nat) :=
  match l with
  | [] => Ok None
  | e :: l' => if present (en_home e) then kc <- key_content um (en_key e) ;; if bytes_eqb kc key then Ok (en_val e) else seek um key l' else UB
  end.
Fixpoint seek_take (um : memory) (key : bytes) (l : list entry) : outcome (option nat * list entry) :=
  match l with
  | [] => Ok (None, [])
  | e :: l' =>
      if present (en_home e) then
        kc <- key_content um (en_key e) ;;
        if bytes_eqb kc key
        then Ok (en_val e, {| en_key := en_key e; en_val := None; en_home := en_home e |} :: l')
        else '(v, r) <- seek_take um key l' ;; Ok (v, e :: r)
      else UB
  end.
Fixpoint see_all (l : list entry) : outcome (list (ckey * option nat)) :=
  match l with
  | [] => Ok []
  | e :: l' => if present (en_home e) then r <- see_all l' ;; Ok ((en_key e, en_val e) :: r) else UB
  end.

(** The whole tree below an object (what Serialize and dump visit); a null entry is [ONull]. *)
Fixpoint see_children (f : nat -> outcome obj) (l : list (ckey * option nat)) : outcome (list (ckey * obj)) :=
  match l with
  | [] => Ok []
  | (key, v) :: l' =>
      t <- match v with None => Ok ONull | Some n => f n end ;;
      r <- see_children f l' ;; Ok ((key, t) :: r)
  end.
Fixpoint see_tree (depth : nat) (st : sstate) (n : nat) : outcome obj :=
  match depth with
  | O => Fuel
  | S d =>
      o <- the_obj st n ;;
      match so_content o with
      | SData x => Ok (data_obj (so_cls o) x)
      | SCont es => l <- see_all es ;; ts <- see_children (see_tree d st) l ;; Ok (cont_obj (so_cls o) (so_made o) (len es) ts)
      end
  end.

(** A tree without the pools its containers were made from. *)
Fixpoint no_pools (o : obj) : obj :=
  match o with
  | OArray _ size l => OArray CoroFrame size (map no_pools l)
  | OMap _ size l => OMap CoroFrame size (map (fun e => (fst e, no_pools (snd e))) l)
  | OMapView _ size l => OMapView CoroFrame size (map (fun e => (fst e, no_pools (snd e))) l)
  | o => o
  end.

(** ** Calls *)
Inductive sanswer :=
| SaNone | SaNum (n : N) | SaPtr (v : option nat) | SaList (l : list (ckey * option nat))
| SaData (x : datum) | SaView (t : obj).

Definition known (st : sstate) (v : option nat) : bool :=
  match v with None => true | Some n => (n <? length (st_objs st))%nat end.

Definition spec_step (st : sstate) (op : ccall) : outcome (sstate * sanswer) :=
  match op with
  | CPool o => st' <- pool_call st o ;; Ok (st', SaNone)
  | CData i v x => st' <- make st i (if v then KDataView else KData) (SData x) ;; Ok (st', SaNone)
  | CCont i k =>
      match k with
      | KArray | KMap | KMapView => st' <- make st i k (SCont []) ;; Ok (st', SaNone)
      | _ => UB
      end
  | CScratch i _ => st' <- only (exists_pool st i) st ;; Ok (st', SaNone)
  | CInsert c key v =>
      (* the container is there, and so is the pool it was made from; maps own their keys, map views refer to them *)
      o <- the_obj st c ;; l <- entries o ;;
      if exists_pool st (so_made o) && known st v && key_for (so_cls o) key then
        let e := {| en_key := if is_array o then OwnKey [] else key; en_val := v; en_home := Some (so_made o) |} in
        Ok (set_obj c (with_content (SCont (e :: l)) o) st, SaNone)
      else UB
  | CAppend j c key v =>
      (* the parser's way of filling a container: a new entry, from a pool of its own, behind the others *)
      o <- the_obj st c ;; l <- entries o ;;
      if known st v && key_for (so_cls o) key then
        _ <- see_all l ;;
        if exists_pool st j then
          let e := {| en_key := if is_array o then OwnKey [] else key; en_val := v; en_home := Some j |} in
          Ok (set_obj c (with_content (SCont (l ++ [e])) o) st, SaNone)
        else UB
      else UB
  | CClear c => o <- the_obj st c ;; _ <- entries o ;; Ok (set_obj c (with_content (SCont []) o) st, SaNone)
  | CTake um c key =>
      o <- the_obj st c ;; l <- entries o ;;
      if is_map o then '(v, l') <- seek_take um key l ;; Ok (set_obj c (with_content (SCont l') o) st, SaPtr v) else UB
  | CSize c => o <- the_obj st c ;; l <- entries o ;; Ok (st, SaNum (len l))
  | CAt c n =>
      o <- the_obj st c ;; l <- entries o ;;
      if is_array o then
        if len l <=? n then Ok (st, SaPtr None)
        else v <- goto (N.to_nat (len l - 1 - n)) l ;; Ok (st, SaPtr v)
      else UB
  | CLookup um c key =>
      o <- the_obj st c ;; l <- entries o ;;
      if is_map o then v <- seek um key l ;; Ok (st, SaPtr v) else UB
  | CIterate c => o <- the_obj st c ;; l <- entries o ;; r <- see_all l ;; Ok (st, SaList r)
  | CRead d => o <- the_obj st d ;; x <- value o ;; Ok (st, SaData x)
  | CAssign d x => o <- the_obj st d ;; _ <- value o ;; Ok (set_obj d (with_content (SData x) o) st, SaNone)
  | CView depth c => if known st (Some c) then t <- see_tree depth st c ;; Ok (st, SaView t) else UB
  end.

Fixpoint spec_run (st : sstate) (ops : list ccall) : outcome (sstate * list sanswer) :=
  match ops with
  | [] => Ok (st, [])
  | op :: ops' =>
      '(st1, a) <- spec_step st op ;;
      '(st2, r) <- spec_run st1 ops' ;;
      Ok (st2, a :: r)
  end.

(** The program's pointers stand for the specification's numbers: [vars] is the list of
    pointers the creating calls returned. *)
Definition same_ptr (vars : list addr) (a : option addr) (v : option nat) : Prop :=
  match v with None => a = None | Some n => a <> None /\ a = nth_error vars n end.
Definition same_answer (vars : list addr) (a : canswer) (sa : sanswer) : Prop :=
  match a, sa with
  | AnNone, SaNone => True
  | AnNum n, SaNum n' => n = n'
  | AnPtr p, SaPtr v => same_ptr vars p v
  | AnList l, SaList l' => Forall2 (fun x y => fst x = fst y /\ same_ptr vars (snd x) (snd y)) l l'
  | AnData x, SaData x' => x = x'
  | AnView t, SaView t' => t = t'
  | _, _ => False
  end.
