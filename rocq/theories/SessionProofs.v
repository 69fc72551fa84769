(** * Proofs about sessions: the parser's steps in memory build the parser's result. *)
From Verif Require Import Base BaseLemmas ModelVarint ModelData ModelSecondary ModelObject ModelParse ModelWrapper ModelPool ModelStorage ModelFrames
  ModelAlloc ModelClient ModelSession Spec SpecClient ParseLemmas PropPool PropFrames ClientProofs PropClient GeneralProofs PropAlloc PropInsitu PropInsituAny.
From Coq Require Import ZifyBool ZifyNat ZifyN.
Local Open Scope out_scope.

(** ** Trees made of objects from a number on, at home in certain pools *)
Definition home_in (P : nat -> bool) (h : option nat) : bool := match h with Some i => P i | None => false end.
Lemma home_in_present P h : home_in P h = true -> present h = true.
Proof. destruct h; [reflexivity|discriminate]. Qed.
Section Kids.
  Variable P : nat -> bool.
  Variable f : nat -> outcome obj.
  Fixpoint kids (es : list entry) : outcome (list (ckey * obj)) :=
    match es with
    | [] => Ok []
    | e :: es' =>
        if home_in P (en_home e) then
          t <- match en_val e with None => Ok ONull | Some k => f k end ;;
          r <- kids es' ;; Ok ((en_key e, t) :: r)
        else UB
    end.
End Kids.
Fixpoint see_from (P : nat -> bool) (lo d : nat) (st : sstate) (n : nat) : outcome obj :=
  match d with
  | O => Fuel
  | S d' =>
      if (n <? lo)%nat then UB else
      o <- the_obj st n ;;
      if negb (home_in P (so_home o)) then UB else
      match so_content o with
      | SData x => Ok (data_obj (so_cls o) x)
      | SCont es => ts <- kids P (see_from P lo d' st) es ;; Ok (cont_obj (so_cls o) (so_made o) (len es) ts)
      end
  end.

Lemma kids_len P f es l : kids P f es = Ok l -> length l = length es.
Proof.
  revert l. induction es as [|e es IH]; intros l H; cbn in H; [inversion H; reflexivity|].
  destruct (home_in P (en_home e)); [|discriminate]. apply obind_ok in H as (t & _ & H). apply obind_ok in H as (r & Hr & H). inversion H; subst. cbn. f_equal. auto.
Qed.
Lemma kids_impl (P P' : nat -> bool) f g es : (forall h, P h = true -> P' h = true) -> (forall k o, f k = Ok o -> g k = Ok o) -> forall l, kids P f es = Ok l -> kids P' g es = Ok l.
Proof.
  intros HP Hfg. induction es as [|e es IH]; intros l H; cbn in H |- *; [exact H|]. destruct (home_in P (en_home e)) eqn:Eh; [|discriminate].
  assert (home_in P' (en_home e) = true) as -> by (destruct (en_home e); [now apply HP|discriminate]).
  apply obind_ok in H as (t & Ht & H). apply obind_ok in H as (r & Hr & H). rewrite (IH r Hr).
  destruct (en_val e) as [k|]; [rewrite (Hfg k t Ht)|rewrite Ht]; exact H.
Qed.
Lemma kids_app P f a b la lb : kids P f a = Ok la -> kids P f b = Ok lb -> kids P f (a ++ b) = Ok (la ++ lb).
Proof.
  revert la. induction a as [|e a IH]; intros la H Hb; cbn in H |- *; [inversion H; exact Hb|]. destruct (home_in P (en_home e)); [|discriminate].
  apply obind_ok in H as (t & Ht & H). apply obind_ok in H as (r & Hr & H). inversion H; subst. rewrite Ht. cbn [obind]. rewrite (IH r Hr Hb). reflexivity.
Qed.

(** The same tree elsewhere: other objects may change, more may come, the depth may grow. *)
Lemma see_from_ext (P P' : nat -> bool) lo lo' st st' : (forall h, P h = true -> P' h = true) -> (lo' <= lo)%nat ->
  (forall j o, (lo <= j)%nat -> nth_error (st_objs st) j = Some o -> nth_error (st_objs st') j = Some o) ->
  forall d d' n o, (d <= d')%nat -> see_from P lo d st n = Ok o -> see_from P' lo' d' st' n = Ok o.
Proof.
  intros HP Hlo Hst. induction d as [|d IH]; intros d' n o Hd H; [discriminate H|]. destruct d' as [|d']; [lia|].
  cbn [see_from] in H |- *. destruct (Nat.ltb_spec n lo); [discriminate H|]. destruct (Nat.ltb_spec n lo'); [lia|].
  apply obind_ok in H as (ob & Hob & H). apply the_obj_some in Hob as [Hob Hh]. unfold the_obj. rewrite (Hst n ob) by (assumption || lia).
  destruct (so_home ob) as [h|] eqn:Eh; [|congruence]. cbn [present obind]. rewrite Eh. cbn [home_in negb] in *.
  destruct (P h) eqn:Ep; [|discriminate H]. rewrite (HP h Ep). cbn [negb] in *. destruct (so_content ob) as [x|es]; [exact H|].
  apply obind_ok in H as (ts & Hts & H). erewrite kids_impl; [|exact HP|intros k t Hk; apply (IH d' k t); [lia|exact Hk]|exact Hts]. exact H.
Qed.
Lemma see_from_tree P lo st : forall d n o, see_from P lo d st n = Ok o -> see_tree d st n = Ok o.
Proof.
  induction d as [|d IH]; intros n o H; [discriminate H|]. cbn [see_from see_tree] in *. destruct (n <? lo)%nat; [discriminate H|].
  destruct (the_obj st n) as [ob| | | |]; try discriminate H. cbn [obind] in *. destruct (negb _); [discriminate H|]. destruct (so_content ob) as [x|es]; [exact H|].
  apply obind_ok in H as (ts & Hts & H). inversion H; subst. clear H.
  assert (Hk : exists l, see_all es = Ok l /\ see_children (see_tree d st) l = Ok ts).
  { revert ts Hts. induction es as [|e es IHe]; intros ts H; cbn in H |- *; [inversion H; subst; exists []; auto|]. destruct (home_in P (en_home e)) eqn:Eh; [|discriminate].
    rewrite (home_in_present _ _ Eh).
    apply obind_ok in H as (t & Ht & H). apply obind_ok in H as (r & Hr & H). inversion H; subst. destruct (IHe r Hr) as (l & -> & Hl). cbn [obind].
    eexists. split; [reflexivity|]. cbn [see_children]. destruct (en_val e) as [k|]; [rewrite (IH k t Ht)|rewrite Ht]; cbn [obind]; rewrite Hl; reflexivity. }
  destruct Hk as (l & -> & Hl). cbn [obind]. rewrite Hl. reflexivity.
Qed.

(** Everything at home in these pools moves to others. *)
Lemma rehome_fo f l : rehome_all f l = map (fo f) l.
Proof. reflexivity. Qed.
Lemma kids_rehome f (P P' : nat -> bool) g g' es : (forall h, P h = true -> exists h', f h = Some h' /\ P' h' = true) ->
  (forall k o, g k = Ok o -> g' k = Ok o) -> forall l, kids P g es = Ok l -> kids P' g' (map (fe f) es) = Ok l.
Proof.
  intros HP Hg. induction es as [|e es IH]; intros l H; cbn [kids map] in H |- *; [exact H|]. destruct (home_in P (en_home e)) eqn:Eh; [|discriminate H].
  destruct (en_home e) as [h|] eqn:Ee; [|discriminate Eh]. cbn [home_in] in Eh. destruct (HP h Eh) as (h' & Hf & Hp'). cbn [fe en_home en_val en_key]. rewrite Ee. cbn [ohome]. rewrite Hf. cbn [home_in]. rewrite Hp'.
  apply obind_ok in H as (t & Ht & H). apply obind_ok in H as (r & Hr & H). rewrite (IH r Hr). destruct (en_val e) as [k|]; [rewrite (Hg k t Ht)|rewrite Ht]; exact H.
Qed.
Lemma see_from_rehome f (P P' : nat -> bool) lo st alive' : (forall h, P h = true -> exists h', f h = Some h' /\ P' h' = true) ->
  forall d n o, see_from P lo d st n = Ok o -> see_from P' lo d {| st_alive := alive'; st_objs := rehome_all f (st_objs st) |} n = Ok o.
Proof.
  intros HP. induction d as [|d IH]; intros n o H; [discriminate H|]. cbn [see_from] in H |- *. destruct (n <? lo)%nat; [discriminate H|].
  apply obind_ok in H as (ob & Hob & H). apply the_obj_some in Hob as [Hob Hh]. unfold the_obj. cbn [st_objs]. rewrite rehome_fo, nth_error_map, Hob. cbn [option_map].
  destruct (so_home ob) as [h|] eqn:Eh; [|congruence]. cbn [home_in negb] in H. destruct (P h) eqn:Ep; [|discriminate H]. destruct (HP h Ep) as (h' & Hf & Hp').
  assert (Hfo : so_home (fo f ob) = Some h') by (cbn [fo so_home]; rewrite Eh; exact Hf). rewrite Hfo. cbn [present obind]. rewrite Hfo. cbn [home_in]. rewrite Hp'. cbn [negb fo so_content so_cls so_made] in *.
  destruct (so_content ob) as [x|es]; [exact H|]. apply obind_ok in H as (ts & Hts & H).
  erewrite (kids_rehome f P P'); [|exact HP|exact IH|exact Hts]. cbn [obind] in *. inversion H; subst. unfold len. rewrite map_length. reflexivity.
Qed.

(** ** Extending a state *)
(** [n] was filled; before [n] and after it nothing that was there changed. *)
Definition filled (i n : nat) (st st' : sstate) : Prop :=
  st_alive st' = st_alive st /\ (length (st_objs st) <= length (st_objs st'))%nat /\
  (forall j o, j <> n -> nth_error (st_objs st) j = Some o -> nth_error (st_objs st') j = Some o) /\
  (forall o, nth_error (st_objs st) n = Some o -> exists o', nth_error (st_objs st') n = Some o' /\
     so_cls o' = so_cls o /\ so_made o' = so_made o /\ so_home o' = so_home o).

Lemma filled_refl i n st : filled i n st st.
Proof. repeat split; auto. intros o Ho. exists o. auto. Qed.
Lemma filled_trans i n a b c : filled i n a b -> filled i n b c -> filled i n a c.
Proof.
  intros (A1 & A2 & A3 & A4) (B1 & B2 & B3 & B4). repeat split; try congruence; try lia; auto.
  intros o Ho. destruct (A4 o Ho) as (o1 & H1 & E1 & E2 & E3). destruct (B4 o1 H1) as (o2 & H2 & E4 & E5 & E6). exists o2. repeat split; congruence.
Qed.
Lemma filled_set i n st o c : nth_error (st_objs st) n = Some o -> filled i n st (set_obj n (with_content c o) st).
Proof.
  intros Ho. assert (Hn : (n < length (st_objs st))%nat) by (apply nth_error_Some; congruence). unfold set_obj. rewrite put_spec by exact Hn.
  split; [reflexivity|]. cbn [st_objs]. split; [rewrite put_length; lia|]. split.
  - intros j ob Hj Hob. rewrite nth_error_put by exact Hn. destruct (Nat.eqb_spec j n); [contradiction|exact Hob].
  - intros o' Ho'. rewrite nth_error_put by exact Hn. rewrite Nat.eqb_refl. eexists. split; [reflexivity|]. assert (o' = o) by congruence. subst. auto.
Qed.

Lemma spec_run_app a : forall b st st1 r1, spec_run st a = Ok (st1, r1) ->
  spec_run st (a ++ b) = ('(st2, r2) <- spec_run st1 b ;; Ok (st2, r1 ++ r2)).
Proof.
  induction a as [|op a IH]; intros b st st1 r1 H; cbn [app spec_run] in *.
  - inversion H; subst. destruct (spec_run st1 b) as [[? ?]| | | |]; reflexivity.
  - destruct (spec_step st op) as [[st2 x]| | | |]; try discriminate H. cbn [obind] in *. apply obind_ok in H as ([st3 r3] & H3 & H). inversion H; subst.
    rewrite (IH b _ _ _ H3). destruct (spec_run st1 b) as [[? ?]| | | |]; reflexivity.
Qed.

(** [n] is an object made by the parser in pool [i], of class [k]. *)
Definition ready (i : nat) (k : cls) (st : sstate) (n : nat) : Prop :=
  exists o, nth_error (st_objs st) n = Some o /\ so_cls o = k /\ so_made o = i /\ so_home o = Some i /\
    match k with KArray | KMap | KMapView => exists l, so_content o = SCont l | _ => exists x, so_content o = SData x end.

Lemma pr_cases E get pr s o s' : run get (Data_valueParse E pr s) = Ok (o, s') ->
  exists dt x, (o = OData dt x /\ pr = false) \/ (o = ODataView dt x /\ pr = true).
Proof.
  unfold Data_valueParse. rewrite run_bind, run_lift. intros H. apply obind_ok in H as ([dt s1] & _ & H).
  destruct (negb (valid_data_type dt)); [discriminate|]. destruct (_ && _).
  - rewrite run_bind, run_lift in H. apply obind_ok in H as ([id s2] & _ & H). cbn [run] in H. apply obind_ok in H as (v & _ & H). destruct pr.
    + injection H as <- <-. eauto.
    + rewrite run_bind, run_lift in H. apply obind_ok in H as (x & _ & H). injection H as <- <-. eauto.
  - rewrite run_bind, run_lift in H. apply obind_ok in H as ([sz s2] & _ & H). rewrite run_bind, run_lift in H. apply obind_ok in H as (a & _ & H).
    rewrite run_bind, run_lift in H. apply obind_ok in H as (d & _ & H). rewrite run_bind, run_lift in H. apply obind_ok in H as (x & _ & H).
    cbn [run] in H. destruct pr; injection H as <- <-; eauto.
Qed.

Section Build.
  Variable E : penv.
  Variable get : N -> outcome view.
  Variable i : nat.
  Variable pr : bool.
  Notation R := (b_env E).
  Notation p := (PoolId i).
  Notation Pi := (Nat.eqb i).

  Lemma value_calls_S f t s n m : value_calls E get p i pr (S f) t s n m =
    match t with
    | TData =>
        (match run get (Data_valueParse E pr s) with
         | Ok (OData dt x, _) | Ok (ODataView dt x, _) => [CAssign n (dt, x)]
         | _ => []
         end, m)
    | _ =>
        let r :=
          match obind (parseLength R s) (fun x => omap (fun y => (fst x, snd y)) (parseLength R (snd x))) with
          | Ok (count, s2) =>
              match t with
              | TArray => array_calls E get p i pr f count s2 n m
              | _ => if pr then entry_calls E get p i pr f count s2 n m
                     else match check_oor R s2 with Ok _ => entry_calls E get p i pr f count s2 n m | _ => ([], m) end
              end
          | _ => ([], m)
          end in
        (CClear n :: fst r, snd r)
    end.
  Proof. reflexivity. Qed.
  Lemma array_calls_S f count s n m : array_calls E get p i pr (S f) count s n m =
    if count =? 0 then ([], m)
    else match parseObjectType R s with
         | Ok (t, s1) =>
             let c1 := value_calls E get p i pr f t s1 m (S m) in
             match run get (valueParse E p pr f t s1) with
             | Ok (_, s2) =>
                 let c2 := array_calls E get p i pr f (count - 1) s2 n (snd c1) in
                 (make_call i pr t :: fst c1 ++ CAppend i n (OwnKey []) (Some m) :: fst c2, snd c2)
             | _ => (make_call i pr t :: fst c1, snd c1)
             end
         | _ => ([], m)
         end.
  Proof. reflexivity. Qed.
  Lemma entry_calls_S f count s n m : entry_calls E get p i pr (S f) count s n m =
    if count =? 0 then ([], m)
    else match run get (parse_key E s) with
         | Ok (kv, s1) =>
             match parseObjectType R s1 with
             | Ok (t, s2) =>
                 let c1 := value_calls E get p i pr f t s2 m (S m) in
                 match run get (valueParse E p pr f t s2) with
                 | Ok (_, s3) =>
                     match (if pr then Ok (RefKey kv) else omap OwnKey (read_local R kv)) with
                     | Ok key =>
                         let c2 := entry_calls E get p i pr f (count - 1) s3 n (snd c1) in
                         (make_call i pr t :: fst c1 ++ CInsert n key (Some m) :: fst c2, snd c2)
                     | _ => (make_call i pr t :: fst c1, snd c1)
                     end
                 | _ => (make_call i pr t :: fst c1, snd c1)
                 end
             | _ => ([], m)
             end
         | _ => ([], m)
         end.
  Proof. reflexivity. Qed.

  (** A new child. *)
  Lemma make_ok st t : exists_pool st i = true ->
    exists st1, spec_step st (make_call i pr t) = Ok (st1, SaNone) /\ st_alive st1 = st_alive st /\
      length (st_objs st1) = S (length (st_objs st)) /\ ready i (kind pr t) st1 (length (st_objs st)) /\
      (forall j o, nth_error (st_objs st) j = Some o -> nth_error (st_objs st1) j = Some o).
  Proof.
    intros Hi.
    assert (H : exists c, spec_step st (make_call i pr t) = Ok ({| st_alive := st_alive st; st_objs := st_objs st ++ [{| so_cls := kind pr t; so_made := i; so_home := Some i; so_content := c |}] |}, SaNone) /\
       match kind pr t with KArray | KMap | KMapView => exists l, c = SCont l | _ => exists x, c = SData x end).
    { destruct t; unfold make_call; cbn [kind].
      - cbn [spec_step]. unfold make, only. rewrite Hi. cbn [obind]. eexists. split; [reflexivity|]. destruct pr; eexists; reflexivity.
      - destruct pr; cbn [spec_step]; unfold make, only; rewrite Hi; cbn [obind]; (eexists; split; [reflexivity|]; eexists; reflexivity).
      - cbn [spec_step]. unfold make, only. rewrite Hi. cbn [obind]. eexists. split; [reflexivity|]. eexists; reflexivity. }
    destruct H as (c & -> & Hc). eexists. split; [reflexivity|]. cbn [st_alive st_objs]. split; [reflexivity|]. split; [rewrite app_length; cbn; lia|]. split.
    - eexists. cbn [st_objs]. rewrite nth_error_app2 by lia. rewrite Nat.sub_diag. cbn [nth_error]. split; [reflexivity|]. cbn. auto.
    - intros j o Hj. rewrite nth_error_app1; [exact Hj|]. apply nth_error_Some. congruence.
  Qed.

  (** The tree at [n] has root [o], and its children do not contain [n]. *)
  Definition rooted (st : sstate) (n : nat) (o : obj) : Prop :=
    exists ob, the_obj st n = Ok ob /\
      match so_content ob with
      | SData x => o = data_obj (so_cls ob) x
      | SCont es => match so_cls ob with KArray | KMap | KMapView => True | _ => False end /\
          Forall (fun e => key_for (so_cls ob) (en_key e) = true) es /\
          exists d L, kids Pi (see_from Pi (S n) d st) es = Ok L /\ o = cont_obj (so_cls ob) (so_made ob) (len es) L
      end.

  Definition fills_value (f : nat) : Prop := forall t s n st, exists_pool st i = true -> ready i (kind pr t) st n ->
    let c := value_calls E get p i pr f t s n (length (st_objs st)) in
    exists st' r, spec_run st (fst c) = Ok (st', r) /\ filled i n st st' /\ length (st_objs st') = snd c /\
      forall o s', run get (valueParse E p pr f t s) = Ok (o, s') -> rooted st' n o /\ exists d, see_from Pi n d st' n = Ok o.

  (** Creating and filling a child. *)
  Lemma child_ok f t s st : fills_value f -> exists_pool st i = true ->
    let m := length (st_objs st) in
    let c := value_calls E get p i pr f t s m (S m) in
    exists st' r, spec_run st (make_call i pr t :: fst c) = Ok (st', r) /\ st_alive st' = st_alive st /\ length (st_objs st') = snd c /\
      (m < length (st_objs st'))%nat /\
      (forall j o, nth_error (st_objs st) j = Some o -> nth_error (st_objs st') j = Some o) /\
      forall o s', run get (valueParse E p pr f t s) = Ok (o, s') -> rooted st' m o /\ exists d, see_from Pi m d st' m = Ok o.
  Proof.
    intros IV Hi m c. destruct (make_ok st t Hi) as (st1 & H1 & Ha1 & Hl1 & Hr1 & Hk1).
    assert (Hi1 : exists_pool st1 i = true) by (unfold exists_pool in *; rewrite Ha1; exact Hi).
    destruct (IV t s m st1 Hi1 Hr1) as (st2 & r & H2 & (F1 & F2 & F3 & F4) & Hl2 & Hs). rewrite Hl1 in H2, Hl2, F2. fold m in H2, Hl2, F2. fold c in H2, Hl2.
    exists st2. eexists. cbn [spec_run]. rewrite H1. cbn [obind]. rewrite H2. cbn [obind]. split; [reflexivity|]. split; [congruence|]. split; [exact Hl2|]. split; [lia|]. split; [|exact Hs].
    intros j o Hj. apply F3; [|now apply Hk1]. assert (j < m)%nat by (apply nth_error_Some; congruence). lia.
  Qed.

  (** The container being filled: its entries so far. *)
  Definition has (st : sstate) (n : nat) (k : cls) (es : list entry) : Prop :=
    exists o, nth_error (st_objs st) n = Some o /\ so_cls o = k /\ so_made o = i /\ so_home o = Some i /\ so_content o = SCont es /\
      Forall (fun e => key_for k (en_key e) = true) es.

  Lemma has_keep st st' n k es : has st n k es -> (forall j o, nth_error (st_objs st) j = Some o -> nth_error (st_objs st') j = Some o) -> has st' n k es.
  Proof. intros (o & H1 & H2) H. exists o. split; [now apply H|exact H2]. Qed.

  Lemma kids_seen P f es l : kids P f es = Ok l -> exists ys, see_all es = Ok ys.
  Proof.
    revert l. induction es as [|e es IH]; intros l H; cbn in H |- *; [eauto|]. destruct (home_in P (en_home e)) eqn:Eh; [|discriminate]. rewrite (home_in_present _ _ Eh).
    apply obind_ok in H as (t & _ & H). apply obind_ok in H as (r & Hr & _). destruct (IH r Hr) as (ys & ->). cbn. eauto.
  Qed.

  (** Adding an entry that refers to the newest tree. *)
  Lemma add_ok st st2 n k es es' (e : entry) ob d dc L o : let m := length (st_objs st) in
    has st n k es -> st_alive st2 = st_alive st -> (forall j x, nth_error (st_objs st) j = Some x -> nth_error (st_objs st2) j = Some x) ->
    nth_error (st_objs st2) n = Some ob ->
    kids Pi (see_from Pi (S n) d st) es = Ok L -> see_from Pi m dc st2 m = Ok o -> en_val e = Some m -> en_home e = Some i ->
    (Forall (fun e => key_for k (en_key e) = true) es -> Forall (fun e => key_for k (en_key e) = true) es') ->
    let st3 := set_obj n (with_content (SCont es') ob) st2 in
    has st3 n k es' /\ filled i n st st3 /\ st_alive st3 = st_alive st /\ length (st_objs st3) = length (st_objs st2) /\
    kids Pi (see_from Pi (S n) (Nat.max d dc) st3) es = Ok L /\ kids Pi (see_from Pi (S n) (Nat.max d dc) st3) [e] = Ok [(en_key e, o)].
  Proof.
    intros m (ob0 & Hob0 & Hc & Hm & Hh & Hes & Hkf) Ha Hk Hob HL Ho He Heh Hkf' st3.
    assert (ob = ob0) by (apply Hk in Hob0; congruence). subst ob0.
    assert (Hn : (n < m)%nat) by (apply nth_error_Some; congruence).
    assert (Hn2 : (n < length (st_objs st2))%nat) by (apply nth_error_Some; congruence).
    pose proof (filled_set i n st2 ob (SCont es') Hob) as (F1 & F2 & F3 & F4). fold st3 in F1, F2, F3, F4.
    assert (Hput : st_objs st3 = put n (with_content (SCont es') ob) (st_objs st2)) by (unfold st3, set_obj; cbn [st_objs]; now apply put_spec).
    split; [|split; [|split; [|split; [|split]]]].
    - exists (with_content (SCont es') ob). rewrite Hput, nth_error_put by exact Hn2. rewrite Nat.eqb_refl. repeat split; auto.
    - split; [congruence|]. rewrite Hput, put_length. split; [|split].
      + destruct (Nat.le_gt_cases (length (st_objs st)) (length (st_objs st2))) as [?|Hgt]; [assumption|]. exfalso.
        assert (Hx : nth_error (st_objs st) (length (st_objs st2)) <> None) by (apply nth_error_Some; lia).
        destruct (nth_error (st_objs st) (length (st_objs st2))) as [x|] eqn:Ex; [|congruence]. apply Hk in Ex.
        assert (length (st_objs st2) < length (st_objs st2))%nat by (apply nth_error_Some; congruence). lia.
      + intros j x Hj Hx. rewrite nth_error_put by exact Hn2. destruct (Nat.eqb_spec j n); [contradiction|]. now apply Hk.
      + intros x Hx. rewrite nth_error_put by exact Hn2. rewrite Nat.eqb_refl. eexists. split; [reflexivity|]. assert (x = ob) by (apply Hk in Hx; congruence). subst. auto.
    - congruence.
    - rewrite Hput. apply put_length.
    - eapply (kids_impl Pi Pi); [auto| |exact HL]. intros j x Hx. eapply (see_from_ext Pi Pi); [auto|apply Nat.le_refl| |apply Nat.le_max_l|exact Hx].
      intros q y Hq Hy. apply F3; [lia|]. now apply Hk.
    - cbn [kids]. rewrite Heh, He. cbn [home_in]. rewrite Nat.eqb_refl. cbn [obind].
      erewrite (see_from_ext Pi Pi m (S n) st2 st3); [reflexivity|auto|lia| |apply Nat.le_max_r|exact Ho].
      intros q y Hq Hy. apply F3; [lia|exact Hy].
  Qed.

  Lemma filled_keep st st2 n k es : has st n k es -> st_alive st2 = st_alive st -> (length (st_objs st) <= length (st_objs st2))%nat ->
    (forall j x, nth_error (st_objs st) j = Some x -> nth_error (st_objs st2) j = Some x) -> filled i n st st2.
  Proof. intros _ Ha Hl Hk. repeat split; auto. intros o Ho. exists o. auto. Qed.

  Lemma append_step st n es v ys : exists_pool st i = true -> has st n KArray es -> (v < length (st_objs st))%nat -> see_all es = Ok ys ->
    exists ob, nth_error (st_objs st) n = Some ob /\
    spec_step st (CAppend i n (OwnKey []) (Some v)) = Ok (set_obj n (with_content (SCont (es ++ [{| en_key := OwnKey []; en_val := Some v; en_home := Some i |}])) ob) st, SaNone).
  Proof.
    intros Hi (ob & Hob & Hc & Hm & Hh & Hes & _) Hv Hys. exists ob. split; [exact Hob|]. cbn [spec_step]. unfold the_obj. rewrite Hob, Hh. cbn [present obind]. unfold entries. rewrite Hes. cbn [obind].
    unfold is_array. rewrite Hc. cbn [cls_eqb known key_for]. destruct (Nat.ltb_spec v (length (st_objs st))); [|lia]. cbn [andb]. rewrite Hys. cbn [obind]. rewrite Hi. reflexivity.
  Qed.
  Lemma insert_step st n es v key : exists_pool st i = true -> has st n (kind pr TMap) es -> (v < length (st_objs st))%nat -> key_for (kind pr TMap) key = true ->
    exists ob, nth_error (st_objs st) n = Some ob /\
    spec_step st (CInsert n key (Some v)) = Ok (set_obj n (with_content (SCont ({| en_key := key; en_val := Some v; en_home := Some i |} :: es)) ob) st, SaNone).
  Proof.
    intros Hi (ob & Hob & Hc & Hm & Hh & Hes & _) Hv Hkey. exists ob. split; [exact Hob|]. cbn [spec_step]. unfold the_obj. rewrite Hob, Hh. cbn [present obind]. unfold entries. rewrite Hes. cbn [obind].
    rewrite Hm, Hi, Hc, Hkey. cbn [known]. destruct (Nat.ltb_spec v (length (st_objs st))); [|lia]. cbn [andb].
    unfold is_array. rewrite Hc. destruct pr; reflexivity.
  Qed.

  Notation owns_of := (fun e : ckey * obj => (own_of (fst e), snd e)).
  Notation refs_of := (fun e : ckey * obj => (ref_of (fst e), snd e)).

  Lemma build : forall fuel,
    fills_value fuel /\
    (forall count s n st es d L acc, exists_pool st i = true -> has st n KArray es -> kids Pi (see_from Pi (S n) d st) es = Ok L -> map snd L = rev acc ->
       let c := array_calls E get p i pr fuel count s n (length (st_objs st)) in
       exists st' r, spec_run st (fst c) = Ok (st', r) /\ filled i n st st' /\ length (st_objs st') = snd c /\
         forall l s', run get (array_loop E p pr fuel count s acc) = Ok (l, s') ->
           exists es' d' L', has st' n KArray es' /\ kids Pi (see_from Pi (S n) d' st') es' = Ok L' /\ map snd L' = rev l /\ len es' = len es + count) /\
    (forall count s n st es d L, exists_pool st i = true -> has st n (kind pr TMap) es -> kids Pi (see_from Pi (S n) d st) es = Ok L ->
       let c := entry_calls E get p i pr fuel count s n (length (st_objs st)) in
       exists st' r, spec_run st (fst c) = Ok (st', r) /\ filled i n st st' /\ length (st_objs st') = snd c /\
         (pr = false -> forall l s', run get (map_loop E p pr fuel count s (map owns_of L)) = Ok (l, s') ->
           exists es' d' L', has st' n KMap es' /\ kids Pi (see_from Pi (S n) d' st') es' = Ok L' /\ map owns_of L' = l /\ len es' = len es + count) /\
         (pr = true -> forall l s', run get (mapview_loop E p pr fuel count s (map refs_of L)) = Ok (l, s') ->
           exists es' d' L', has st' n KMapView es' /\ kids Pi (see_from Pi (S n) d' st') es' = Ok L' /\ map refs_of L' = l /\ len es' = len es + count)).
  Proof.
    induction fuel as [|f (IV & IA & IM)].
    { split; [|split].
      - intros t s n st Hi Hr c. exists st, []. cbn. split; [reflexivity|]. split; [apply filled_refl|]. split; [reflexivity|]. discriminate.
      - intros count s n st es d L acc Hi Hh HL Hacc c. exists st, []. cbn. split; [reflexivity|]. split; [apply filled_refl|]. split; [reflexivity|]. discriminate.
      - intros count s n st es d L Hi Hh HL c. exists st, []. cbn. split; [reflexivity|]. split; [apply filled_refl|]. split; [reflexivity|]. split; discriminate. }
    split; [|split].
    - (* one value *)
      intros t s n st Hi (ob & Hob & Hc & Hm & Hh & Hct) c. subst c. rewrite value_calls_S. cbn [valueParse].
      assert (Hclear : forall es, so_content ob = SCont es -> spec_step st (CClear n) = Ok (set_obj n (with_content (SCont []) ob) st, SaNone)).
      { intros es Hes. cbn [spec_step]. unfold the_obj. rewrite Hob, Hh. cbn [present obind]. unfold entries. rewrite Hes. reflexivity. }
      assert (Hn : (n < length (st_objs st))%nat) by (apply nth_error_Some; congruence).
      pose proof (filled_set i n st ob (SCont []) Hob) as F0. set (st0 := set_obj n (with_content (SCont []) ob) st) in *.
      assert (Hi0 : exists_pool st0 i = true) by exact Hi.
      assert (Hput : st_objs st0 = put n (with_content (SCont []) ob) (st_objs st)) by (unfold st0, set_obj; cbn [st_objs]; now apply put_spec).
      assert (Hlen0 : length (st_objs st0) = length (st_objs st)) by (rewrite Hput; apply put_length).
      assert (Hhas0 : has st0 n (kind pr t) []).
      { exists (with_content (SCont []) ob). rewrite Hput, nth_error_put by exact Hn. rewrite Nat.eqb_refl. repeat split; auto. }
      assert (Hstop : forall es, so_content ob = SCont es -> exists st' r, spec_run st [CClear n] = Ok (st', r) /\ filled i n st st' /\ length (st_objs st') = length (st_objs st)).
      { intros es Hes. cbn [spec_run]. rewrite (Hclear es Hes). cbn [obind]. eexists _, _. split; [reflexivity|]. auto. }
      assert (Hsee : forall st' k es' d' L', has st' n k es' -> kids Pi (see_from Pi (S n) d' st') es' = Ok L' -> match k with KArray | KMap | KMapView => True | _ => False end ->
                rooted st' n (cont_obj k i (len es') L') /\ see_from Pi n (S d') st' n = Ok (cont_obj k i (len es') L')).
      { intros st' k es' d' L' (o & Ho & Hk & Hmd & Hhm & Hcs & Hkf) HL' Hkk. split.
        { exists o. unfold the_obj. rewrite Ho, Hhm. cbn [present]. split; [reflexivity|]. rewrite Hcs, Hk, Hmd. eauto 6. }
        cbn [see_from]. rewrite Nat.ltb_irrefl. unfold the_obj. rewrite Ho, Hhm. cbn [present obind]. rewrite Hhm. cbn [home_in]. rewrite Nat.eqb_refl. cbn [negb]. rewrite Hcs.
        erewrite (kids_impl Pi Pi); [|auto|intros q y Hy; apply (see_from_ext Pi Pi (S n) n st' st' ltac:(auto) ltac:(lia) ltac:(auto) d' d' q y ltac:(lia) Hy)|exact HL']. cbn [obind]. now rewrite Hk, Hmd. }
      destruct t; cbn [kind] in *.
      + (* Data *)
        assert (Hx : exists x0, so_content ob = SData x0) by (destruct pr; exact Hct).
        destruct Hx as (x0 & Hx0).
        assert (Hassign : forall x, exists r, spec_run st [CAssign n x] = Ok (set_obj n (with_content (SData x) ob) st, r)).
        { intros x. cbn [spec_run spec_step]. unfold the_obj. rewrite Hob, Hh. cbn [present obind]. unfold value. rewrite Hx0. cbn [obind]. eauto. }
        destruct (run get (Data_valueParse E pr s)) as [[o s']| | | |] eqn:Er; cbn [fst snd];
          try (exists st, []; split; [reflexivity|]; split; [apply filled_refl|]; split; [reflexivity|]; discriminate).
        destruct (data_class E get pr s o s' Er) as [Hcl _].
        assert (Ho : exists dt x, (o = OData dt x /\ pr = false) \/ (o = ODataView dt x /\ pr = true)).
        { destruct (pr_cases E get pr s o s' Er) as (dt & x & H). exists dt, x. exact H. }
        destruct Ho as (dt & x & Ho).
        assert (Hcalls : match o with OData dt x | ODataView dt x => [CAssign n (dt, x)] | _ => [] end = [CAssign n (dt, x)]) by (destruct Ho as [[-> _]|[-> _]]; reflexivity).
        replace (match o with OData dt0 x1 | ODataView dt0 x1 => [CAssign n (dt0, x1)] | _ => [] end) with [CAssign n (dt, x)].
        destruct (Hassign (dt, x)) as (r & Hr). exists (set_obj n (with_content (SData (dt, x)) ob) st), r. split; [exact Hr|].
        split; [now apply filled_set|]. split; [unfold set_obj; cbn [st_objs]; rewrite put_spec by exact Hn; apply put_length|].
        intros o' s'' [= <- <-]. split.
        { exists (with_content (SData (dt, x)) ob). unfold the_obj, set_obj. cbn [st_objs]. rewrite put_spec by exact Hn. rewrite nth_error_put by exact Hn. rewrite Nat.eqb_refl.
          cbn [with_content so_home so_content]. rewrite Hh. cbn [present so_content]. split; [reflexivity|]. cbn [with_content so_content so_cls]. rewrite Hc. destruct Ho as [[-> ->]|[-> ->]]; reflexivity. }
        exists 1%nat. cbn [see_from]. rewrite Nat.ltb_irrefl. unfold the_obj, set_obj. cbn [st_objs]. rewrite put_spec by exact Hn. rewrite nth_error_put by exact Hn.
        rewrite Nat.eqb_refl. cbn [with_content so_home so_content so_cls]. rewrite Hh. cbn [present obind].
        cbn [with_content so_home]. rewrite Hh. cbn [home_in]. rewrite Nat.eqb_refl. cbn [negb].
        cbn [with_content so_content so_cls]. rewrite Hc. destruct Ho as [[-> ->]|[-> ->]]; reflexivity.
      + (* Map, MapView *)
        assert (Hes : exists es, so_content ob = SCont es) by (destruct pr; exact Hct). destruct Hes as (es0 & Hes0).
        rewrite run_bind, run_lift. destruct (parseLength R s) as [[count s1]| | | |]; cbn [obind omap fst snd]; try (destruct (Hstop es0 Hes0) as (st' & r & H1 & H2 & H3); exists st', r; split; [exact H1|]; split; [exact H2|]; split; [exact H3|]; discriminate).
        rewrite run_bind, run_lift. destruct (parseLength R s1) as [[id s2]| | | |]; cbn [obind omap fst snd]; try (destruct (Hstop es0 Hes0) as (st' & r & H1 & H2 & H3); exists st', r; split; [exact H1|]; split; [exact H2|]; split; [exact H3|]; discriminate).
        destruct (IM count s2 n st0 [] 0%nat [] Hi0 Hhas0 eq_refl) as (st' & r & H1 & H2 & H3 & H4 & H5). rewrite Hlen0 in H1, H3.
        destruct pr eqn:Epr.
        * cbn [fst snd]. exists st'. eexists. cbn [spec_run]. rewrite (Hclear es0 Hes0). cbn [obind]. fold st0. rewrite H1. cbn [obind]. split; [reflexivity|]. split; [eapply filled_trans; eauto|]. split; [exact H3|].
          intros o s' Hr. rewrite run_bind in Hr. apply obind_ok in Hr as ([items s3] & Hr & Hx). injection Hx as <- <-.
          destruct (H5 eq_refl items s3 Hr) as (es' & d' & L' & Hh' & HL' & Hm' & Hl'). destruct (Hsee st' _ es' d' L' Hh' HL' I) as [Hs1 Hs2]. cbn [cont_obj] in Hs1, Hs2. rewrite Hm' in Hs1, Hs2. replace (len es') with count in * by (rewrite Hl'; unfold len; cbn; lia). split; [exact Hs1|]. exists (S d'). exact Hs2.
        * rewrite run_bind, run_lift. destruct (check_oor R s2) as [[]| | | |]; cbn [obind fst snd]; try (destruct (Hstop es0 Hes0) as (st'' & r' & G1 & G2 & G3); exists st'', r'; split; [exact G1|]; split; [exact G2|]; split; [exact G3|]; discriminate).
          exists st'. eexists. cbn [spec_run]. rewrite (Hclear es0 Hes0). cbn [obind]. fold st0. rewrite H1. cbn [obind]. split; [reflexivity|]. split; [eapply filled_trans; eauto|]. split; [exact H3|].
          intros o s' Hr. rewrite run_bind in Hr. apply obind_ok in Hr as ([items s3] & Hr & Hx). injection Hx as <- <-.
          destruct (H4 eq_refl items s3 Hr) as (es' & d' & L' & Hh' & HL' & Hm' & Hl'). destruct (Hsee st' _ es' d' L' Hh' HL' I) as [Hs1 Hs2]. cbn [cont_obj] in Hs1, Hs2. rewrite Hm' in Hs1, Hs2. replace (len es') with count in * by (rewrite Hl'; unfold len; cbn; lia). split; [exact Hs1|]. exists (S d'). exact Hs2.
      + (* Array *)
        destruct Hct as (es0 & Hes0).
        rewrite run_bind, run_lift. destruct (parseLength R s) as [[count s1]| | | |]; cbn [obind omap fst snd]; try (destruct (Hstop es0 Hes0) as (st' & r & H1 & H2 & H3); exists st', r; split; [exact H1|]; split; [exact H2|]; split; [exact H3|]; discriminate).
        rewrite run_bind, run_lift. destruct (parseLength R s1) as [[id s2]| | | |]; cbn [obind omap fst snd]; try (destruct (Hstop es0 Hes0) as (st' & r & H1 & H2 & H3); exists st', r; split; [exact H1|]; split; [exact H2|]; split; [exact H3|]; discriminate).
        destruct (IA count s2 n st0 [] 0%nat [] [] Hi0 Hhas0 eq_refl eq_refl) as (st' & r & H1 & H2 & H3 & H4). rewrite Hlen0 in H1, H3.
        exists st'. eexists. cbn [spec_run]. rewrite (Hclear es0 Hes0). cbn [obind]. fold st0. rewrite H1. cbn [obind]. split; [reflexivity|]. split; [eapply filled_trans; eauto|]. split; [exact H3|].
        intros o s' Hr. rewrite run_bind in Hr. apply obind_ok in Hr as ([items s3] & Hr & Hx). injection Hx as <- <-.
        destruct (H4 items s3 Hr) as (es' & d' & L' & Hh' & HL' & Hm' & Hl'). destruct (Hsee st' _ es' d' L' Hh' HL' I) as [Hs1 Hs2]. cbn [cont_obj] in Hs1, Hs2. rewrite Hm' in Hs1, Hs2. replace (len es') with count in * by (rewrite Hl'; unfold len; cbn; lia). split; [exact Hs1|]. exists (S d'). exact Hs2.
    - (* the elements of an array *)
      intros count s n st es d L acc Hi Hh HL Hacc c. subst c. rewrite array_calls_S. cbn [array_loop]. destruct (N.eqb_spec count 0) as [->|Hc].
      { exists st, []. split; [reflexivity|]. split; [apply filled_refl|]. split; [reflexivity|]. intros l s' [= <- <-]. exists es, d, L. repeat split; auto. lia. }
      rewrite run_bind, run_lift. destruct (parseObjectType R s) as [[t s1]| | | |]; cbn [obind];
        try (exists st, []; split; [reflexivity|]; split; [apply filled_refl|]; split; [reflexivity|]; discriminate).
      destruct (child_ok f t s1 st IV Hi) as (st2 & r2 & G1 & G2 & G3 & G4 & G5 & G6). cbn zeta in *.
      set (m := length (st_objs st)) in *. set (c1 := value_calls E get p i pr f t s1 m (S m)) in *.
      rewrite run_bind. destruct (run get (valueParse E p pr f t s1)) as [[o s2]| | | |] eqn:Ev; cbn [obind fst snd];
        try (exists st2, r2; split; [exact G1|]; split; [eapply filled_keep; eauto; lia|]; split; [exact G3|]; discriminate).
      destruct (G6 o s2 eq_refl) as (_ & dc & Hdc). destruct (kids_seen _ _ _ _ HL) as (ys & Hys).
      assert (Hi2 : exists_pool st2 i = true) by (unfold exists_pool in *; rewrite G2; exact Hi).
      pose proof (has_keep _ _ _ _ _ Hh G5) as Hh2.
      destruct (append_step st2 n es m ys Hi2 Hh2 G4 Hys) as (ob & Hob & Hap).
      set (e := {| en_key := OwnKey []; en_val := Some m; en_home := Some i |}) in *.
      destruct (add_ok st st2 n KArray es (es ++ [e]) e ob d dc L o Hh G2 G5 Hob HL Hdc eq_refl eq_refl ltac:(intros; apply Forall_app; split; [assumption|constructor; [reflexivity|constructor]])) as (A1 & A2 & A3 & A4 & A5 & A6). cbn zeta in *.
      set (st3 := set_obj n (with_content (SCont (es ++ [e])) ob) st2) in *.
      assert (Hi3 : exists_pool st3 i = true) by (unfold exists_pool in *; rewrite A3; exact Hi).
      destruct (IA (count - 1) s2 n st3 (es ++ [e]) _ _ (o :: acc) Hi3 A1 (kids_app _ _ _ _ _ _ A5 A6)) as (st4 & r4 & B1 & B2 & B3 & B4).
      { rewrite map_app, Hacc. reflexivity. }
      rewrite A4, G3 in B1, B3. exists st4. eexists. split.
      { rewrite app_comm_cons. rewrite (spec_run_app _ _ _ _ _ G1). cbn [spec_run]. rewrite Hap. cbn [obind]. fold st3. rewrite B1. cbn [obind]. reflexivity. }
      split; [eapply filled_trans; eauto|]. split; [exact B3|].
      intros l s' Hl. destruct (B4 l s' Hl) as (es' & d' & L' & C1 & C2 & C3 & C4). exists es', d', L'. repeat split; auto. rewrite C4. unfold len. rewrite app_length. cbn [length]. lia.
    - (* the entries of a map *)
      intros count s n st es d L Hi Hh HL c. subst c. rewrite entry_calls_S. cbn [map_loop mapview_loop]. destruct (N.eqb_spec count 0) as [->|Hc].
      { exists st, []. split; [reflexivity|]. split; [apply filled_refl|]. split; [reflexivity|]. split; intros Epr l s' [= <- <-]; exists es, d, L; rewrite Epr in Hh; repeat split; auto; lia. }
      assert (Hstop : forall (X Y : Prop), X -> Y -> exists st' r, spec_run st [] = Ok (st', r) /\ filled i n st st' /\ length (st_objs st') = length (st_objs st) /\ X /\ Y).
      { intros X Y HX HY. exists st, []. split; [reflexivity|]. split; [apply filled_refl|]. auto. }
      rewrite !run_bind. destruct (run get (parse_key E s)) as [[kv s1]| | | |]; cbn [obind fst snd];
        try (exists st, []; split; [reflexivity|]; split; [apply filled_refl|]; split; [reflexivity|]; split; discriminate).
      rewrite !run_bind, !run_lift. destruct (parseObjectType R s1) as [[t s2]| | | |]; cbn [obind fst snd];
        try (exists st, []; split; [reflexivity|]; split; [apply filled_refl|]; split; [reflexivity|]; split; discriminate).
      destruct (child_ok f t s2 st IV Hi) as (st2 & r2 & G1 & G2 & G3 & G4 & G5 & G6). cbn zeta in *.
      set (m := length (st_objs st)) in *. set (c1 := value_calls E get p i pr f t s2 m (S m)) in *.
      rewrite !run_bind. destruct (run get (valueParse E p pr f t s2)) as [[o s3]| | | |] eqn:Ev; cbn [obind fst snd];
        try (exists st2, r2; split; [exact G1|]; split; [eapply filled_keep; eauto; lia|]; split; [exact G3|]; split; discriminate).
      rewrite !run_bind, !run_lift.
      assert (Hkey : match (if pr then Ok (RefKey kv) else omap OwnKey (read_local R kv)) with
                     | Ok key => key_for (kind pr TMap) key = true /\ (pr = true -> key = RefKey kv) /\ (pr = false -> exists b, read_local R kv = Ok b /\ key = OwnKey b)
                     | _ => pr = false /\ forall b, read_local R kv <> Ok b end).
      { destruct pr; [repeat split; congruence|]. destruct (read_local R kv); cbn; repeat split; try congruence. intros _. eauto. }
      destruct (if pr then Ok (RefKey kv) else omap OwnKey (read_local R kv)) as [key| | | |];
        try (exists st2, r2; split; [exact G1|]; split; [eapply filled_keep; eauto; lia|]; split; [exact G3|]; split;
             [intros _ l s' Hx; apply obind_ok in Hx as (b & Hb & _); exfalso; eapply (proj2 Hkey); exact Hb|intros Epr; destruct Hkey; congruence]).
      destruct Hkey as (Hkf & Hkt & Hko).
      destruct (G6 o s3 eq_refl) as (_ & dc & Hdc).
      assert (Hi2 : exists_pool st2 i = true) by (unfold exists_pool in *; rewrite G2; exact Hi).
      pose proof (has_keep _ _ _ _ _ Hh G5) as Hh2.
      destruct (insert_step st2 n es m key Hi2 Hh2 G4 Hkf) as (ob & Hob & Hap).
      set (e := {| en_key := key; en_val := Some m; en_home := Some i |}) in *.
      destruct (add_ok st st2 n (kind pr TMap) es (e :: es) e ob d dc L o Hh G2 G5 Hob HL Hdc eq_refl eq_refl ltac:(intros; constructor; assumption)) as (A1 & A2 & A3 & A4 & A5 & A6). cbn zeta in *.
      set (st3 := set_obj n (with_content (SCont (e :: es)) ob) st2) in *.
      assert (Hi3 : exists_pool st3 i = true) by (unfold exists_pool in *; rewrite A3; exact Hi).
      destruct (IM (count - 1) s3 n st3 (e :: es) _ _ Hi3 A1 (kids_app _ _ [e] es _ _ A6 A5)) as (st4 & r4 & B1 & B2 & B3 & B4 & B5).
      rewrite A4, G3 in B1, B3. exists st4. eexists. split.
      { cbn [fst snd]. rewrite app_comm_cons. rewrite (spec_run_app _ _ _ _ _ G1). cbn [spec_run]. rewrite Hap. cbn [obind]. fold st3. rewrite B1. cbn [obind]. reflexivity. }
      split; [eapply filled_trans; eauto|]. split; [exact B3|]. split; intros Epr l s' Hl.
      + destruct (Hko Epr) as (b & Hb & ->). rewrite Hb in Hl. cbn [obind] in Hl.
        destruct (B4 Epr l s' Hl) as (es' & d' & L' & C1 & C2 & C3 & C4). exists es', d', L'. repeat split; auto. rewrite C4. unfold len. cbn [length]. lia.
      + pose proof (Hkt Epr). subst key.
        destruct (B5 Epr l s' Hl) as (es' & d' & L' & C1 & C2 & C3 & C4). exists es', d', L'. repeat split; auto. rewrite C4. unfold len. cbn [length]. lia.
  Qed.
End Build.

(** ** Loading *)
Section Take.
  Variable P : nat -> bool.
  Variable f : nat -> outcome obj.
  Variable um : memory.

  Lemma take_own key es L : kids P f es = Ok L -> Forall (fun e => key_for KMap (en_key e) = true) es ->
    exists v es', seek_take um key es = Ok (v, es') /\
      match v with
      | None => fst (Map_take (map (fun e => (own_of (fst e), snd e)) L) key) = ONull
      | Some k => f k = Ok (fst (Map_take (map (fun e => (own_of (fst e), snd e)) L) key))
      end.
  Proof.
    revert L. induction es as [|e es IH]; intros L H HF; cbn [kids seek_take] in H |- *; [inversion H; subst; exists None, []; cbn; auto|].
    inversion HF as [|? ? He HF']; subst. destruct (home_in P (en_home e)) eqn:Eh; [|discriminate]. rewrite (home_in_present _ _ Eh). apply obind_ok in H as (t & Ht & H). apply obind_ok in H as (r & Hr & H). inversion H; subst.
    destruct (en_key e) as [b|v]; [|discriminate He]. cbn [key_content obind map Map_take fst snd own_of].
    destruct (bytes_eqb b key).
    - eexists _, _. split; [reflexivity|]. destruct (en_val e) as [k|]; cbn; [exact Ht|]. now inversion Ht.
    - destruct (IH r Hr HF') as (v & es' & -> & Hv). cbn [obind]. eexists _, _. split; [reflexivity|].
      destruct (Map_take (map _ r) key) as [o l']. exact Hv.
  Qed.

  Lemma take_ref key mem es L : kids P f es = Ok L -> Forall (fun e => key_for KMapView (en_key e) = true) es ->
    Forall (fun e => read_view um (ref_of (en_key e)) = read_view mem (ref_of (en_key e))) es ->
    match MapView_take mem (map (fun e => (ref_of (fst e), snd e)) L) key with
    | Ok (o, _) => exists v es', seek_take um key es = Ok (v, es') /\ match v with None => o = ONull | Some k => f k = Ok o end
    | x => x = UB /\ seek_take um key es = UB
    end.
  Proof.
    revert L. induction es as [|e es IH]; intros L H HF HM; cbn [kids seek_take] in H |- *; [inversion H; subst; cbn; exists None, []; auto|].
    inversion HF as [|? ? He HF']; subst. inversion HM as [|? ? Hm HM']; subst. destruct (home_in P (en_home e)) eqn:Eh; [|discriminate]. rewrite (home_in_present _ _ Eh). apply obind_ok in H as (t & Ht & H). apply obind_ok in H as (r & Hr & H). inversion H; subst.
    destruct (en_key e) as [b|v]; [discriminate He|]. cbn [key_content obind map MapView_take fst snd ref_of] in *. rewrite Hm.
    assert (Hrv : (exists b, read_view mem v = Ok b) \/ read_view mem v = UB) by (apply (key_content_case mem (RefKey v))).
    destruct Hrv as [(b & ->) | ->]; cbn [obind]; [|auto].
    destruct (bytes_eqb b key).
    - eexists _, _. split; [reflexivity|]. destruct (en_val e) as [k|]; cbn; [exact Ht|]. now inversion Ht.
    - specialize (IH r Hr HF' HM'). destruct (MapView_take mem _ key) as [[o l']| | | |]; cbn [obind].
      + destruct IH as (v' & es' & -> & Hv). cbn [obind]. eexists _, _. split; [reflexivity|]. exact Hv.
      + destruct IH; discriminate.
      + destruct IH; discriminate.
      + destruct IH as [_ ->]. auto.
      + destruct IH; discriminate.
  Qed.
End Take.

Lemma keep_alive st st' i : st_alive st' = st_alive st -> exists_pool st' i = exists_pool st i.
Proof. intros H. unfold exists_pool. now rewrite H. Qed.

Lemma getter_buf c fuel content b sc pr : sane c -> initFromContent c fuel content b = Ok sc -> pr = true ->
  forall i f t s o s', run (getter c (sc_map sc)) (valueParse (doc_env c content b sc) (PoolId i) pr f t s) = Ok (o, s') -> all_views (fun v => v_buf v = b) o.
Proof.
  intros Hs Hi -> i f t s o s' H.
  refine (proj1 (value_views (doc_env c content b sc) _ (fun v => v_buf v = b) eq_refl _ _ (PoolId i) f) t s (o, s') H).
  - intros id v Hg. now destruct (getter_view _ _ _ _ _ _ _ Hs Hi Hg).
  - reflexivity.
Qed.

Lemma load_spec c fuel content b i pr st um : sane c -> exists_pool st i = true -> um b = Some content ->
  let m := length (st_objs st) in
  exists st1 r, spec_run st (Parse_calls c fuel content b i pr m) = Ok (st1, r) /\ st_alive st1 = st_alive st /\
    (forall j o, nth_error (st_objs st) j = Some o -> nth_error (st_objs st1) j = Some o) /\
    match Parse_check c fuel content b i pr with
    | Ok _ =>
        match Parse c fuel content b (PoolId i) {| po_type := Normal; po_ref := pr |} with
        | Ok o => exists st2 v, spec_step st1 (CTake um m root_key) = Ok (st2, SaPtr v) /\ st_alive st2 = st_alive st /\
            (forall j x, nth_error (st_objs st) j = Some x -> nth_error (st_objs st2) j = Some x) /\
            match v with None => o = ONull | Some k => exists d, see_from (Nat.eqb i) (S m) d st2 k = Ok o end
        | UB => spec_step st1 (CTake um m root_key) = UB
        | _ => False
        end
    | Throw e => Parse c fuel content b (PoolId i) {| po_type := Normal; po_ref := pr |} = Throw e
    | UB => Parse c fuel content b (PoolId i) {| po_type := Normal; po_ref := pr |} = UB
    | Abort => Parse c fuel content b (PoolId i) {| po_type := Normal; po_ref := pr |} = Abort
    | Fuel => Parse c fuel content b (PoolId i) {| po_type := Normal; po_ref := pr |} = Fuel
    end.
Proof.
  intros Hs Hi Hum m. unfold Parse_calls, Parse_check, Parse. destruct (initFromContent c fuel content b) as [sc| | | |] eqn:Esc; cbn [obind];
    try (exists st, []; repeat split; auto; fail).
  set (s0 := {| idx := meta_size; off := meta_size |}).
  pose proof (getter_buf c fuel content b sc pr Hs Esc) as Hbuf.
  set (E := doc_env c content b sc) in *. set (get := getter c (sc_map sc)) in *.
  destruct (child_ok E get i pr fuel TMap s0 st (proj1 (build E get i pr fuel)) Hi) as (st1 & r & H1 & H2 & _ & H3 & H4 & H5). cbn zeta in *. fold m in H1, H3, H4, H5.
  exists st1, r. split; [exact H1|]. split; [exact H2|]. split; [exact H4|].
  unfold Parse_prog. cbn [po_type po_ref]. unfold NormalParse_prog. rewrite run_bind. fold E s0.
  destruct (run get (valueParse E (PoolId i) pr fuel TMap s0)) as [[root s]| | | |] eqn:Ev; cbn [obind]; try reflexivity.
  destruct (negb (off s =? sc_total sc)); [reflexivity|]. rewrite run_lift. cbn [b_env E doc_env root_env r_content].
  destruct (H5 root s eq_refl) as (Hroot & _).
  assert (Hcls : cls_of root = kind pr TMap) by (apply (proj1 (allocs_exact E get (PoolId i) pr fuel)) in Ev as [Hc _]; exact Hc).
  destruct Hroot as (ob & Hob & Hroot). pose proof (the_obj_some _ _ _ Hob) as [Hob' Hh].
  destruct (so_content ob) as [x|es] eqn:Eo.
  { exfalso. rewrite Hroot in Hcls. unfold data_obj in Hcls. destruct pr, (so_cls ob); discriminate Hcls. }
  destruct Hroot as (Hkk & Hkf & d & L & HL & Hroot).
  assert (Hk : so_cls ob = kind pr TMap) by (rewrite Hroot in Hcls; unfold cont_obj in Hcls; destruct pr, (so_cls ob); try discriminate Hcls; try reflexivity; contradiction).
  rewrite Hk in Hkf, Hroot. cbn [kind] in *.
  assert (Hset : forall l', let st2 := set_obj m (with_content (SCont l') ob) st1 in st_alive st2 = st_alive st /\
     (forall j x, nth_error (st_objs st) j = Some x -> nth_error (st_objs st2) j = Some x) /\
     (forall k o, see_from (Nat.eqb i) (S m) d st1 k = Ok o -> see_from (Nat.eqb i) (S m) d st2 k = Ok o)).
  { intros l' st2. destruct (filled_set i m st1 ob (SCont l') Hob') as (F1 & _ & F3 & _). fold st2 in F1, F3. split; [congruence|]. split.
    - intros j x Hj. apply F3; [|now apply H4]. assert (j < m)%nat by (apply nth_error_Some; congruence). lia.
    - intros k o. apply see_from_ext; [auto|lia| |lia]. intros j y Hj. apply F3. lia. }
  assert (Hmap : is_map ob = true) by (unfold is_map; rewrite Hk; destruct pr; reflexivity).
  cbn [spec_step]. rewrite Hob. cbn [obind]. unfold entries. rewrite Eo. cbn [obind]. rewrite Hmap.
  destruct pr.
  - (* in place *)
    cbn [cont_obj] in Hroot. rewrite Hroot. cbn [take_root].
    assert (HM : Forall (fun e => read_view um (ref_of (en_key e)) = read_view (fun _ => Some content) (ref_of (en_key e))) es).
    { pose proof (Hbuf eq_refl i fuel TMap s0 root s Ev) as HV. rewrite Hroot in HV. inversion HV as [| | | | |? ? ? HV' E1]. clear - HV' HL Hum.
      revert L HL HV'. induction es as [|e es IH]; intros L HL HV'; [constructor|]. cbn [kids] in HL. destruct (home_in (Nat.eqb i) (en_home e)); [|discriminate HL].
      apply obind_ok in HL as (t & _ & HL). apply obind_ok in HL as (r & Hr & HL). inversion HL; subst. cbn [map fst snd] in HV'. inversion HV' as [|? ? [Hvb _] HV''].
      constructor; [|now apply (IH r)]. unfold read_view. cbn [fst] in Hvb. now rewrite Hvb, Hum. }
    pose proof (take_ref _ _ um root_key (fun _ => Some content) es L HL Hkf HM) as HT.
    destruct (MapView_take (fun _ => Some content) (map (fun e => (ref_of (fst e), snd e)) L) root_key) as [[o l']| | | |]; cbn [obind fst].
    + destruct HT as (v & es' & -> & Hv). cbn [obind]. destruct (Hset es') as (S1 & S2 & S3). eexists _, _. split; [reflexivity|]. split; [exact S1|]. split; [exact S2|].
      destruct v as [k|]; [exists d; now apply S3|exact Hv].
    + destruct HT; discriminate.
    + destruct HT; discriminate.
    + destruct HT as [_ ->]. reflexivity.
    + destruct HT; discriminate.
  - cbn [cont_obj] in Hroot. rewrite Hroot. cbn [take_root].
    destruct (take_own _ _ um root_key es L HL Hkf) as (v & es' & -> & Hv). cbn [obind]. destruct (Hset es') as (S1 & S2 & S3). eexists _, _. split; [reflexivity|]. split; [exact S1|]. split; [exact S2|].
    destruct v as [k|]; [exists d; now apply S3|exact Hv].
Qed.
