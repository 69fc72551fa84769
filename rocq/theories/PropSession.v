(** * Property C104: programs that parse and serialize while they use their objects. *)
From Verif Require Import Base BaseLemmas ModelVarint ModelData ModelSecondary ModelObject ModelParse ModelWrapper ModelPool ModelStorage ModelFrames
  ModelAlloc ModelParaAlloc ModelClient ModelSession Spec SpecApi SpecClient Wire ParseLemmas NormalProofs ValueProofs RoundTrip ApiProofs Samples PropRoundTrip PropPool PropFrames
  ClientProofs PropClient GeneralProofs PropAlloc SessionProofs ParaSessionProofs ParaSessionProofs2.
From Coq Require Import ZifyBool ZifyNat ZifyN.
Local Open Scope out_scope.

(** ** A session is a program *)
Lemma cl_run_app a : forall b w, cl_run w (a ++ b) =
  ('(w1, r1) <- cl_run w a ;; '(w2, r2) <- cl_run w1 b ;; Ok (w2, r1 ++ r2)).
Proof.
  induction a as [|op a IH]; intros b w; cbn [app cl_run].
  - cbn [obind]. destruct (cl_run w b) as [[? ?]| | | |]; reflexivity.
  - destruct (cl_step w op) as [[w1 x]| | | |]; cbn [obind]; try reflexivity. rewrite IH.
    destruct (cl_run w1 a) as [[w2 r2]| | | |]; cbn [obind]; try reflexivity. destruct (cl_run w2 b) as [[? ?]| | | |]; reflexivity.
Qed.

Definition lived (s : session) : Prop := exists rs, cl_run client0 (se_done s) = Ok (se_client s, rs).

Lemma lived_do s ops s' rs : lived s -> se_do s ops = Ok (s', rs) -> lived s'.
Proof.
  intros (r0 & H0) H. unfold se_do in H. apply obind_ok in H as ([w r] & Hr & H). inversion H; subst. unfold lived. cbn [se_done se_client].
  rewrite cl_run_app, H0. cbn [obind]. rewrite Hr. cbn [obind]. eauto.
Qed.
Lemma lived_load s calls check s' a : lived s -> se_load s calls check = Ok (s', a) -> lived s'.
Proof.
  intros Hl H. unfold se_load in H. apply obind_ok in H as ([s1 rs] & H1 & H). pose proof (lived_do _ _ _ _ Hl H1) as Hl1. destruct check; try discriminate H.
  - apply obind_ok in H as ([s2 rs2] & H2 & H). destruct rs2 as [|? []]; try discriminate H. inversion H; subst. eapply lived_do; eauto.
  - inversion H; subst. exact Hl1.
Qed.
Lemma lived_step c fuel s op s' a : lived s -> se_step c fuel s op = Ok (s', a) -> lived s'.
Proof.
  intros Hl H. destruct op as [op|b x|depth ty i n b|i b pr|i b pr]; cbn [se_step] in H.
  - apply obind_ok in H as ([s1 rs] & H1 & H). destruct rs as [|? []]; try discriminate H. inversion H; subst. eapply lived_do; eauto.
  - inversion H; subst. exact Hl.
  - apply obind_ok in H as ([s1 rs] & H1 & H). pose proof (lived_do _ _ _ _ Hl H1) as Hl1. destruct rs as [|? [|[] []]]; try discriminate H.
    destruct (Serialize _ _ _ _ _); try discriminate H; inversion H; subst; exact Hl1.
  - destruct (se_mem s b) as [content|]; [|discriminate H]. eapply lived_load; eauto.
  - destruct (se_mem s b) as [content|]; [|discriminate H]. eapply lived_load; eauto.
Qed.
Lemma lived_run c fuel ops : forall s s' rs, lived s -> se_run c fuel s ops = Ok (s', rs) -> lived s'.
Proof.
  induction ops as [|op ops IH]; intros s s' rs Hl H; cbn [se_run] in H; [inversion H; now subst|].
  apply obind_ok in H as ([s1 a] & H1 & H). apply obind_ok in H as ([s2 r] & H2 & H). inversion H; subst. eapply IH; [|exact H2]. eapply lived_step; eauto.
Qed.
Lemma lived0 : lived session0.
Proof. exists []. reflexivity. Qed.

Lemma done_grows c fuel s op s' a : se_step c fuel s op = Ok (s', a) -> len (se_done s) <= len (se_done s').
Proof.
  assert (HD : forall s ops s' r, se_do s ops = Ok (s', r) -> len (se_done s) <= len (se_done s')).
  { intros q ops0 q1 r H. unfold se_do in H. apply obind_ok in H as ([w y] & _ & H). inversion H; subst. cbn [se_done]. rewrite len_app. lia. }
  assert (HL : forall s calls check s' r, se_load s calls check = Ok (s', r) -> len (se_done s) <= len (se_done s')).
  { intros q calls check q' r H. unfold se_load in H. apply obind_ok in H as ([q1 r1] & H1 & H). apply HD in H1. destruct check; try discriminate H.
    - apply obind_ok in H as ([q2 r2] & H2 & H). apply HD in H2. destruct r2 as [|? []]; try discriminate H. inversion H; subst. lia.
    - inversion H; subst. exact H1. }
  intros H. destruct op; cbn [se_step] in H.
  - apply obind_ok in H as ([q1 r1] & H1 & H). destruct r1 as [|? []]; try discriminate H. inversion H; subst. eauto.
  - inversion H; subst. cbn. lia.
  - apply obind_ok in H as ([q1 r1] & H1 & H). apply HD in H1. destruct r1 as [|? [|[] []]]; try discriminate H. destruct (Serialize _ _ _ _ _); try discriminate H; inversion H; subst; exact H1.
  - destruct (se_mem s b); [|discriminate H]. eauto.
  - destruct (se_mem s b); [|discriminate H]. eauto.
Qed.

(** C104.  Whatever a session did - including parses that threw - its state in memory is
    the state of a program that only calls pools and containers: everything C101, C102 and
    C103 say about programs holds inside sessions. *)
Theorem C104_sessions_are_programs : forall c fuel ops s rs,
  se_run c fuel session0 ops = Ok (s, rs) -> exists rs', cl_run client0 (se_done s) = Ok (se_client s, rs').
Proof. intros c fuel ops s rs H. exact (lived_run c fuel ops session0 s rs lived0 H). Qed.

(** ** What the parser takes from the pool *)
Definition taken (pr : bool) (op : ccall) : list cls :=
  match op with
  | CData _ v _ => [if v then KDataView else KData] | CCont _ k => [k] | CScratch _ k => [k]
  | CAppend _ _ _ _ => [KArrayItem] | CInsert _ _ _ => [entry_kind pr] | _ => []
  end.

Section Taken.
  Variable E : penv.
  Variable get : N -> outcome view.
  Variable i : nat.
  Variable pr : bool.
  Notation R := (b_env E).
  Notation p := (PoolId i).

  Lemma taken_make t : taken pr (make_call i pr t) = [kind pr t].
  Proof. destruct t, pr; reflexivity. Qed.
  (** The calls take from the pool what ModelAlloc.v lists, in that order, and there are at
      most two calls per object taken. *)
  Lemma calls_taken : forall f,
    (forall t s n m, flat_map (taken pr) (fst (value_calls E get p i pr f t s n m)) = value_allocs E get p pr f t s /\
        len (fst (value_calls E get p i pr f t s n m)) <= 2 * len (value_allocs E get p pr f t s) + 1) /\
    (forall count s n m, flat_map (taken pr) (fst (array_calls E get p i pr f count s n m)) = array_allocs E get p pr f count s /\
        len (fst (array_calls E get p i pr f count s n m)) <= 2 * len (array_allocs E get p pr f count s)) /\
    (forall count s n m, flat_map (taken pr) (fst (entry_calls E get p i pr f count s n m)) = entry_allocs E get p pr f count s /\
        len (fst (entry_calls E get p i pr f count s n m)) <= 2 * len (entry_allocs E get p pr f count s)).
  Proof.
    induction f as [|f (IV & IA & IM)].
    { split; [|split]; intros; split; try reflexivity; unfold len; cbn; lia. }
    split; [|split].
    - intros t s n m. rewrite value_calls_S, value_allocs_S. destruct t.
      + cbn [fst]. destruct (run get (Data_valueParse E pr s)) as [[[] ?]| | | |]; cbn [flat_map taken app]; split; try reflexivity; unfold len; cbn [length]; lia.
      + cbn zeta. destruct (obind (parseLength R s) _) as [[count s2]| | | |]; cbn [fst flat_map taken app]; try (split; [reflexivity|unfold len; cbn [length]; lia]).
        destruct pr.
        * destruct (IM count s2 n m) as [-> H]. split; [reflexivity|]. rewrite len_cons. lia.
        * destruct (check_oor R s2); cbn [fst flat_map taken app]; try (split; [reflexivity|unfold len; cbn [length]; lia]).
          destruct (IM count s2 n m) as [-> H]. split; [reflexivity|]. rewrite len_cons. lia.
      + cbn zeta. destruct (obind (parseLength R s) _) as [[count s2]| | | |]; cbn [fst flat_map taken app]; try (split; [reflexivity|unfold len; cbn [length]; lia]).
        destruct (IA count s2 n m) as [-> H]. split; [reflexivity|]. rewrite len_cons. lia.
    - intros count s n m. rewrite array_calls_S, array_allocs_S. destruct (count =? 0); [split; [reflexivity|unfold len; cbn; lia]|].
      destruct (parseObjectType R s) as [[t s1]| | | |]; cbn [fst]; try (split; [reflexivity|unfold len; cbn; lia]).
      destruct (IV t s1 m (S m)) as [H1 H1']. cbn zeta. destruct (run get (valueParse E p pr f t s1)) as [[o s2]| | | |]; cbn [fst snd].
      2-5: (cbn [flat_map]; rewrite taken_make, H1; cbn [app]; rewrite app_nil_r; split; [reflexivity|]; rewrite !len_cons; lia).
      destruct (IA (count - 1) s2 n (snd (value_calls E get p i pr f t s1 m (S m)))) as [H2 H2']. cbn [flat_map]. rewrite taken_make, flat_map_app, H1. cbn [flat_map taken app]. rewrite H2.
      split; [reflexivity|]. rewrite !len_cons, !len_app, !len_cons. lia.
    - intros count s n m. rewrite entry_calls_S, entry_allocs_S. destruct (count =? 0); [split; [reflexivity|unfold len; cbn; lia]|].
      destruct (run get (parse_key E s)) as [[kv s0]| | | |]; cbn [fst]; try (split; [reflexivity|unfold len; cbn; lia]).
      destruct (parseObjectType R s0) as [[t s1]| | | |]; cbn [fst]; try (split; [reflexivity|unfold len; cbn; lia]).
      destruct (IV t s1 m (S m)) as [H1 H1']. cbn zeta. destruct (run get (valueParse E p pr f t s1)) as [[o s2]| | | |]; cbn [fst snd].
      2-5: (cbn [flat_map]; rewrite taken_make, H1; cbn [app]; rewrite app_nil_r; split; [reflexivity|]; rewrite !len_cons; lia).
      assert (Hk : match (if pr then Ok (RefKey kv) else omap OwnKey (read_local R kv)), (if pr then Ok [] else read_local R kv) with
                   | Ok _, Ok _ => True | Ok _, _ => False | _, Ok _ => False | _, _ => True end) by (destruct pr; [exact I|]; destruct (read_local R kv); exact I).
      destruct (if pr then Ok (RefKey kv) else omap OwnKey (read_local R kv)) as [key| | | |], (if pr then Ok [] else read_local R kv) as [?| | | |]; try contradiction; cbn [fst].
      { destruct (IM (count - 1) s2 n (snd (value_calls E get p i pr f t s1 m (S m)))) as [H2 H2']. cbn [flat_map]. rewrite taken_make, flat_map_app, H1. cbn [flat_map taken app]. rewrite H2.
        split; [reflexivity|]. rewrite !len_cons, !len_app, !len_cons. lia. }
      all: cbn [flat_map]; rewrite taken_make, H1; cbn [app]; rewrite app_nil_r; split; [reflexivity|]; rewrite !len_cons; lia.
  Qed.
End Taken.

(** C104.  The objects a parse takes from the pool, in their order, are those of C98. *)
Theorem C104_taken : forall c fuel content b i pr m,
  flat_map (taken pr) (Parse_calls c fuel content b i pr m) = Parse_allocs c fuel content b (PoolId i) pr /\
  len (Parse_calls c fuel content b i pr m) <= 2 * len (Parse_allocs c fuel content b (PoolId i) pr).
Proof.
  intros c fuel content b i pr m. unfold Parse_calls, Parse_allocs. destruct (initFromContent c fuel content b) as [sc| | | |]; try (split; [reflexivity|unfold len; cbn; lia]).
  destruct (proj1 (calls_taken (doc_env c content b sc) (getter c (sc_map sc)) i pr fuel) TMap {| idx := meta_size; off := meta_size |} m (S m)) as [H1 H2].
  cbn [flat_map]. rewrite taken_make, H1. split; [reflexivity|]. rewrite !len_cons. lia.
Qed.

(** ** Loading and saving *)
Lemma pool_there w st owns G t i : rel w st owns G t -> t + 1 < W64 -> defined (cl_step w (CPool (BpClear i))) -> exists_pool st i = true.
Proof.
  intros R Ht H. apply (defined_iff w st owns G t _ R Ht) in H as [x Hx]. cbn [spec_step pool_call] in Hx. unfold only in Hx. destruct (exists_pool st i); [reflexivity|discriminate Hx].
Qed.

(** A defined run of the specification is one of the model, and the other way round. *)
Lemma run_down ops w st owns G t st1 r : rel w st owns G t -> t + len ops < W64 -> spec_run st ops = Ok (st1, r) ->
  exists w1 r1 owns1 G1 t1, cl_run w ops = Ok (w1, r1) /\ rel w1 st1 owns1 G1 t1 /\ t1 <= t + len ops /\
    Forall2 (same_answer (k_vars w1)) r1 r /\ exists e, k_vars w1 = k_vars w ++ e.
Proof.
  intros R Ht H. pose proof (run_ok_client ops w st owns G t R Ht) as HO. rewrite H in HO.
  inversion HO as [[w1 r1] y ((owns1 & G1 & t1 & R1 & Ht1) & Hr & He) Eq1 Eq2| |]; subst. cbn [fst snd] in *. exists w1, r1, owns1, G1, t1. split; [reflexivity|]. split; [exact R1|]. split; [exact Ht1|]. split; [exact Hr|exact He].
Qed.
Lemma run_up ops w st owns G t w1 r1 : rel w st owns G t -> t + len ops < W64 -> cl_run w ops = Ok (w1, r1) ->
  exists st1 r owns1 G1 t1, spec_run st ops = Ok (st1, r) /\ rel w1 st1 owns1 G1 t1 /\ t1 <= t + len ops /\
    Forall2 (same_answer (k_vars w1)) r1 r /\ exists e, k_vars w1 = k_vars w ++ e.
Proof.
  intros R Ht H. pose proof (run_ok_client ops w st owns G t R Ht) as HO. rewrite H in HO.
  inversion HO as [x [st1 r] ((owns1 & G1 & t1 & R1 & Ht1) & Hr & He) Eq1 Eq2| |]; subst. cbn [fst snd] in *. exists st1, r, owns1, G1, t1. split; [reflexivity|]. split; [exact R1|]. split; [exact Ht1|]. split; [exact Hr|exact He].
Qed.
Lemma run_down_UB op w st owns G t : rel w st owns G t -> t + 1 < W64 -> spec_step st op = UB -> cl_step w op = UB.
Proof. intros R Ht H. pose proof (step_ok_client w st owns G t op R Ht) as HO. rewrite H in HO. now inversion HO. Qed.

Lemma see_tree_more P lo st d d' n o : see_from P lo d st n = Ok o -> (d <= d')%nat -> see_tree d' st n = Ok o.
Proof. intros H Hd. apply (see_from_tree P lo). apply (see_from_ext P P lo lo st st ltac:(auto) (Nat.le_refl _) ltac:(auto) d d' n o Hd H). Qed.

(** C104.  Parsing a buffer into a pool that exists does in memory what the parser's result
    (ModelParse.v) says, after any history of the program and of that pool: the pointer
    returned shows exactly the parsed tree, the exceptions are the parser's, and no byte of
    any buffer changes.  ([CView] sees the whole tree below a pointer, as a serialization
    or a dump would; [d] is its depth.) *)
Theorem C104_load : forall c fuel ops s rs i b pr content, sane c ->
  se_run c fuel session0 ops = Ok (s, rs) ->
  len (se_done s) + 2 * len (Parse_allocs c fuel content b (PoolId i) pr) + 2 < W64 ->
  defined (cl_step (se_client s) (CPool (BpClear i))) -> se_mem s b = Some content ->
  match Parse c fuel content b (PoolId i) {| po_type := Normal; po_ref := pr |} with
  | Ok o => exists s' a, se_step c fuel s (SLoad i b pr) = Ok (s', SAns (AnPtr a)) /\ se_mem s' = se_mem s /\
      match a with
      | None => o = ONull
      | Some p => exists n d, nth_error (k_vars (se_client s')) n = Some p /\
          forall d', (d <= d')%nat -> cl_step (se_client s') (CView d' n) = Ok (se_client s', AnView o)
      end
  | Throw e => exists s', se_step c fuel s (SLoad i b pr) = Ok (s', SThrown e) /\ se_mem s' = se_mem s
  | UB => se_step c fuel s (SLoad i b pr) = UB
  | Abort => se_step c fuel s (SLoad i b pr) = Abort
  | Fuel => se_step c fuel s (SLoad i b pr) = Fuel
  end.
Proof.
  intros c fuel ops s rs i b pr content Hs Hrun Hlen Hdef Hmem.
  destruct (C104_sessions_are_programs c fuel ops s rs Hrun) as (rs0 & Hcl).
  destruct (after (se_done s) _ _ ltac:(lia) Hcl) as (st & srs & owns & G & t & _ & R & Ht).
  assert (Hi : exists_pool st i = true) by (eapply pool_there; [exact R|lia|exact Hdef]).
  set (m := length (k_vars (se_client s))). assert (Em : m = length (st_objs st)) by (apply (r_len _ _ _ _ _ R)).
  destruct (C104_taken c fuel content b i pr m) as [_ Hcalls].
  destruct (load_spec c fuel content b i pr st (se_mem s) Hs Hi Hmem) as (st1 & r & H1 & H2 & _ & H4). cbn zeta in *. rewrite <- Em in *.
  destruct (run_down (Parse_calls c fuel content b i pr m) _ _ _ _ _ _ _ R ltac:(lia) H1) as (w1 & r1 & owns1 & G1 & t1 & M1 & R1 & Ht1 & _ & e1 & He1).
  assert (Hdo : se_do s (Parse_calls c fuel content b i pr m) = Ok ({| se_client := w1; se_mem := se_mem s; se_done := se_done s ++ Parse_calls c fuel content b i pr m |}, r1)) by (unfold se_do; rewrite M1; reflexivity).
  cbn [se_step]. rewrite Hmem. unfold se_load. fold m. rewrite !Hdo. cbn [obind].
  destruct (Parse_check c fuel content b i pr) as [[]|e| | |].
  2:{ rewrite H4. eexists. split; reflexivity. }
  2-4: (rewrite H4; reflexivity).
  destruct (Parse c fuel content b (PoolId i) {| po_type := Normal; po_ref := pr |}) as [o| | | |]; try contradiction H4.
  - destruct H4 as (st2 & v & S2 & _ & _ & Hv).
    destruct (run_down [CTake (se_mem s) m root_key] w1 st1 owns1 G1 t1 st2 [SaPtr v] R1) as (w2 & r2 & owns2 & G2 & t2 & M2 & R2 & Ht2 & Hr2 & e2 & He2).
    { unfold len in *. cbn [length]. lia. }
    { cbn [spec_run]. rewrite S2. reflexivity. }
    unfold se_do. cbn [se_client]. rewrite M2. cbn [obind]. inversion Hr2 as [|a sa ? ? Ha Hnil]; subst. inversion Hnil; subst.
    destruct a as [| |a| | |]; cbn [same_answer] in Ha; try contradiction. eexists _, a. split; [reflexivity|]. split; [reflexivity|]. cbn [se_client].
    destruct v as [k|]; cbn [same_ptr] in Ha; [|subst a; exact Hv]. destruct Ha as [Hn Ha]. destruct a as [p|]; [|congruence]. symmetry in Ha.
    destruct Hv as (d & Hv). exists k, d. split; [exact Ha|]. intros d' Hd'.
    pose proof (view_ok w2 st2 owns2 G2 t2 R2 d' k p Ha) as HV. rewrite (see_tree_more _ _ _ _ _ _ _ Hv Hd') in HV. inversion HV as [x y -> Eq1 Eq2| |]. 
    cbn [cl_step]. unfold var. rewrite Ha. cbn [obind]. rewrite <- Eq1, <- Eq2. reflexivity.
  - unfold se_do. cbn [se_client cl_run]. rewrite (run_down_UB _ _ _ _ _ _ R1 ltac:(lia) H4). reflexivity.
Qed.

(** ** Loading and saving disturb nothing *)
Section Ext.
  Variables st st' : sstate.
  Hypothesis Hext : forall j o, nth_error (st_objs st) j = Some o -> nth_error (st_objs st') j = Some o.

  Lemma the_obj_ext n o : the_obj st n = Ok o -> the_obj st' n = Ok o.
  Proof using Hext. intros H. apply the_obj_some in H as [H Hh]. unfold the_obj. rewrite (Hext n o H). destruct (so_home o); [reflexivity|congruence]. Qed.
  Lemma see_tree_ext d : forall n o, see_tree d st n = Ok o -> see_tree d st' n = Ok o.
  Proof using Hext.
    induction d as [|d IH]; intros n o H; cbn [see_tree] in *; [discriminate|]. apply obind_ok in H as (ob & Hob & H). rewrite (the_obj_ext n ob Hob). cbn [obind].
    destruct (so_content ob) as [x|es]; [exact H|]. apply obind_ok in H as (l & Hl & H). rewrite Hl. cbn [obind]. apply obind_ok in H as (ts & Hts & H).
    assert (see_children (see_tree d st') l = Ok ts) as ->; [|exact H]. clear - IH Hts. revert ts Hts. induction l as [|[k [n|]] l IHl]; intros ts H; cbn [see_children] in *; auto.
    - apply obind_ok in H as (t & Ht & H). apply obind_ok in H as (r & Hr & H). rewrite (IH n t Ht), (IHl r Hr). exact H.
    - cbn [obind] in *. apply obind_ok in H as (r & Hr & H). rewrite (IHl r Hr). exact H.
  Qed.
  Lemma looks_ext op a : looks op -> spec_step st op = Ok (st, a) -> spec_step st' op = Ok (st', a).
  Proof using Hext.
    destruct op; cbn [looks]; try contradiction; intros _ H; cbn [spec_step] in *.
    6:{ assert (K : known st (Some c) = true -> known st' (Some c) = true).
        { unfold known. rewrite !Nat.ltb_lt. intros K. apply nth_error_Some. destruct (nth_error (st_objs st) c) as [o|] eqn:Eo; [rewrite (Hext _ _ Eo); discriminate|]. apply nth_error_None in Eo. lia. }
        destruct (known st (Some c)); [|discriminate]. rewrite (K eq_refl). apply obind_ok in H as (t & Ht & H). rewrite (see_tree_ext _ _ _ Ht). cbn [obind]. now inversion H. }
    all: apply obind_ok in H as (o & Ho & H); rewrite (the_obj_ext _ o Ho); cbn [obind];
      repeat match type of H with
      | obind ?x _ = _ => destruct x eqn:?; try discriminate H; cbn [obind] in H |- *
      | (if ?x then _ else _) = _ => destruct x eqn:?; try discriminate H
      end; now inversion H.
  Qed.
End Ext.

(** The model shows the same, too. *)
Lemma looks_down w st owns G t w1 st1 owns1 G1 t1 look w' a :
  rel w st owns G t -> t + 1 < W64 -> rel w1 st1 owns1 G1 t1 -> t1 + 1 < W64 -> (exists e, k_vars w1 = k_vars w ++ e) ->
  (forall j o, nth_error (st_objs st) j = Some o -> nth_error (st_objs st1) j = Some o) ->
  looks look -> cl_step w look = Ok (w', a) -> cl_step w1 look = Ok (w1, a).
Proof.
  intros R Ht R1 Ht1 (e & He) Hext Hl E2.
  assert (S2 := step_ok_client w st owns G t look R Ht). rewrite E2 in S2.
  inversion S2 as [x2 y2 (owns2 & G2 & R2 & Ha2 & e2 & He2) Eq3 Eq4| |]. subst x2. destruct y2 as [st2 sa2]. cbn [fst snd] in *.
  assert (st2 = st) by (eapply spec_looks_same; [exact Hl|symmetry; exact Eq4]). subst st2.
  assert (w' = w) by (eapply looks_same; [exact Hl|exact E2]). subst w'.
  pose proof (looks_ext st st1 Hext look sa2 Hl (eq_sym Eq4)) as Hs.
  assert (S3 := step_ok_client w1 _ owns1 G1 t1 look R1 Ht1). rewrite Hs in S3.
  inversion S3 as [x3 y3 (owns3 & G3 & R3 & Ha3 & e3 & He3) Eq5 Eq6| |]. subst y3. destruct x3 as [w3 a3]. cbn [fst snd] in *. symmetry in Eq5.
  assert (w3 = w1) by (eapply looks_same; [exact Hl|exact Eq5]).
  subst w3. f_equal. f_equal. eapply answer_fun; [exact Ha3|]. rewrite He. now apply same_answer_more.
Qed.

Definition kept (st st' : sstate) : Prop := forall j o, nth_error (st_objs st) j = Some o -> nth_error (st_objs st') j = Some o.
Lemma kept_trans a b c : kept a b -> kept b c -> kept a c.
Proof. intros H1 H2 j o Hj. apply H2, H1, Hj. Qed.
Lemma take_kept st st1 um m key st2 a : spec_step st1 (CTake um m key) = Ok (st2, a) -> kept st st1 -> (length (st_objs st) <= m)%nat -> kept st st2.
Proof.
  intros H Hk Hm j o Hj. cbn [spec_step] in H. apply obind_ok in H as (ob & Hob & H). apply obind_ok in H as (es & _ & H). destruct (is_map ob); [|discriminate H].
  apply obind_ok in H as ([v l] & _ & H). inversion H; subst. unfold set_obj. cbn [st_objs]. apply the_obj_some in Hob as [Hob _].
  assert (Hlt : (m < length (st_objs st1))%nat) by (apply nth_error_Some; congruence). rewrite put_spec by exact Hlt. rewrite nth_error_put by exact Hlt.
  assert (j < length (st_objs st))%nat by (apply nth_error_Some; congruence). destruct (Nat.eqb_spec j m); [lia|]. now apply Hk.
Qed.
Lemma parse_kept c fuel content b i pr st st1 r : sane c -> spec_run st (Parse_calls c fuel content b i pr (length (st_objs st))) = Ok (st1, r) -> kept st st1.
Proof.
  intros Hs H.
  assert (Hcase : Parse_calls c fuel content b i pr (length (st_objs st)) = [] \/ exists_pool st i = true).
  { unfold Parse_calls in *. destruct (initFromContent c fuel content b) as [sc| | | |]; [right|left; reflexivity..].
    cbn [spec_run] in H. apply obind_ok in H as ([st2 a2] & Q2 & _). unfold make_call in Q2.
    destruct pr; cbn [kind spec_step] in Q2; unfold make, only in Q2; destruct (exists_pool st i); try reflexivity; discriminate Q2. }
  destruct Hcase as [Hnil|Hi]; [rewrite Hnil in H; cbn [spec_run] in H; inversion H; subst; intros j o Hj; exact Hj|].
  destruct (load_spec c fuel content b i pr st (fun _ => Some content) Hs Hi eq_refl) as (st1' & r' & S1' & _ & X1 & _). cbn zeta in *. assert (st1' = st1) by congruence. subst. exact X1.
Qed.

(** Both parsers, in the specification. *)
Lemma load_runs s calls check s1 x st owns G t : rel (se_client s) st owns G t -> t <= len (se_done s) -> len (se_done s1) < W64 ->
  se_load s calls check = Ok (s1, x) ->
  exists st1 owns1 G1 t1, rel (se_client s1) st1 owns1 G1 t1 /\ t1 <= len (se_done s1) /\ (exists e, k_vars (se_client s1) = k_vars (se_client s) ++ e) /\
    len (se_done s) + len calls <= len (se_done s1) /\
    exists st' r', spec_run st calls = Ok (st', r') /\
      ((st1 = st' /\ exists e, x = SThrown e /\ check = Throw e) \/
       exists sa a, spec_step st' (CTake (se_mem s) (length (st_objs st)) root_key) = Ok (st1, sa) /\ x = SAns a /\ same_answer (k_vars (se_client s1)) a sa /\ check = Ok tt).
Proof.
  intros R Ht Hlen H. unfold se_load in H. apply obind_ok in H as ([s' r] & H1 & H). unfold se_do in H1. apply obind_ok in H1 as ([w1 r1] & H1 & E1). inversion E1; subst s' r. clear E1.
  pose proof (r_len _ _ _ _ _ R) as Em.
  assert (Hd : len (se_done s) + len calls <= len (se_done s1)).
  { destruct check; try discriminate H.
    - apply obind_ok in H as ([s2 rs2] & H2 & H). unfold se_do in H2. apply obind_ok in H2 as ([w2 r2] & _ & H2). inversion H2; subst. destruct rs2 as [|? []]; try discriminate H. inversion H; subst. cbn [se_done]. rewrite !len_app. lia.
    - inversion H; subst. cbn [se_done]. rewrite !len_app. lia. }
  destruct (run_up calls _ _ _ _ _ _ _ R ltac:(lia) H1) as (st1 & r & owns1 & G1 & t1 & S1 & R1 & Ht1 & _ & e & He).
  destruct check as [[]|e0| | |]; try discriminate H.
  - apply obind_ok in H as ([s2 rs2] & H2 & H). unfold se_do in H2. apply obind_ok in H2 as ([w2 r2] & H2 & E2). inversion E2; subst s2 rs2. clear E2.
    destruct r2 as [|? []]; try discriminate H. inversion H; subst. cbn [se_client se_done se_mem] in *. rewrite Em in H2. rewrite !len_app, len_cons, len_nil in Hlen.
    destruct (run_up [CTake (se_mem s) (length (st_objs st)) root_key] _ _ _ _ _ _ _ R1 ltac:(unfold len in *; cbn [length]; lia) H2) as (st2 & r2 & owns2 & G2 & t2 & S2 & R2 & Ht2 & Ha2 & e2 & He2).
    rewrite len_cons, len_nil in Ht2. cbn [spec_run] in S2. apply obind_ok in S2 as ([st3 a3] & Q & S2). inversion S2; subst. inversion Ha2 as [|? ? ? ? Ha3 _]; subst.
    exists st2, owns2, G2, t2. split; [exact R2|]. split; [rewrite !len_app, len_cons, len_nil; lia|]. split; [exists (e ++ e2); rewrite He2, He, app_assoc; reflexivity|].
    split; [exact Hd|]. exists st1, r. split; [exact S1|]. right. eexists _, _. split; [exact Q|]. split; [reflexivity|]. split; [exact Ha3|reflexivity].
  - inversion H; subst. cbn [se_client se_done] in *. rewrite len_app in *. exists st1, owns1, G1, t1. split; [exact R1|]. split; [lia|]. split; [eauto|]. split; [lia|]. exists st1, r. split; [exact S1|]. left. eauto.
Qed.

(** The parallel parser. *)
Lemma pools_len w st owns G t : rel w st owns G t -> length (w_pools (k_pools w KData)) = length (st_alive st).
Proof. intros R. destruct (r_pools _ _ _ _ _ R KData) as (h & I & _). symmetry. apply (i_len _ _ _ _ I). Qed.
Lemma below_start : below sstate0.
Proof. constructor. Qed.
Lemma para_kept c fuel content b i pr st st1 r : sane c -> below st ->
  let calls := Coro_calls c fuel content b i pr (length (st_objs st)) (length (st_alive st)) in
  len calls < W64 -> spec_run st calls = Ok (st1, r) -> kept st st1.
Proof.
  cbn zeta. intros Hs Hb Hl H. destruct (coro_cases c fuel content b i pr (length (st_objs st)) (length (st_alive st))) as [Hc|Hc]; [rewrite Hc in H; eapply parse_kept; eauto|].
  exact (coro_kept c fuel content b i pr st st1 r Hb Hc Hl H).
Qed.

(** C104.  Parsing - successfully or not, by either scheduler - and serializing, and the
    program's own writing to its buffers, change nothing about the objects that were there:
    whatever a call showed before, it shows afterwards.  (The calls that compare keys of map
    views carry the memory these keys point into.) *)
Theorem C104_undisturbed : forall c fuel ops s rs op s1 x look w' a, sane c ->
  se_run c fuel session0 ops = Ok (s, rs) ->
  match op with SCall _ => False | _ => True end ->
  se_step c fuel s op = Ok (s1, x) -> len (se_done s1) + 1 < W64 -> looks look ->
  cl_step (se_client s) look = Ok (w', a) -> cl_step (se_client s1) look = Ok (se_client s1, a).
Proof.
  intros c fuel ops s rs op s1 x look w' a Hs Hrun Hop Hstep Hlen Hl Hlook.
  pose proof (lived_run _ _ _ _ _ _ lived0 Hrun) as (rs0 & Hcl).
  assert (Hgrow : len (se_done s) <= len (se_done s1)) by (eapply done_grows; eauto).
  destruct (after (se_done s) _ _ ltac:(lia) Hcl) as (st & srs & owns & G & t & Sp & R & Ht).
  assert (Hload : forall calls check, (len calls < W64 -> forall st1 r, spec_run st calls = Ok (st1, r) -> kept st st1) -> se_load s calls check = Ok (s1, x) -> cl_step (se_client s1) look = Ok (se_client s1, a)).
  { intros calls check HK H. destruct (load_runs s calls check s1 x st owns G t R Ht ltac:(lia) H) as (st1 & owns1 & G1 & t1 & R1 & Ht1 & He & Hc & st' & r' & S1 & Hst).
    pose proof (HK ltac:(lia) _ _ S1) as K1. assert (kept st st1) by (destruct Hst as [[-> _]|(y & y' & Hy & _)]; [exact K1|eapply take_kept; eauto]).
    eapply looks_down; [exact R|lia|exact R1|lia|exact He|assumption|exact Hl|exact Hlook]. }
  destruct op as [op|b y|depth ty i n b|i b pr|i b pr]; [contradiction Hop| | | |]; cbn [se_step] in Hstep.
  - (* writing to a buffer *) inversion Hstep; subst. cbn [se_client]. pose proof (looks_same _ _ _ _ Hl Hlook). subst. exact Hlook.
  - (* Serialize *)
    apply obind_ok in Hstep as ([s' r] & H1 & Hstep). unfold se_do in H1. apply obind_ok in H1 as ([w1 r1] & H1 & E1). inversion E1; subst s' r. clear E1.
    assert (Hd : se_done s1 = se_done s ++ [CScratch i KMapItem; CView depth n] /\ se_client s1 = w1).
    { destruct r1 as [|? [|[] []]]; try discriminate Hstep. destruct (Serialize _ _ _ _ _); try discriminate Hstep; inversion Hstep; subst; auto. }
    destruct Hd as [Hd ->]. rewrite Hd, len_app in Hlen. cbn [len] in Hlen. unfold len in Hlen at 2. cbn [length] in Hlen.
    destruct (run_up [CScratch i KMapItem; CView depth n] _ _ _ _ _ _ _ R ltac:(unfold len; cbn [length]; lia) H1) as (st1 & r & owns1 & G1 & t1 & S1 & R1 & Ht1 & _ & He).
    unfold len in Ht1. cbn [length] in Ht1.
    eapply looks_down; [exact R|lia|exact R1|lia|exact He| |exact Hl|exact Hlook].
    cbn [spec_run] in S1. apply obind_ok in S1 as ([st2 a2] & Q2 & S1). apply obind_ok in S1 as ([st3 a3] & Q3 & S1). apply obind_ok in Q3 as ([st4 a4] & Q4 & Q3). inversion Q3; subst. inversion S1; subst.
    assert (st2 = st) by (cbn [spec_step] in Q2; unfold only in Q2; destruct (exists_pool st i); [now inversion Q2|discriminate Q2]). subst st2.
    assert (st1 = st) by (eapply spec_looks_same; [|exact Q4]; exact I). subst st1. auto.
  - (* Parse *)
    destruct (se_mem s b) as [content|] eqn:Hmem; [|discriminate Hstep]. rewrite (r_len _ _ _ _ _ R) in Hstep.
    eapply Hload; [|exact Hstep]. intros _ st1 r. now apply parse_kept.
  - destruct (se_mem s b) as [content|] eqn:Hmem; [|discriminate Hstep]. rewrite (r_len _ _ _ _ _ R), (pools_len _ _ _ _ _ R) in Hstep.
    eapply Hload; [|exact Hstep]. intros Hc st1 r. apply para_kept; auto. eapply below_run; [apply below_start|exact Sp].
Qed.

(** ** Saving and loading *)
(** The call does not write to buffer [b]. *)
Definition leaves (b : nat) (op : scall) : Prop :=
  match op with SBuffer b' _ | SSave _ _ _ _ b' => b' <> b | _ => True end.
Lemma leaves_step c fuel b s op s' a : leaves b op -> se_step c fuel s op = Ok (s', a) -> se_mem s' b = se_mem s b.
Proof.
  assert (HD : forall s ops s' r, se_do s ops = Ok (s', r) -> se_mem s' = se_mem s).
  { intros s0 ops s1 r H. unfold se_do in H. apply obind_ok in H as ([w x] & _ & H). now inversion H. }
  assert (HL : forall s calls check s' r, se_load s calls check = Ok (s', r) -> se_mem s' = se_mem s).
  { intros s0 calls check s9 r H. unfold se_load in H. apply obind_ok in H as ([s1 rs] & H1 & H). apply HD in H1. destruct check; try discriminate H.
    - apply obind_ok in H as ([s2 rs2] & H2 & H). apply HD in H2. destruct rs2 as [|? []]; try discriminate H. inversion H; subst. now rewrite H2, H1.
    - inversion H; subst. now rewrite H1. }
  intros Hl H. destruct op as [op|b' x|depth ty i n b'|i b' pr|i b' pr]; cbn [se_step leaves] in H, Hl.
  - apply obind_ok in H as ([s1 rs] & H1 & H). destruct rs as [|? []]; try discriminate H. inversion H; subst. now rewrite (HD _ _ _ _ H1).
  - inversion H; subst. cbn [se_mem]. unfold set_buffer. destruct (Nat.eqb_spec b b'); [congruence|reflexivity].
  - apply obind_ok in H as ([s1 rs] & H1 & H). apply HD in H1. destruct rs as [|? [|[] []]]; try discriminate H.
    destruct (Serialize _ _ _ _ _); try discriminate H; inversion H; subst; cbn [se_mem]; rewrite ?H1; [|reflexivity].
    unfold set_buffer. destruct (Nat.eqb_spec b b'); [congruence|reflexivity].
  - destruct (se_mem s b') as [content|]; [|discriminate H]. now rewrite (HL _ _ _ _ _ H).
  - destruct (se_mem s b') as [content|]; [|discriminate H]. now rewrite (HL _ _ _ _ _ H).
Qed.
Lemma leaves_run c fuel b ops : forall s s' rs, Forall (leaves b) ops -> se_run c fuel s ops = Ok (s', rs) -> se_mem s' b = se_mem s b.
Proof.
  induction ops as [|op ops IH]; intros s s' rs HF H; cbn [se_run] in H; [inversion H; now subst|]. inversion HF; subst.
  apply obind_ok in H as ([s1 a] & Q1 & H). apply obind_ok in H as ([s2 r] & Q2 & H). inversion H; subst.
  rewrite (IH s1 s' r) by assumption. eapply leaves_step; eauto.
Qed.
Lemma se_run_app c fuel a : forall b s s1 r1 s2 r2, se_run c fuel s a = Ok (s1, r1) -> se_run c fuel s1 b = Ok (s2, r2) -> se_run c fuel s (a ++ b) = Ok (s2, r1 ++ r2).
Proof.
  induction a as [|op a IH]; intros b s s1 r1 s2 r2 Ha Hb; cbn [app se_run] in *; [inversion Ha; subst; exact Hb|].
  apply obind_ok in Ha as ([s3 x] & H1 & Ha). apply obind_ok in Ha as ([s4 y] & H2 & Ha). inversion Ha; subst. rewrite H1. cbn [obind]. rewrite (IH b s3 s1 y s2 r2 H2 Hb). reflexivity.
Qed.

(** What a save writes is the serialization of what was to be seen. *)
Lemma saved_doc c fuel ops s rs depth n w' o ty i b s1 x content : se_run c fuel session0 ops = Ok (s, rs) ->
  cl_step (se_client s) (CView depth n) = Ok (w', AnView o) -> se_step c fuel s (SSave depth ty i n b) = Ok (s1, SAns x) -> se_mem s1 b = Some content ->
  len (se_done s1) + 1 < W64 -> Serialize c (se_mem s) ty (PoolId i) o = Ok content.
Proof.
  intros Hrun Hview Hsave Hmem1 HG2. pose proof (done_grows _ _ _ _ _ _ Hsave) as HG1. pose proof (lived_run _ _ _ _ _ _ lived0 Hrun) as Hl0.
  destruct Hl0 as (rs0 & Hcl). cbn [se_step] in Hsave. apply obind_ok in Hsave as ([q r] & H1 & Hsave). unfold se_do in H1. apply obind_ok in H1 as ([w1 r1] & H1 & E1). inversion E1; subst q r. clear E1.
  cbn [se_client se_mem se_done] in *. cbn [cl_run] in H1. apply obind_ok in H1 as ([w2 a2] & Q2 & H1). apply obind_ok in H1 as ([w3 r3] & H3 & H1). inversion H1; subst. clear H1.
  apply obind_ok in H3 as ([w4 a4] & Q4 & H3). inversion H3; subst. clear H3.
  destruct (after (se_done s) _ _ ltac:(lia) Hcl) as (st & srs & owns & G & t & _ & R & Ht).
  (* the object shows the same with the item of the root in the pool *)
  assert (Ho : a4 = AnView o).
  { destruct (run_up [CScratch i KMapItem] (se_client s) st owns G t w2 [a2] R ltac:(rewrite len_cons, len_nil; lia) ltac:(cbn [cl_run]; rewrite Q2; reflexivity)) as (st1 & r & owns1 & G1 & t1 & S1 & R1 & Ht1 & _ & He).
    rewrite len_cons, len_nil in Ht1. 
    assert (st1 = st). { cbn [spec_run spec_step] in S1. unfold only in S1. destruct (exists_pool st i); cbn [obind] in S1; [now inversion S1|discriminate S1]. } subst st1.
    pose proof (looks_down _ _ _ _ _ _ _ _ _ _ (CView depth n) _ _ R ltac:(lia) R1 ltac:(destruct a4; try discriminate Hsave; destruct (Serialize _ _ _ _ _); try discriminate Hsave; inversion Hsave; subst; cbn [se_done] in *; rewrite len_app, !len_cons, len_nil in HG2; lia) He ltac:(auto) I Hview) as Hv. congruence. }
  subst a4. cbn [se_mem] in Hsave. destruct (Serialize c (se_mem s) ty (PoolId i) o) as [content'| | | |]; try discriminate Hsave; inversion Hsave; subst; cbn [se_mem] in Hmem1.
  - unfold set_buffer in Hmem1. rewrite Nat.eqb_refl in Hmem1. congruence.
Qed.

(** C104.  Serialize an object of a running program - built by hand, parsed, edited, merged
    from other pools - into a buffer; go on with anything that leaves the buffer alone;
    parse the buffer, in either mode, into any pool that exists then: the pointer returned
    shows, along every path of keys and indices, what the object showed when it was
    serialized. *)
Theorem C104_cycle : forall c fuel ops s rs depth n w' o v ty i b s1 x content ops' s2 rs' j pr,
  sane c -> se_run c fuel session0 ops = Ok (s, rs) ->
  cl_step (se_client s) (CView depth n) = Ok (w', AnView o) -> denotes (se_mem s) o v -> distinct_keys v -> (pr = true -> no_custom v) ->
  se_step c fuel s (SSave depth ty i n b) = Ok (s1, SAns x) ->
  se_mem s1 b = Some content -> fits c content -> (length content <= fuel)%nat ->
  se_run c fuel s1 ops' = Ok (s2, rs') -> Forall (leaves b) ops' ->
  defined (cl_step (se_client s2) (CPool (BpClear j))) ->
  len (se_done s2) + 2 * len (Parse_allocs c fuel content b (PoolId j) pr) + 2 < W64 ->
  exists s3 a k d o', se_step c fuel s2 (SLoad j b pr) = Ok (s3, SAns (AnPtr (Some a))) /\
    nth_error (k_vars (se_client s3)) k = Some a /\
    (forall d', (d <= d')%nat -> cl_step (se_client s3) (CView d' k) = Ok (se_client s3, AnView o')) /\
    (forall path, api_seen (se_mem s3) o' path = api_seen (se_mem s) o path) /\
    (forall path, api_seen (se_mem s) o path = Ok (seen_at v path)).
Proof.
  intros c fuel ops s rs depth n w' o v ty i b s1 x content ops' s2 rs' j pr Hs Hrun Hview Hd Hk Hnc Hsave Hmem1 Hfit Hfuel Hrun' Hleave Hdef Hlen.
  pose proof (lived_run _ _ _ _ _ _ lived0 Hrun) as Hl0.
  assert (Hgrow : forall op s s' a, se_step c fuel s op = Ok (s', a) -> len (se_done s) <= len (se_done s')) by (intros; eapply done_grows; eauto).
  assert (Hgrows : forall ops s s' r, se_run c fuel s ops = Ok (s', r) -> len (se_done s) <= len (se_done s')).
  { induction ops0 as [|op ops0 IH]; intros q q' r H; cbn [se_run] in H; [inversion H; subst; lia|]. apply obind_ok in H as ([q1 a] & H1 & H). apply obind_ok in H as ([q2 r2] & H2 & H). inversion H; subst.
    apply Hgrow in H1. apply IH in H2. lia. }
  pose proof (Hgrow _ _ _ _ Hsave) as HG1. pose proof (Hgrows _ _ _ _ Hrun') as HG2.
  (* the document *)
  assert (Hser : Serialize c (se_mem s) ty (PoolId i) o = Ok content) by (eapply saved_doc; eauto; lia).
  assert (Hrun1 : se_run c fuel session0 (ops ++ [SSave depth ty i n b]) = Ok (s1, rs ++ [SAns x])) by (eapply se_run_app; [exact Hrun|]; cbn [se_run]; rewrite Hsave; reflexivity).
  assert (Hmem2 : se_mem s2 b = Some content) by (rewrite (leaves_run _ _ _ _ _ _ _ Hleave Hrun'); exact Hmem1).
  pose proof (se_run_app _ _ _ _ _ _ _ _ _ Hrun1 Hrun') as Hrun2.
  destruct (transport c c (se_mem s) ty (PoolId i) o v content [] b fuel (PoolId j) {| po_type := Normal; po_ref := pr |}) as (o' & v' & HP & Hsc & _ & Hr & _); auto; try (rewrite app_nil_r; exact Hfit).
  rewrite app_nil_r in HP, Hr. cbn [po_ref] in Hr.
  pose proof (C104_load c fuel _ s2 _ j b pr content Hs Hrun2 Hlen Hdef Hmem2) as HL. rewrite HP in HL.
  destruct HL as (s3 & a & H3 & Hm3 & Ha).
  assert (Hd3 : denotes (se_mem s3) o' v') by (apply Hr; intros _; rewrite Hm3; exact Hmem2).
  destruct a as [p|]; [|subst o'; inversion Hd3]. destruct Ha as (k & d & Hk3 & Hv3).
  exists s3, p, k, d, o'. split; [exact H3|]. split; [exact Hk3|]. split; [exact Hv3|].
  assert (Hseen : forall path, api_seen (se_mem s) o path = Ok (seen_at v path)) by (intros path; now apply api_seen_ok).
  split; [|exact Hseen]. intros path. rewrite Hseen, (api_seen_ok _ o' v' path Hd3). f_equal. symmetry. now apply same_content_seen.
Qed.

(** ** Met *)
(** A map {"a": [7]} is built in pool 0 and saved into buffer 3; the object is changed and
    pool 0 destroyed; the buffer is loaded twice, copied into pool 1 and in place into
    pool 2; then buffer 4, which holds no document, is loaded. *)
Definition sample_session : list scall :=
  [SCall (CPool BpNew); SCall (CCont 0 KMap); SCall (CCont 0 KArray); SCall (CData 0 false (u32 7));
   SCall (CInsert 1 (OwnKey []) (Some 2%nat)); SCall (CInsert 0 (OwnKey [n2b 97]) (Some 1%nat))].
Definition sample_rest : list scall :=
  [SCall (CAssign 2 (u32 8)); SCall (CPool BpNew); SCall (CPool BpNew); SCall (CPool (BpDestroy 0)); SLoad 2 3 true;
   SBuffer 4 (Some [n2b 1; n2b 2; n2b 3]); SLoad 1 4 false].
Definition sample_tree (p : nat) : obj := OMap (PoolId p) 1 [([n2b 97], OArray (PoolId p) 1 [data_of_num U32 7])].
Definition session_value : Spec.value := VMap [([n2b 97], VArr [VScalar (VNum U32 7)])].

Definition run_or (s : session) (ops : list scall) : session := match se_run x86_release 100 s ops with Ok (s', _) => s' | _ => s end.
Definition sample_s : session := run_or session0 sample_session.
Definition sample_s1 : session := run_or sample_s [SSave 5 NORMAL 0%nat 0%nat 3%nat].
Definition sample_s2 : session := run_or sample_s1 sample_rest.
Definition sample_content : bytes := match se_mem sample_s1 3%nat with Some x => x | None => [] end.
Definition answers (s : session) (ops : list scall) : option (list sess_answer) := match se_run x86_release 100 s ops with Ok (_, r) => Some r | _ => None end.

Example C104_met :
  (exists rs, se_run x86_release 100 session0 sample_session = Ok (sample_s, rs)) /\
  cl_step (se_client sample_s) (CView 5 0) = Ok (se_client sample_s, AnView (sample_tree 0)) /\
  denotes (se_mem sample_s) (sample_tree 0) session_value /\ distinct_keys session_value /\ no_custom session_value /\
  se_step x86_release 100 sample_s (SSave 5 NORMAL 0%nat 0%nat 3%nat) = Ok (sample_s1, SAns AnNone) /\
  se_mem sample_s1 3%nat = Some sample_content /\ fits x86_release sample_content /\ (length sample_content <= 100)%nat /\
  (exists rs, se_run x86_release 100 sample_s1 sample_rest = Ok (sample_s2, rs)) /\
  answers sample_s1 sample_rest = Some [SAns AnNone; SAns AnNone; SAns AnNone; SAns AnNone; SAns (AnPtr (Some (KMapView, (0%nat, 1)))); SAns AnNone; SThrown ERuntime] /\
  Forall (leaves 3) sample_rest /\ defined (cl_step (se_client sample_s2) (CPool (BpClear 1))) /\
  len (se_done sample_s2) + 2 * len (Parse_allocs x86_release 100 sample_content 3 (PoolId 1) false) + 2 < W64 /\
  (* the next load, copying, and what is to be seen then *)
  answers sample_s2 [SLoad 1%nat 3%nat false; SCall (CView 5 8)] = Some [SAns (AnPtr (Some (KMap, (1%nat, 1)))); SAns (AnView (sample_tree 1))].
Proof.
  split; [eexists; vm_compute; reflexivity|]. split; [vm_compute; reflexivity|].
  split; [repeat (first [ apply den_map | apply den_array | apply den_data | apply dd_num | apply Forall2_cons | apply Forall2_nil | split | reflexivity ])|].
  split; [unfold session_value; repeat (first [ apply dk_map | apply dk_arr | apply dk_scalar | apply NoDup_cons | apply NoDup_nil | apply Forall_cons | apply Forall_nil | (cbn; tauto) ])|].
  split; [unfold session_value; repeat (first [ apply nc_map | apply nc_arr | (apply nc_scalar; discriminate) | apply Forall_cons | apply Forall_nil ])|].
  split; [vm_compute; reflexivity|]. split; [vm_compute; reflexivity|]. split; [vm_compute; reflexivity|]. split; [vm_compute; lia|].
  split; [eexists; vm_compute; reflexivity|]. 
  split; [vm_compute; reflexivity|]. split; [repeat constructor; cbn; lia|]. split; [eexists; vm_compute; reflexivity|]. split; [vm_compute; reflexivity|].
  vm_compute. reflexivity.
Qed.
