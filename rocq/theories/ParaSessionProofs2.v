(** * Proofs about sessions: the parallel parser's steps in memory, continued. *)
From Verif Require Import Base BaseLemmas ModelVarint ModelData ModelSecondary ModelObject ModelParse ModelWrapper ModelPool ModelStorage ModelFrames
  ModelAlloc ModelParaAlloc ModelClient ModelSession Spec SpecClient ParseLemmas PropPool PropFrames ParaProofs ClientProofs PropClient GeneralProofs PropAlloc PropInsitu PropInsituAny SessionProofs ParaSessionProofs.
From Coq Require Import ZifyBool ZifyNat ZifyN.
Local Open Scope out_scope.
Notation bare := (map (fun e => (fst e, no_pools (snd e)))).

(** ** Homes stay below *)
Lemma below_rehome f st al : below st -> (length (st_alive st) <= length al)%nat ->
  (forall h h', (h < length (st_alive st))%nat -> f h = Some h' -> (h' < length al)%nat) -> below {| st_alive := al; st_objs := rehome_all f (st_objs st) |}.
Proof. intros Hb Hl Hf. apply (moved_below f st); [reflexivity|exact Hb|exact Hf]. Qed.
Lemma below_grow st al : below st -> (length (st_alive st) <= length al)%nat -> below {| st_alive := al; st_objs := st_objs st |}.
Proof. intros Hb Hl. eapply Forall_impl; [|exact Hb]. intros o Ho. eapply below_le; [exact Hl|exact Ho]. Qed.
Lemma below_set n o c st : below st -> the_obj st n = Ok o ->
  match c with SCont es => Forall (fun e => forall h, en_home e = Some h -> (h < length (st_alive st))%nat) es | SData _ => True end -> below (set_obj n (with_content c o) st).
Proof.
  intros Hb Ho Hc. apply the_obj_some in Ho as [Ho _]. assert (Hn : (n < length (st_objs st))%nat) by (apply nth_error_Some; congruence).
  unfold below, set_obj. cbn [st_alive st_objs]. rewrite put_spec by exact Hn. apply Forall_put; [exact Hb|].
  pose proof (proj1 (Forall_forall _ _) Hb o (nth_error_In _ _ Ho)) as [B1 B2]. split; [exact B1|exact Hc].
Qed.
Lemma below_entries st n o l : below st -> the_obj st n = Ok o -> entries o = Ok l -> Forall (fun e => forall h, en_home e = Some h -> (h < length (st_alive st))%nat) l.
Proof.
  intros Hb Ho Hl. apply the_obj_some in Ho as [Ho _]. pose proof (proj1 (Forall_forall _ _) Hb o (nth_error_In _ _ Ho)) as [B1 B2]. unfold entries in Hl. destruct (so_content o); [discriminate Hl|]. inversion Hl; subst. exact B2.
Qed.
Lemma below_make st i k c st' : below st -> make st i k c = Ok st' -> match c with SCont es => es = [] | _ => True end -> below st'.
Proof.
  intros Hb H Hc. unfold make, only in H. destruct (exists_pool st i) eqn:Ei; [|discriminate H]. inversion H; subst. unfold below. cbn [st_alive st_objs]. apply Forall_app. split; [exact Hb|]. constructor; [|constructor].
  split; cbn [so_home so_content]; [intros h [= <-]; now apply exists_lt|]. destruct c; [exact I|]. subst. constructor.
Qed.
Lemma below_seek_take q um key : forall l v l', Forall (fun e => forall h, en_home e = Some h -> (h < q)%nat) l -> seek_take um key l = Ok (v, l') ->
  Forall (fun e => forall h, en_home e = Some h -> (h < q)%nat) l'.
Proof.
  induction l as [|e l IH]; intros v l' HF H; cbn [seek_take] in H; [inversion H; constructor|]. inversion HF as [|? ? He HF']; subst. destruct (present (en_home e)); [|discriminate H].
  apply obind_ok in H as (kc & _ & H). destruct (bytes_eqb kc key); [inversion H; subst; constructor; [exact He|exact HF']|]. apply obind_ok in H as ([v1 r] & Hr & H). inversion H; subst. constructor; [exact He|]. eapply IH; eauto.
Qed.
Lemma below_step st op st' a : below st -> spec_step st op = Ok (st', a) -> below st'.
Proof.
  intros Hb H. destruct op; cbn [spec_step] in H.
  - apply obind_ok in H as (st1 & H1 & H). inversion H; subst. clear H. destruct op; cbn [pool_call] in H1; unfold only in H1.
    + inversion H1; subst. apply below_grow; [exact Hb|]. rewrite app_length. cbn. lia.
    + discriminate H1.
    + destruct (exists_pool st i) eqn:Ei; [|discriminate H1]. destruct (exists_pool st j) eqn:Ej; [|discriminate H1]. destruct (Nat.eqb i j); [discriminate H1|]. inversion H1; subst. apply below_rehome; [exact Hb|lia|].
      intros h h' Hh [= <-]. apply exists_lt in Ei. destruct (Nat.eqb h j); lia.
    + destruct (exists_pool st i) eqn:Ei; [|discriminate H1]. inversion H1; subst. apply below_rehome; [exact Hb|lia|]. intros h h' Hh Hf. destruct (Nat.eqb h i); [discriminate Hf|]. inversion Hf; subst. exact Hh.
    + destruct (exists_pool st j) eqn:Ei; [|discriminate H1]. inversion H1; subst. apply below_rehome; [exact Hb|rewrite app_length; cbn; lia|]. intros h h' Hh [= <-]. rewrite app_length. cbn. destruct (Nat.eqb h j); lia.
    + destruct (exists_pool st i) eqn:Ei; [|discriminate H1]. destruct (exists_pool st j) eqn:Ej; [|discriminate H1]. destruct (Nat.eqb i j); [discriminate H1|]. inversion H1; subst. apply below_rehome; [exact Hb|lia|].
      intros h h' Hh Hf. apply exists_lt in Ei. destruct (Nat.eqb h i); [discriminate Hf|]. inversion Hf; subst. destruct (Nat.eqb h j); lia.
    + destruct (exists_pool st i) eqn:Ei; [|discriminate H1]. apply exists_lt in Ei. injection H1 as <-. change (match st_alive st with [] => [] | _ :: l => skipn i l end) with (skipn (S i) (st_alive st)). rewrite put_spec by exact Ei. apply below_rehome; [exact Hb|rewrite put_length; lia|]. rewrite put_length.
      intros h h' Hh Hf. destruct (Nat.eqb h i); [discriminate Hf|]. inversion Hf; subst. exact Hh.
  - apply obind_ok in H as (st1 & H1 & H). inversion H; subst. eapply below_make; eauto. exact I.
  - destruct k; try discriminate H; apply obind_ok in H as (st1 & H1 & H); inversion H; subst; eapply below_make; eauto; reflexivity.
  - unfold only in H. destruct (exists_pool st i); [|discriminate H]. inversion H; subst. exact Hb.
  - apply obind_ok in H as (o & Ho & H). apply obind_ok in H as (l & Hl & H). destruct (exists_pool st (so_made o)) eqn:Ei; [|discriminate H]. cbn [andb] in H. destruct (known st v && key_for (so_cls o) key); [|discriminate H]. inversion H; subst.
    apply below_set; [exact Hb|exact Ho|]. constructor; [|eapply below_entries; eauto]. intros h [= <-]. now apply exists_lt.
  - apply obind_ok in H as (o & Ho & H). apply obind_ok in H as (l & Hl & H). destruct (known st v && key_for (so_cls o) key); [|discriminate H]. apply obind_ok in H as (y & _ & H). destruct (exists_pool st j) eqn:Ej; [|discriminate H]. inversion H; subst.
    apply below_set; [exact Hb|exact Ho|]. apply Forall_app. split; [eapply below_entries; eauto|]. constructor; [|constructor]. intros h [= <-]. now apply exists_lt.
  - apply obind_ok in H as (o & Ho & H). apply obind_ok in H as (l & Hl & H). inversion H; subst. apply below_set; [exact Hb|exact Ho|]. constructor.
  - apply obind_ok in H as (o & Ho & H). apply obind_ok in H as (l & Hl & H). destruct (is_map o); [|discriminate H]. apply obind_ok in H as ([v l'] & Ht & H). inversion H; subst. apply below_set; [exact Hb|exact Ho|]. eapply below_seek_take; [|exact Ht]. eapply below_entries; eauto.
  - apply obind_ok in H as (o & Ho & H). apply obind_ok in H as (l & Hl & H). inversion H; subst. exact Hb.
  - apply obind_ok in H as (o & Ho & H). apply obind_ok in H as (l & Hl & H). destruct (is_array o); [|discriminate H]. destruct (len l <=? n); [inversion H; now subst|]. apply obind_ok in H as (v & _ & H). inversion H; now subst.
  - apply obind_ok in H as (o & Ho & H). apply obind_ok in H as (l & Hl & H). destruct (is_map o); [|discriminate H]. apply obind_ok in H as (v & _ & H). inversion H; now subst.
  - apply obind_ok in H as (o & Ho & H). apply obind_ok in H as (l & Hl & H). apply obind_ok in H as (v & _ & H). inversion H; now subst.
  - apply obind_ok in H as (o & Ho & H). apply obind_ok in H as (l & Hl & H). inversion H; now subst.
  - apply obind_ok in H as (o & Ho & H). apply obind_ok in H as (l & Hl & H). inversion H; subst. apply below_set; [exact Hb|exact Ho|exact I].
  - destruct (known st (Some c)); [|discriminate H]. apply obind_ok in H as (v & _ & H). inversion H; now subst.
Qed.
Lemma below_run : forall ops st st' r, below st -> spec_run st ops = Ok (st', r) -> below st'.
Proof.
  induction ops as [|op ops IH]; intros st st' r Hb H; cbn [spec_run] in H; [inversion H; now subst|]. apply obind_ok in H as ([st1 a] & H1 & H). apply obind_ok in H as ([st2 r2] & H2 & H). inversion H; subst. eapply IH; [|exact H2]. eapply below_step; eauto.
Qed.
Lemma below_runs st c st' : below st -> runs st c st' -> below st'.
Proof. intros Hb (r & H). eapply below_run; eauto. Qed.

(** ** The items of a block *)
Lemma cont_bare pr t md k (es : list entry) (L l : list (ckey * obj)) : t <> TData -> k = kind pr t -> len es = len L -> len L < W64 -> bare L = bare l ->
  no_pools (cont_obj k md (len es) L) = no_pools (coro_obj pr t l).
Proof.
  intros Ht -> He Hl Hb. assert (Hll : len L = len l) by (rewrite <- (len_map (fun e => (fst e, no_pools (snd e))) L), Hb; apply len_map). rewrite He.
  assert (Hm : forall (A : Type) (g : ckey -> A), map (fun e => (g (fst e), no_pools (snd e))) L = map (fun e => (g (fst e), no_pools (snd e))) l).
  { intros A g. transitivity (map (fun e => (g (fst e), snd e)) (bare L)); [now rewrite map_map|]. rewrite Hb. now rewrite map_map. }
  destruct t; [contradiction| |]; cbn [kind]; unfold coro_obj.
  - destruct pr; cbn [cont_obj no_pools]; rewrite !map_map; cbn [fst snd]; rewrite (Hm _ _), u64_small by lia; rewrite Hll; reflexivity.
  - cbn [cont_obj no_pools]. rewrite !map_map. rewrite u64_small by lia. rewrite Hll. f_equal.
    transitivity (map snd (bare L)); [now rewrite map_map|]. rewrite Hb. now rewrite map_map.
Qed.

Section Items.
  Variable E : penv.
  Variable si : split_info.
  Variable get : N -> outcome view.
  Variable pr : bool.
  Notation R := (b_env E).
  Notation at_ b := {| idx := b; off := b |}.

  Fixpoint gitems (t : objtype) (fuel : nat) (e : N) (s : rstate) : outcome (list (ckey * obj)) :=
    match fuel with
    | O => Fuel
    | S f =>
        if off s <? e then
          '(key, s1) <- item_key E get pr t s ;;
          '(o, s2) <- run get (block_value E si f pr s1) ;;
          l <- gitems t f e s2 ;; Ok ((key, o) :: l)
        else Ok []
    end.
  Lemma gitems_ok t : forall f e s acc n, match gblock E si get pr t f e s acc n with
    | Ok b => exists l, gitems t f e s = Ok l /\ fst b = rev acc ++ l
    | _ => forall l, gitems t f e s <> Ok l end.
  Proof.
    induction f as [|f IH]; intros e s acc n; cbn [gblock gitems]; [discriminate|]. destruct (off s <? e); [|exists []; split; [reflexivity|now rewrite app_nil_r]].
    destruct (item_key E get pr t s) as [[key s1]| | | |]; cbn [obind]; try discriminate.
    destruct (run get (block_value E si f pr s1)) as [[o s2]| | | |]; cbn [obind]; try discriminate.
    specialize (IH e s2 ((key, o) :: acc) (u64 (n + 1))). destruct (gblock E si get pr t f e s2 _ _) as [b| | | |].
    - destruct IH as (l & -> & Hb). cbn [obind]. exists ((key, o) :: l). split; [reflexivity|]. rewrite Hb. cbn [rev]. now rewrite <- app_assoc.
    - intros l H. apply obind_ok in H as (l' & H & _). now apply IH in H.
    - intros l H. apply obind_ok in H as (l' & H & _). now apply IH in H.
    - intros l H. apply obind_ok in H as (l' & H & _). now apply IH in H.
    - intros l H. apply obind_ok in H as (l' & H & _). now apply IH in H.
  Qed.
  Lemma block_ok_items t f be : t <> TData -> block_ok E si get pr f t be = true <-> exists l, gitems t f (snd be) (at_ (fst be)) = Ok l.
  Proof.
    intros Ht. rewrite (block_ok_g E si get pr t f be Ht). pose proof (gitems_ok t f (snd be) (at_ (fst be)) [] 0) as H. destruct (gblock E si get pr t f (snd be) _ [] 0) as [b| | | |].
    1: destruct H as (l & H & _); split; eauto.
    all: split; [discriminate|intros (l & Hl); now apply H in Hl].
  Qed.

  (* unfolding *)
  Notation coro_calls := (coro_calls E si get pr).
  Notation item_calls := (item_calls E si get pr).
  Notation element_calls := (element_calls E si get pr).
  Definition block_calls (f : nat) (t : objtype) (n : nat) (be : N * N) (m' q' : nat) : list ccall * (nat * nat) * frame :=
    let ok := block_ok E si get pr f t be in
    let '(c, (m2, q2)) := item_calls f t ok q' n (snd be) (at_ (fst be)) m' (S q') in
    let '(c', q3, fr) := leave_coro ok q' q2 in
    (CPool BpNew :: c ++ c', (m2, q3), fr).
  Lemma coro_calls_S f t os m q : coro_calls (S f) t os m q =
    match split_ranges E si os with
    | Ok rs =>
        let '(c1, (m1, q1), frs) := seq_blocks (block_calls f t m) (order t rs) (S m) (S q) in
        let '(ops, ok) := merges q (rev frs) in
        let '(c2, q2, fr) := leave_coro ok q q1 in
        (CPool BpNew :: CCont q (kind pr t) :: c1 ++ map CPool (ops ++ map BpDestroy (held (order t frs))) ++ c2, (m1, q2), fr)
    | _ => ([CPool BpNew; CPool (BpDestroy q)], (m, S q), FFail)
    end.
  Proof. reflexivity. Qed.
  Lemma item_calls_S f t ok j n e s m q : item_calls (S f) t ok j n e s m q =
    if off s <? e then
      match item_key E get pr t s with
      | Ok (key, s1) =>
          let '(c1, (m1, q1)) := element_calls f j s1 m q in
          match run get (block_value E si f pr s1) with
          | Ok (_, s2) =>
              let '(c2, mq) := item_calls f t ok j n e s2 m1 q1 in
              (c1 ++ (if ok then CAppend j n key (Some m) else CScratch j (item_kind pr t)) :: c2, mq)
          | _ => (c1, (m1, q1))
          end
      | _ => ([], (m, q))
      end
    else ([], (m, q)).
  Proof. reflexivity. Qed.
  Lemma element_calls_S f j s m q : element_calls (S f) j s m q =
    match parseObjectType_split R s with
    | Ok (t, split, s1) =>
        if split : bool then
          match t with
          | TData => ([], (m, q))
          | _ =>
              let '(c, mq, fr) := coro_calls f t (idx s1) m q in
              (c ++ match fr with FDone r => map CPool (deliver j r) | _ => [] end, mq)
          end
        else
          let r := value_calls E get (PoolId j) j pr f t s1 m (S m) in
          (make_call j pr t :: fst r, (snd r, q))
    | _ => ([], (m, q))
    end.
  Proof. reflexivity. Qed.

  (** ** What the calls do *)
  Definition grown (st st' : sstate) : Prop :=
    (length (st_alive st) <= length (st_alive st'))%nat /\
    (forall j o, nth_error (st_objs st) j = Some o -> nth_error (st_objs st') j = Some o) /\
    (forall k, exists_pool st' k = exists_pool st k).
  Lemma grown_refl st : grown st st.
  Proof. repeat split; auto. Qed.
  Lemma grown_trans a b c : grown a b -> grown b c -> grown a c.
  Proof. intros (A1 & A2 & A3) (B1 & B2 & B3). split; [lia|]. split; [auto|]. intros k. now rewrite B3. Qed.
  Notation objs st := (length (st_objs st)).
  Notation pools st := (length (st_alive st)).

  Definition P_el (f : nat) : Prop := forall j s st, exists_pool st j = true -> below st ->
    forall c m' q', element_calls f j s (objs st) (pools st) = (c, (m', q')) -> len c < W64 ->
    exists st', runs st c st' /\ objs st' = m' /\ pools st' = q' /\ grown st st' /\
      forall o s', run get (block_value E si f pr s) = Ok (o, s') -> exists d o', see_from (Nat.eqb j) (objs st) d st' (objs st) = Ok o' /\ no_pools o' = no_pools o.

  Definition P_it (f : nat) : Prop := forall t ok j n e s st h P es d L l, t <> TData -> exists_pool st j = true -> below st -> P j = true -> (n < objs st)%nat ->
    (ok = true -> hasp h st n (kind pr t) es /\ bag P st n d es L /\ gitems t f e s = Ok l) ->
    forall c m' q', item_calls f t ok j n e s (objs st) (pools st) = (c, (m', q')) -> len c < W64 ->
    exists st', runs st c st' /\ objs st' = m' /\ pools st' = q' /\ (pools st <= pools st')%nat /\
      (forall k o, (ok = true -> k <> n) -> nth_error (st_objs st) k = Some o -> nth_error (st_objs st') k = Some o) /\
      (forall k, exists_pool st' k = exists_pool st k) /\
      (ok = true -> exists es' d' L', hasp h st' n (kind pr t) es' /\ bag P st' n d' es' (L ++ L') /\ bare L' = bare l /\ len es' <= len es + len c).

  Definition P_co (f : nat) : Prop := forall t os st, t <> TData -> below st ->
    forall c m' q' fr, coro_calls f t os (objs st) (pools st) = (c, (m', q'), fr) -> len c < W64 ->
    exists st', runs st c st' /\ objs st' = m' /\ pools st' = q' /\ (pools st <= pools st')%nat /\
      (forall k o, nth_error (st_objs st) k = Some o -> nth_error (st_objs st') k = Some o) /\
      match run get (coro_prog E si pr t f os) with
      | Ok (o, _) => exists x es d L md, fr = FDone x /\ (pools st <= x)%nat /\ (forall k, exists_pool st' k = exists_pool st k || Nat.eqb k x) /\
          hasp x st' (objs st) (kind pr t) es /\ bag (Nat.eqb x) st' (objs st) d es L /\ no_pools (cont_obj (kind pr t) md (len es) L) = no_pools o /\
          see_from (Nat.eqb x) (objs st) (S d) st' (objs st) = Ok (cont_obj (kind pr t) md (len es) L)
      | _ => fr = FFail /\ forall k, exists_pool st' k = exists_pool st k
      end.

  Lemma el_step f : P_co f -> P_el (S f).
  Proof.
    intros IC j s st Hj Hb c m' q' Hc Hl. rewrite element_calls_S in Hc.
    destruct (parseObjectType_split R s) as [[[t split] s1]| | | |] eqn:Et.
    2-5: (inversion Hc; subst; exists st; split; [apply runs_nil|]; split; [reflexivity|]; split; [reflexivity|]; split; [apply grown_refl|]; intros o s' H; rewrite block_value_S, run_bind, run_lift, Et in H; discriminate H).
    assert (Hrun : run get (block_value E si (S f) pr s) = if split then match t with
       | TData => Throw ERuntime | _ => '(o, e) <- run get (coro_prog E si pr t f (idx s1)) ;; Ok (o, {| idx := e; off := e |}) end
       else run get (valueParse E CoroFrame pr f t s1)).
    { rewrite block_value_S, run_bind, run_lift, Et. cbn [obind]. destruct split; [|reflexivity]. destruct t; [reflexivity| |]; rewrite run_bind; cbn [coro_prog];
      match goal with |- obind ?x _ = _ => destruct x as [[? ?]| | | |]; reflexivity end. }
    destruct split.
    - assert (Hcase : t = TData \/ t <> TData) by (destruct t; [left|right|right]; congruence). destruct Hcase as [->|Ht].
      { inversion Hc; subst. exists st. split; [apply runs_nil|]. split; [reflexivity|]. split; [reflexivity|]. split; [apply grown_refl|]. intros o s' H. rewrite Hrun in H. discriminate H. }
      assert (Hc' : (let '(c0, mq, fr) := coro_calls f t (idx s1) (objs st) (pools st) in (c0 ++ match fr with FDone r => map CPool (deliver j r) | _ => [] end, mq)) = (c, (m', q'))) by (destruct t; [contradiction|exact Hc|exact Hc]).
      assert (Hrun' : run get (block_value E si (S f) pr s) = ('(o, e) <- run get (coro_prog E si pr t f (idx s1)) ;; Ok (o, {| idx := e; off := e |}))) by (destruct t; [contradiction|exact Hrun|exact Hrun]).
      clear Hc Hrun. destruct (coro_calls f t (idx s1) (objs st) (pools st)) as [[c0 [m0 q0]] fr] eqn:Eco. inversion Hc'; subst c m' q'; clear Hc'. rewrite len_app in Hl.
      destruct (IC t (idx s1) st Ht Hb _ _ _ _ Eco ltac:(lia)) as (st1 & R1 & M1 & Q1 & G1 & K1 & H1).
      destruct (run get (coro_prog E si pr t f (idx s1))) as [[o e]| | | |] eqn:Er.
      2-5: (destruct H1 as [-> X1]; exists st1; rewrite app_nil_r; split; [exact R1|]; split; [exact M1|]; split; [exact Q1|]; split; [split; [exact G1|]; split; [exact K1|exact X1]|];
        intros o' s' Ho; rewrite Hrun' in Ho; discriminate Ho).
      destruct H1 as (x & es & d & L & md & -> & Hx & X1 & Hh & HB & Hno & Hsee).
      assert (Hxj : j <> x) by (intros ->; apply exists_lt in Hj; lia).
      destruct (deliver_ok st1 j x) as (st2 & R2 & Mv & L2 & X2); [rewrite X1, Hj; reflexivity|rewrite X1, Nat.eqb_refl; apply orb_true_r|exact Hxj|].
      exists st2. split; [eapply runs_app; eauto|]. split; [rewrite (moved_len _ _ _ Mv); exact M1|]. split; [lia|]. split.
      + split; [lia|]. split.
        * intros k ob Hk. apply (moved_keeps (onto x j) (pools st) st1 st2 Mv); [intros h Hh0; unfold onto; destruct (Nat.eqb_spec h x); [lia|reflexivity]|now apply K1|].
          apply (proj1 (Forall_forall _ _) Hb). eapply nth_error_In. exact Hk.
        * intros k. rewrite X2, X1. destruct (Nat.eqb_spec k x); cbn; [|rewrite orb_false_r, andb_true_r; reflexivity]. subst k. rewrite andb_false_r. destruct (exists_pool st x) eqn:Ex; [apply exists_lt in Ex; lia|reflexivity].
      + intros o' s' Ho. rewrite Hrun' in Ho. cbn [obind] in Ho. inversion Ho; subst o' s'. exists (S d). eexists. split; [|exact Hno].
        eapply (tree_moved (onto x j) (Nat.eqb x) (Nat.eqb j)); [exact Mv| |exact Hsee]. intros h Hh0. apply Nat.eqb_eq in Hh0. subst h. exists j. unfold onto. rewrite Nat.eqb_refl. split; [reflexivity|apply Nat.eqb_refl].
    - cbv zeta in Hc. inversion Hc; subst c m' q'; clear Hc.
      destruct (child_ok E get j pr f t s1 st (proj1 (build E get j pr f)) Hj) as (st1 & r & R1 & A1 & M1 & L1 & K1 & H1). cbv zeta in *.
      exists st1. split; [exists r; exact R1|]. split; [exact M1|]. split; [now rewrite A1|]. split; [split; [rewrite A1; lia|]; split; [exact K1|]; intros k; unfold exists_pool; now rewrite A1|].
      intros o s' Ho. rewrite Hrun in Ho. destruct (value_other_pool E get CoroFrame (PoolId j) pr f t s1 o s' Ho) as (o' & Ho' & Hno). destruct (H1 o' s' Ho') as [_ (d & Hd)]. exists d, o'. split; [exact Hd|exact Hno].
  Qed.

  Lemma key_fits t s key s1 : t <> TData -> item_key E get pr t s = Ok (key, s1) -> key_for (kind pr t) key = true /\ (kind pr t = KArray -> key = OwnKey []).
  Proof.
    intros Ht H. unfold item_key in H. destruct t; [contradiction| |].
    - apply obind_ok in H as ([kv s2] & _ & H). destruct pr; [inversion H; subst; split; [reflexivity|discriminate]|]. destruct (read_local R kv); try discriminate H. inversion H; subst. split; [reflexivity|discriminate].
    - inversion H; subst. split; reflexivity.
  Qed.

  Lemma it_step f : P_el f -> P_it f -> P_it (S f).
  Proof.
    intros IE II t ok j n e s st h P es d L l Ht Hj Hb HP Hn Hok c m' q' Hc Hl. rewrite item_calls_S in Hc. cbn [gitems] in Hok.
    destruct (off s <? e) eqn:Eoff.
    2:{ inversion Hc; subst. exists st. split; [apply runs_nil|]. do 3 (split; [auto|]). split; [auto|]. split; [auto|]. intros Ho. destruct (Hok Ho) as (H1 & H2 & H3). inversion H3; subst. exists es, d, [].
        split; [exact H1|]. split; [now rewrite app_nil_r|]. split; [reflexivity|]. lia. }
    destruct (item_key E get pr t s) as [[key s1]| | | |] eqn:Ek.
    2-5: (inversion Hc; subst; exists st; split; [apply runs_nil|]; do 3 (split; [auto|]); split; [auto|]; split; [auto|]; intros Ho; destruct (Hok Ho) as (_ & _ & H3); discriminate H3).
    destruct (key_fits t s key s1 Ht Ek) as [Kf Ka]. cbn [obind] in Hok.
    destruct (element_calls f j s1 (objs st) (pools st)) as [c1 [m1 q1]] eqn:Eel.
    destruct (run get (block_value E si f pr s1)) as [[o s2]| | | |] eqn:Ev.
    2-5: (inversion Hc; subst c m' q'; destruct (IE j s1 st Hj Hb _ _ _ Eel Hl) as (st1 & R1 & M1 & Q1 & (G1 & K1 & X1) & _);
          exists st1; split; [exact R1|]; split; [exact M1|]; split; [exact Q1|]; split; [exact G1|]; split; [auto|]; split; [exact X1|]; intros Ho; destruct (Hok Ho) as (_ & _ & H3); discriminate H3).
    destruct (item_calls f t ok j n e s2 m1 q1) as [c2 [m2 q2]] eqn:Eit. inversion Hc; subst c m' q'; clear Hc. rewrite len_app, len_cons in Hl.
    destruct (IE j s1 st Hj Hb _ _ _ Eel ltac:(lia)) as (st1 & R1 & M1 & Q1 & (G1 & K1 & X1) & H1). destruct (H1 o s2 Ev) as (dm & o' & Hsee & Hno). clear H1.
    pose proof (below_runs _ _ _ Hb R1) as Hb1. assert (Hj1 : exists_pool st1 j = true) by (now rewrite X1).
    assert (Hn1 : (n < objs st1)%nat) by (destruct (nth_error (st_objs st) n) as [x|] eqn:En; [apply nth_error_Some; rewrite (K1 _ _ En); discriminate|apply nth_error_None in En; lia]).
    cbn [obind] in Hok. destruct ok.
    - destruct (Hok eq_refl) as (Hh & HB & Hi). apply obind_ok in Hi as (l' & Hi & Hle). inversion Hle; subst l. clear Hle Hok.
      assert (Hh1 : hasp h st1 n (kind pr t) es) by (eapply hasp_keep; eauto).
      assert (HB1 : bag P st1 n d es L) by (apply (bag_keep P P st st1 n d d es L HB ltac:(auto) (Nat.le_refl _)); intros; now apply K1).
      destruct (append_ok j n key st1 h (kind pr t) es P d L (objs st) dm o' Hj1 Hh1 Kf Ka HB1 HP Hn Hsee Hb1) as (st2 & S2 & A2 & M2 & Hb2 & K2 & es2 & Hh2 & Hle2 & HB2).
      assert (Hj2 : exists_pool st2 j = true) by (unfold exists_pool in *; now rewrite A2).
      assert (X2 : forall k, exists_pool st2 k = exists_pool st k) by (intros k; rewrite <- X1; unfold exists_pool; now rewrite A2).
      rewrite <- M1, <- Q1, <- M2, <- A2 in Eit.
      destruct (II t true j n e s2 st2 h P es2 (Nat.max d dm) (L ++ [(key, o')]) l' Ht Hj2 Hb2 HP ltac:(lia) ltac:(auto) _ _ _ Eit ltac:(lia)) as (st3 & R3 & M3 & Q3 & G3 & K3 & X3 & H3).
      exists st3. split; [eapply runs_app; [exact R1|]; eapply runs_cons; [exact S2|exact R3]|]. split; [exact M3|]. split; [exact Q3|]. split; [rewrite A2 in G3; lia|]. split; [|split].
      + intros k x Hk Hx. apply K3; [exact Hk|]. apply K2; [now apply Hk|]. now apply K1.
      + intros k. now rewrite X3.
      + intros _. destruct (H3 eq_refl) as (es' & d' & L' & H5 & H6 & H7 & H8). exists es', d', ((key, o') :: L'). split; [exact H5|]. split; [rewrite <- app_assoc in H6; exact H6|]. split; [cbn [map fst snd]; rewrite H7, Hno; reflexivity|].
        rewrite len_app, len_cons. lia.
    - assert (S2 : spec_step st1 (CScratch j (item_kind pr t)) = Ok (st1, SaNone)) by (cbn [spec_step]; unfold only; rewrite Hj1; reflexivity).
      rewrite <- M1, <- Q1 in Eit.
      destruct (II t false j n e s2 st1 h P es d L l Ht Hj1 Hb1 HP Hn1 ltac:(discriminate) _ _ _ Eit ltac:(lia)) as (st3 & R3 & M3 & Q3 & G3 & K3 & X3 & H3).
      exists st3. split; [eapply runs_app; [exact R1|]; eapply runs_cons; [exact S2|exact R3]|]. split; [exact M3|]. split; [exact Q3|]. split; [lia|]. split; [|split; [|discriminate]].
      + intros k x Hk Hx. apply K3; [exact Hk|]. now apply K1.
      + intros k. now rewrite X3.
  Qed.

  Lemma fe_len f es : len (map (fe f) es) = len es.
  Proof. apply len_map. Qed.

  Lemma block_step f t n h be st H es d L : P_it f -> t <> TData -> below st -> (n < objs st)%nat -> hasp h st n (kind pr t) es -> bag (among H) st n d es L -> In h H -> Forall (fun x => (x < pools st)%nat) H ->
    forall c m' q' fr, block_calls f t n be (objs st) (pools st) = (c, (m', q'), fr) -> len c < W64 ->
    exists st' es' d' L', runs st c st' /\ objs st' = m' /\ pools st' = q' /\ (pools st <= pools st')%nat /\
      (forall k o, k <> n -> nth_error (st_objs st) k = Some o -> nth_error (st_objs st') k = Some o) /\
      (forall k, exists_pool st' k = exists_pool st k || among (held [fr]) k) /\ Forall (fun x => (pools st <= x < pools st')%nat) (held [fr]) /\
      hasp h st' n (kind pr t) es' /\ bag (among (H ++ held [fr])) st' n d' es' (L ++ L') /\ len es' <= len es + len c /\
      (forall l, gitems t f (snd be) (at_ (fst be)) = Ok l -> (exists x, fr = FDone x) /\ bare L' = bare l) /\
      ((forall l, gitems t f (snd be) (at_ (fst be)) <> Ok l) -> fr = FFail).
  Proof.
    intros II Ht Hb Hn Hh HB HhH HH c m' q' fr Hc Hl. unfold block_calls in Hc.
    destruct (step_new st) as (st1 & S1 & O1 & L1 & X1). set (j := pools st) in *.
    pose proof (below_step _ _ _ _ Hb S1) as Hb1.
    assert (Hj1 : exists_pool st1 j = true) by (rewrite X1, Nat.eqb_refl; apply orb_true_r).
    assert (Hnj : exists_pool st j = false) by (destruct (exists_pool st j) eqn:Ex; [apply exists_lt in Ex; unfold j in Ex; lia|reflexivity]).
    assert (K1 : forall k o, nth_error (st_objs st) k = Some o -> nth_error (st_objs st1) k = Some o) by (intros; now rewrite O1).
    set (ok := block_ok E si get pr f t be) in *.
    assert (HHj : forall x, among H x = true -> (x < j)%nat) by (intros x Hx; apply among_In in Hx; exact (proj1 (Forall_forall _ _) HH x Hx)).
    assert (Hlow : forall o k, nth_error (st_objs st) k = Some o -> below_obj j o) by (intros o k Hk; apply (proj1 (Forall_forall _ _) Hb); eapply nth_error_In; exact Hk).
    replace (objs st) with (objs st1) in Hc by (now rewrite O1). rewrite <- L1 in Hc.
    destruct (item_calls f t ok j n (snd be) (at_ (fst be)) (objs st1) (pools st1)) as [c1 [m2 q2]] eqn:Eit.
    assert (Hh1 : hasp h st1 n (kind pr t) es) by (eapply hasp_keep; eauto).
    assert (HB1 : bag (among (H ++ [j])) st1 n d es L).
    { apply (bag_keep (among H) (among (H ++ [j])) st st1 n d d es L HB); [intros x Hx; rewrite among_app, Hx; reflexivity|lia|intros; now apply K1]. }
    assert (HPj : among (H ++ [j]) j = true) by (rewrite among_app; cbn; rewrite Nat.eqb_refl; apply orb_true_r).
    destruct ok eqn:Eok; cbn [leave_coro] in Hc; inversion Hc; subst c m' q' fr; clear Hc; rewrite len_cons, len_app in Hl.
    - apply (block_ok_items t f be Ht) in Eok as (l & Hi).
      destruct (II t true j n (snd be) (at_ (fst be)) st1 h (among (H ++ [j])) es d L l Ht Hj1 Hb1 HPj ltac:(now rewrite O1) ltac:(auto) _ _ _ Eit ltac:(lia)) as (st2 & R2 & M2 & Q2 & G2 & K2 & X2 & H2).
      destruct (H2 eq_refl) as (es2 & d2 & L2 & Hh2 & HB2 & Hbare & Hlen). clear H2.
      destruct (leave_done st2 j) as (st3 & R3 & Mv & Q3 & X3); [now rewrite X2|]. cbn zeta in *. rewrite Q2 in *.
      assert (Hjq : (j < q2)%nat) by lia.
      exists st3, (map (fe (onto j q2)) es2), d2, L2. split; [eapply runs_cons; [exact S1|]; eapply runs_app; eauto|]. split; [rewrite (moved_len _ _ _ Mv); exact M2|]. split; [exact Q3|]. split; [lia|].
      split; [|split; [|split; [|split; [|split; [|split; [|split]]]]]].
      + intros k o Hk Ho. apply (moved_keeps (onto j q2) j st2 st3 Mv); [intros x Hx; unfold onto; destruct (Nat.eqb_spec x j); [lia|reflexivity]| |exact (Hlow o k Ho)]. apply K2; [auto|]. now apply K1.
      + intros k. rewrite X3, X2, X1. cbn [held flat_map app among existsb]. destruct (Nat.eqb_spec k j); [subst k; rewrite Hnj; cbn; destruct (Nat.eqb_spec j q2); [lia|reflexivity]|]. cbn. now rewrite !orb_false_r, andb_true_r.
      + cbn [held flat_map app]. constructor; [lia|constructor].
      + eapply hasp_moved; [exact Mv| |exact Hh2]. unfold onto. pose proof (HHj h ltac:(now apply among_In)). destruct (Nat.eqb_spec h j); [lia|reflexivity].
      + eapply bag_moved; [exact Mv| |exact HB2]. intros x Hx. rewrite among_app in Hx. unfold onto. destruct (Nat.eqb_spec x j).
        * exists q2. split; [reflexivity|]. rewrite among_app. cbn. rewrite Nat.eqb_refl. apply orb_true_r.
        * exists x. split; [reflexivity|]. cbn in Hx. destruct (Nat.eqb_spec x j); [contradiction|]. rewrite !orb_false_r in Hx. rewrite among_app, Hx. reflexivity.
      + rewrite fe_len, len_cons, len_app. lia.
      + intros l' Hl'. split; [eauto|]. congruence.
      + intros Hno. now apply Hno in Hi.
    - assert (Hno : forall l, gitems t f (snd be) (at_ (fst be)) <> Ok l) by (intros l Hi; assert (block_ok E si get pr f t be = true) by (apply (block_ok_items t f be Ht); eauto); unfold ok in Eok; congruence).
      destruct (II t false j n (snd be) (at_ (fst be)) st1 h (among (H ++ [j])) es d L [] Ht Hj1 Hb1 HPj ltac:(now rewrite O1) ltac:(discriminate) _ _ _ Eit ltac:(lia)) as (st2 & R2 & M2 & Q2 & G2 & K2 & X2 & _).
      destruct (step_destroy st2 j) as (st3 & S3 & Mv & Q3 & X3); [now rewrite X2|].
      assert (Hh2 : hasp h st2 n (kind pr t) es) by (eapply hasp_keep; [exact Hh1|]; intros; apply K2; [discriminate|assumption]).
      assert (HB2 : bag (among H) st2 n d es L) by (apply (bag_keep (among H) (among H) st st2 n d d es L HB ltac:(auto) (Nat.le_refl _)); intros; apply K2; [discriminate|now apply K1]).
      exists st3, (map (fe (drop j)) es), d, []. split; [eapply runs_cons; [exact S1|]; eapply runs_app; [exact R2|]; eapply runs_one; exact S3|]. split; [rewrite (moved_len _ _ _ Mv); exact M2|]. split; [lia|]. split; [lia|].
      split; [|split; [|split; [|split; [|split; [|split; [|split]]]]]].
      + intros k o Hk Ho. apply (moved_keeps (drop j) j st2 st3 Mv); [intros x Hx; unfold drop; destruct (Nat.eqb_spec x j); [lia|reflexivity]| |exact (Hlow o k Ho)]. apply K2; [discriminate|]. now apply K1.
      + intros k. rewrite X3, X2, X1. cbn [held flat_map app among existsb]. destruct (Nat.eqb_spec k j); [subst k; rewrite Hnj; reflexivity|]. cbn. now rewrite !orb_false_r, andb_true_r.
      + constructor.
      + eapply hasp_moved; [exact Mv| |exact Hh2]. unfold drop. pose proof (HHj h ltac:(now apply among_In)). destruct (Nat.eqb_spec h j); [lia|reflexivity].
      + cbn [held flat_map app]. rewrite !app_nil_r. eapply bag_moved; [exact Mv| |exact HB2]. intros x Hx. pose proof (HHj x Hx). exists x. unfold drop. destruct (Nat.eqb_spec x j); [lia|]. auto.
      + rewrite fe_len. lia.
      + intros l Hi. now apply Hno in Hi.
      + reflexivity.
  Qed.

  Lemma held_cons fr frs : held (fr :: frs) = held [fr] ++ held frs.
  Proof. unfold held. cbn [flat_map]. now rewrite app_nil_r. Qed.

  Lemma blocks_ok f t n h : P_it f -> t <> TData -> forall rs st H es d L, below st -> (n < objs st)%nat -> hasp h st n (kind pr t) es -> bag (among H) st n d es L -> In h H -> Forall (fun x => (x < pools st)%nat) H ->
    forall c m' q' frs, seq_blocks (block_calls f t n) rs (objs st) (pools st) = (c, (m', q'), frs) -> len c < W64 ->
    exists st' es' d' L', runs st c st' /\ objs st' = m' /\ pools st' = q' /\ (pools st <= pools st')%nat /\
      (forall k o, k <> n -> nth_error (st_objs st) k = Some o -> nth_error (st_objs st') k = Some o) /\
      (forall k, exists_pool st' k = exists_pool st k || among (held frs) k) /\ Forall (fun x => (pools st <= x < pools st')%nat) (held frs) /\ NoDup (held frs) /\
      hasp h st' n (kind pr t) es' /\ bag (among (H ++ held frs)) st' n d' es' (L ++ L') /\ len es' <= len es + len c /\
      (forall bl, Forall2 (fun be b => gitems t f (snd be) (at_ (fst be)) = Ok b) rs bl -> Forall (fun fr => exists x, fr = FDone x) frs /\ bare L' = bare (concat bl)) /\
      ((forall bl, ~ Forall2 (fun be b => gitems t f (snd be) (at_ (fst be)) = Ok b) rs bl) -> In FFail frs).
  Proof.
    intros II Ht. induction rs as [|be rs IH]; intros st H es d L Hb Hn Hh HB HhH HH c m' q' frs Hc Hl; cbn [seq_blocks] in Hc.
    - inversion Hc; subst. exists st, es, d, []. split; [apply runs_nil|]. do 3 (split; [auto|]). split; [auto|]. split; [intros k; cbn; now rewrite orb_false_r|]. split; [constructor|]. split; [constructor|].
      cbn [held flat_map]. rewrite !app_nil_r. split; [exact Hh|]. split; [exact HB|]. split; [lia|]. split; [intros bl HF; inversion HF; subst; split; [constructor|reflexivity]|]. intros Hno. exfalso. apply (Hno []). constructor.
    - destruct (block_calls f t n be (objs st) (pools st)) as [[c1 [m1 q1]] fr] eqn:Eb. destruct (seq_blocks (block_calls f t n) rs m1 q1) as [[c2 [m2 q2]] frs2] eqn:Es. inversion Hc; subst c m' q' frs; clear Hc. rewrite len_app in Hl.
      destruct (block_step f t n h be st H es d L II Ht Hb Hn Hh HB HhH HH _ _ _ _ Eb ltac:(lia)) as (st1 & es1 & d1 & L1 & R1 & M1 & Q1 & G1 & K1 & X1 & F1 & Hh1 & HB1 & Hl1 & Y1 & N1).
      rewrite <- M1, <- Q1 in Es.
      assert (Hn1 : (n < objs st1)%nat) by (destruct Hh1 as (o & Ho & _); apply nth_error_Some; congruence).
      destruct (IH st1 (H ++ held [fr]) es1 d1 (L ++ L1) (below_runs _ _ _ Hb R1) Hn1 Hh1 HB1 ltac:(apply in_or_app; now left)) with (c := c2) (m' := m2) (q' := q2) (frs := frs2)
        as (st2 & es2 & d2 & L2 & R2 & M2 & Q2 & G2 & K2 & X2 & F2 & D2 & Hh2 & HB2 & Hl2 & Y2 & N2).
      { apply Forall_app. split; [eapply Forall_impl; [|exact HH]; cbn; intros; lia|eapply Forall_impl; [|exact F1]; cbn; intros; lia]. }
      { exact Es. }
      { lia. }
      exists st2, es2, d2, (L1 ++ L2). split; [eapply runs_app; eauto|]. split; [exact M2|]. split; [exact Q2|]. split; [lia|]. split; [intros; apply K2; auto|]. rewrite held_cons.
      split; [intros k; rewrite X2, X1, among_app; now rewrite orb_assoc|]. split; [apply Forall_app; split; [eapply Forall_impl; [|exact F1]; cbn; intros; lia|eapply Forall_impl; [|exact F2]; cbn; intros; lia]|].
      split; [|split; [exact Hh2|split; [rewrite !app_assoc; exact HB2|split; [rewrite len_app; lia|split]]]].
      + destruct fr; cbn [held flat_map app] in *; try exact D2. constructor; [|exact D2]. intros Hin. inversion F1 as [|? ? Hx _]; subst. pose proof (proj1 (Forall_forall _ _) F2 _ Hin) as Hy. cbn in Hy. lia.
      + intros bl HF. inversion HF as [|? b ? bl' Hi HF']; subst. destruct (Y1 b Hi) as [(x & ->) Hb1]. destruct (Y2 bl' HF') as [HD Hb2]. split; [constructor; [eauto|exact HD]|]. cbn [concat]. rewrite !map_app, Hb1, Hb2. reflexivity.
      + intros Hno. destruct (gitems t f (snd be) (at_ (fst be))) as [b| | | |] eqn:Ei.
        1: right; apply N2; intros bl HF; apply (Hno (b :: bl)); constructor; assumption.
        all: left; apply N1; discriminate.
  Qed.

  Lemma merges_all i : forall l, Forall (fun fr => exists x, fr = FDone x) l -> merges i l = (map (BpMerge i) (held l), true).
  Proof. induction l as [|fr l IH]; intros HF; [reflexivity|]. inversion HF as [|? ? (x & ->) HF']; subst. cbn [merges]. rewrite (IH HF'). reflexivity. Qed.
  Lemma merges_some i : forall l, exists r ok, merges i l = (map (BpMerge i) r, ok) /\ incl r (held l) /\ (In FFail l -> ok = false).
  Proof.
    induction l as [|fr l (r & ok & IH & Hi & Hf)]; [exists [], true; cbn; split; [reflexivity|]; split; [apply incl_nil_l|contradiction]|].
    destruct fr; try (exists [], false; cbn; split; [reflexivity|]; split; [apply incl_nil_l|reflexivity]).
    cbn [merges]. rewrite IH. eexists (_ :: r), ok. split; [reflexivity|]. split; [|intros [Hx|Hx]; [discriminate Hx|auto]]. intros x [->|Hx]; [now left|]. right. now apply Hi.
  Qed.
  Lemma held_rev_in x l : In x (held (rev l)) <-> In x (held l).
  Proof.
    unfold held. rewrite !in_flat_map. split; intros (y & Hy & H); exists y; (split; [|exact H]); [now apply in_rev|now apply in_rev in Hy].
  Qed.
  Lemma among_ext a b : (forall x, In x a <-> In x b) -> forall x, among a x = among b x.
  Proof. intros H x. destruct (among a x) eqn:Ea; symmetry; [apply among_In, H, among_In; exact Ea|]. destruct (among b x) eqn:Eb; [|reflexivity]. apply among_In, H, among_In in Eb. congruence. Qed.

  Lemma held_rev_NoDup l : NoDup (held l) -> NoDup (held (rev l)).
  Proof.
    assert (E0 : held (rev l) = rev (held l)).
    { induction l as [|x l IH]; [reflexivity|]. cbn [rev]. unfold held in *. rewrite flat_map_app, IH. destruct x; cbn [flat_map app rev]; rewrite ?app_nil_r; reflexivity. }
    rewrite E0. apply NoDup_rev.
  Qed.

  Lemma co_step f : P_it f -> P_co (S f).
  Proof.
    intros II t os st Ht Hb c m' q' fr Hc Hl. rewrite coro_calls_S in Hc.
    destruct (step_new st) as (st1 & S1 & O1 & L1 & X1). pose proof (below_step _ _ _ _ Hb S1) as Hb1.
    set (j := pools st) in *. set (n := objs st) in *.
    assert (Hj1 : exists_pool st1 j = true) by (rewrite X1, Nat.eqb_refl; apply orb_true_r).
    assert (Hnj : forall x, (j <= x)%nat -> exists_pool st x = false) by (intros x Hx; destruct (exists_pool st x) eqn:Ex; [apply exists_lt in Ex; unfold j in *; lia|reflexivity]).
    assert (Hlow : forall o k, nth_error (st_objs st) k = Some o -> below_obj j o) by (intros o k Hk; apply (proj1 (Forall_forall _ _) Hb); eapply nth_error_In; exact Hk).
    destruct (split_ranges E si os) as [rs| | | |] eqn:Esp.
    2-5: (inversion Hc; subst c m' q' fr; destruct (step_destroy st1 j Hj1) as (st2 & S2 & Mv & Q2 & X2); exists st2; split; [eapply runs_cons; [exact S1|eapply runs_one; exact S2]|];
          split; [rewrite (moved_len _ _ _ Mv), O1; reflexivity|]; split; [lia|]; split; [lia|]; split;
          [intros k o Hk; apply (moved_keeps (drop j) j st1 st2 Mv); [intros x Hx; unfold drop; destruct (Nat.eqb_spec x j); [lia|reflexivity]|now rewrite O1|exact (Hlow o k Hk)]|];
          destruct (run get (coro_prog E si pr t (S f) os)) as [y| | | |] eqn:Er; [exfalso; apply (coro_run_none E si get pr t (S f) os Ht) with (x := y); [intros z Hz; congruence|exact Er]| | | |];
          (split; [reflexivity|]; intros k; rewrite X2, X1; destruct (Nat.eqb_spec k j); [subst k; rewrite (Hnj j (Nat.le_refl _)); reflexivity|cbn; now rewrite orb_false_r, andb_true_r])).
    (* the container *)
    assert (Hmk : exists st2, spec_step st1 (CCont j (kind pr t)) = Ok (st2, SaNone) /\ st_alive st2 = st_alive st1 /\ objs st2 = S n /\ hasp j st2 n (kind pr t) [] /\
                    forall k o, nth_error (st_objs st) k = Some o -> nth_error (st_objs st2) k = Some o).
    { exists {| st_alive := st_alive st1; st_objs := st_objs st1 ++ [{| so_cls := kind pr t; so_made := j; so_home := Some j; so_content := SCont [] |}] |}. split.
      { destruct t; [contradiction| |]; cbn [kind spec_step]; [destruct pr|]; unfold make, only; rewrite Hj1; reflexivity. }
      cbn [st_alive st_objs]. split; [reflexivity|]. split; [rewrite app_length, O1; cbn; unfold n; lia|]. split.
      - eexists. cbn [st_objs]. rewrite O1, nth_error_app2 by (unfold n; lia). unfold n. rewrite Nat.sub_diag. cbn [nth_error]. split; [reflexivity|]. cbn. repeat split. constructor.
      - intros k o Hk. rewrite O1, nth_error_app1; [exact Hk|]. apply nth_error_Some. congruence. }
    destruct Hmk as (st2 & S2 & A2 & M2 & Hh2 & K2). pose proof (below_step _ _ _ _ Hb1 S2) as Hb2.
    assert (X2 : forall k, exists_pool st2 k = exists_pool st k || Nat.eqb k j) by (intros k; rewrite <- X1; unfold exists_pool; now rewrite A2).
    rewrite <- M2, <- L1, <- A2 in Hc.
    destruct (seq_blocks (block_calls f t n) (order t rs) (objs st2) (pools st2)) as [[c1 [m1 q1]] frs] eqn:Es.
    destruct (merges_some j (rev frs)) as (ml & ok & Em & Hml & Hmf). rewrite Em in Hc.
    destruct (leave_coro ok j q1) as [[c2 q2] fr2] eqn:Elv. inversion Hc; subst c m' q' fr; clear Hc. rewrite !len_cons, !len_app in Hl.
    assert (Hj2 : exists_pool st2 j = true) by (rewrite X2, Nat.eqb_refl; apply orb_true_r).
    destruct (blocks_ok f t n j II Ht (order t rs) st2 [j] [] 0%nat [] Hb2 ltac:(lia) Hh2 eq_refl ltac:(now left)) with (c := c1) (m' := m1) (q' := q1) (frs := frs)
      as (st3 & es3 & d3 & L3 & R3 & M3 & Q3 & G3 & K3 & X3 & F3 & D3 & Hh3 & HB3 & Hl3 & Y3 & N3).
    { constructor; [|constructor]. now apply exists_lt. }
    { exact Es. }
    { lia. }
    assert (Hj3 : exists_pool st3 j = true) by (rewrite X3, Hj2; reflexivity).
    assert (Hp2 : pools st2 = S j) by (rewrite A2, L1; reflexivity).
    assert (F3' : forall x, In x (held frs) -> (S j <= x < q1)%nat) by (intros x Hx; pose proof (proj1 (Forall_forall _ _) F3 x Hx) as Hy; cbn in Hy; lia).
    destruct (merge_list j ml st3 Hj3) as (st4 & R4 & Mv4 & A4).
    { apply Forall_forall. intros x Hx. apply Hml in Hx. apply (proj1 (held_rev_in x frs)) in Hx. split; [rewrite X3; apply orb_true_iff; right; now apply among_In|]. apply F3' in Hx. lia. }
    assert (D3' : NoDup (held (order t frs))) by (destruct t; [now apply held_rev_NoDup|now apply held_rev_NoDup|exact D3]).
    assert (Hord : forall x, In x (held (order t frs)) <-> In x (held frs)) by (intros x; destruct t; cbn [order]; [apply held_rev_in|apply held_rev_in|tauto]).
    destruct (destroy_list (held (order t frs)) st4 D3') as (st5 & R5 & Mv5' & Q5 & X5d).
    { apply Forall_forall. intros x Hx. apply Hord in Hx. unfold exists_pool. rewrite A4. fold (exists_pool st3 x). rewrite X3. apply orb_true_iff. right. now apply among_In. }
    assert (X5 : forall k, exists_pool st5 k = exists_pool st4 k && negb (among (held frs) k)) by (intros k; rewrite X5d; now rewrite (among_ext _ _ Hord)).
    assert (Mv5 : moved (fun h => if among (held frs) h then None else Some h) st4 st5) by (refine (moved_ext _ _ _ _ _ Mv5'); intros h; cbn beta; now rewrite (among_ext _ _ Hord)).
    assert (X5' : forall k, exists_pool st5 k = exists_pool st k || Nat.eqb k j).
    { intros k. rewrite X5. unfold exists_pool at 1. rewrite A4. fold (exists_pool st3 k). rewrite X3, X2. destruct (among (held frs) k) eqn:Ea; cbn [negb]; [|now rewrite orb_false_r, andb_true_r].
      apply among_In, F3' in Ea. rewrite andb_false_r, (Hnj k ltac:(lia)). destruct (Nat.eqb_spec k j); [lia|reflexivity]. }
    assert (Hj5 : exists_pool st5 j = true) by (rewrite X5', Nat.eqb_refl; apply orb_true_r).
    assert (Q5' : pools st5 = q1) by (rewrite Q5, A4; exact Q3).
    assert (R15 : runs st (CPool BpNew :: CCont j (kind pr t) :: c1 ++ map CPool (map (BpMerge j) ml ++ map BpDestroy (held (order t frs)))) st5).
    { eapply runs_cons; [exact S1|]. eapply runs_cons; [exact S2|]. eapply runs_app; [exact R3|]. rewrite map_app. eapply runs_app; [exact R4|exact R5]. }
    assert (K5 : forall k o, nth_error (st_objs st) k = Some o -> nth_error (st_objs st5) k = Some o).
    { intros k o Hk. pose proof (Hlow o k Hk) as Ho. assert (Hkn : k <> n) by (intros ->; assert (n < objs st)%nat by (apply nth_error_Some; congruence); unfold n in *; lia).
      apply (moved_keeps (fun h => if among (held frs) h then None else Some h) j st4 st5 Mv5); [|apply (moved_keeps (fun h => Some (if among ml h then j else h)) j st3 st4 Mv4); [|apply K3; [exact Hkn|now apply K2]|exact Ho]|exact Ho].
      - intros h Hh. destruct (among (held frs) h) eqn:Ea; [apply among_In, F3' in Ea; lia|reflexivity].
      - intros h Hh. destruct (among ml h) eqn:Ea; [|reflexivity]. apply among_In, Hml in Ea. apply (proj1 (held_rev_in h frs)) in Ea. apply F3' in Ea. lia. }
    assert (M5 : objs st5 = m1) by (rewrite (moved_len _ _ _ Mv5), (moved_len _ _ _ Mv4); exact M3).
    pose proof (coro_run E si get pr t f os Ht ltac:(eauto)) as HR.
    assert (HN : In FFail frs -> exists st', runs st (CPool BpNew :: CCont j (kind pr t) :: c1 ++ map CPool (map (BpMerge j) ml ++ map BpDestroy (held (order t frs))) ++ c2) st' /\ objs st' = m1 /\ pools st' = q2 /\ (j <= pools st')%nat /\
                 (forall k o, nth_error (st_objs st) k = Some o -> nth_error (st_objs st') k = Some o) /\ fr2 = FFail /\ forall k, exists_pool st' k = exists_pool st k).
    { intros Hf. assert (ok = false) by (apply Hmf; now apply -> in_rev). subst ok. cbn [leave_coro] in Elv. inversion Elv; subst c2 q2 fr2.
      destruct (step_destroy st5 j Hj5) as (st6 & S6 & Mv6 & Q6 & X6). exists st6. split; [|split; [|split; [|split; [|split; [|split]]]]].
      - rewrite app_assoc. change (runs st ((CPool BpNew :: CCont j (kind pr t) :: c1 ++ map CPool (map (BpMerge j) ml ++ map BpDestroy (held (order t frs)))) ++ [CPool (BpDestroy j)]) st6). eapply runs_app; [exact R15|eapply runs_one; exact S6].
      - rewrite (moved_len _ _ _ Mv6). exact M5.
      - congruence.
      - lia.
      - intros k o Hk. apply (moved_keeps (drop j) j st5 st6 Mv6); [intros x Hx; unfold drop; destruct (Nat.eqb_spec x j); [lia|reflexivity]|now apply K5|exact (Hlow o k Hk)].
      - reflexivity.
      - intros k. rewrite X6, X5'. destruct (Nat.eqb_spec k j); [subst k; rewrite (Hnj j (Nat.le_refl _)); reflexivity|cbn; now rewrite orb_false_r, andb_true_r]. }
    destruct (run get (coro_prog E si pr t (S f) os)) as [[o e]| | | |] eqn:Er.
    2-5: (assert (Hf : In FFail frs) by (apply N3; intros bl HF; 
            assert (HG : exists bl', Forall2 (fun be b => gblock E si get pr t f (snd be) (at_ (fst be)) [] 0 = Ok b) (order t rs) bl')
              by (clear - HF; induction HF as [|be b l bl Hi _ (bl' & IH)]; [exists []; constructor|];
                  pose proof (gitems_ok t f (snd be) (at_ (fst be)) [] 0) as Hg; destruct (gblock E si get pr t f (snd be) (at_ (fst be)) [] 0) as [b'| | | |] eqn:Eg; [exists (b' :: bl'); constructor; assumption| | | |]; now apply Hg in Hi);
            destruct HG as (bl' & HG); exact (HR rs bl' Esp HG));
          destruct (HN Hf) as (st6 & H6); exists st6; exact H6).
    (* success *)
    destruct HR as (rs' & bl & Hrs & HF & Ho). assert (rs' = rs) by congruence. subst rs'. clear Hrs HN.
    assert (HG : Forall2 (fun be b => gitems t f (snd be) (at_ (fst be)) = Ok b) (order t rs) (map fst bl)).
    { clear - HF. induction HF as [|be b l bl Hg _ IH]; [constructor|]. cbn [map]. constructor; [|exact IH]. pose proof (gitems_ok t f (snd be) (at_ (fst be)) [] 0) as H. rewrite Hg in H. destruct H as (x & Hx & Hb). cbn in Hb. now rewrite Hb. }
    destruct (Y3 _ HG) as [HD HL3]. assert (HDr : Forall (fun fr => exists x, fr = FDone x) (rev frs)) by (now apply Forall_rev).
    rewrite (merges_all j (rev frs) HDr) in Em. assert (Eml : map (BpMerge j) (held (rev frs)) = map (BpMerge j) ml) by congruence. assert (Eok : ok = true) by congruence. subst ok. clear Em Hmf.
    assert (Hmlh : forall x, among ml x = among (held frs) x).
    { apply among_ext. intros x. rewrite <- (held_rev_in x frs). assert (ml = held (rev frs)) as ->; [|reflexivity]. revert Eml. generalize (held (rev frs)). clear. intros l. revert l. induction ml as [|a ml IH]; intros [|b l] H; try discriminate H; [reflexivity|]. cbn [map] in H. inversion H. f_equal. now apply IH. }
    cbn [leave_coro] in Elv. inversion Elv; subst c2 q2 fr2. clear Elv.
    destruct (leave_done st5 j Hj5) as (st6 & R6 & Mv6 & Q6 & X6). cbn zeta in *. rewrite Q5' in *.
    exists st6. split; [|split; [|split; [|split; [|split]]]].
    - rewrite app_assoc. change (runs st ((CPool BpNew :: CCont j (kind pr t) :: c1 ++ map CPool (map (BpMerge j) ml ++ map BpDestroy (held (order t frs)))) ++ [CPool (BpMove j); CPool (BpDestroy j)]) st6). eapply runs_app; [exact R15|exact R6].
    - rewrite (moved_len _ _ _ Mv6). exact M5.
    - exact Q6.
    - lia.
    - intros k ob Hk. apply (moved_keeps (onto j q1) j st5 st6 Mv6); [intros x Hx; unfold onto; destruct (Nat.eqb_spec x j); [lia|reflexivity]|now apply K5|exact (Hlow ob k Hk)].
    - assert (Hjh : among (held frs) j = false) by (destruct (among (held frs) j) eqn:Ea; [apply among_In, F3' in Ea; lia|reflexivity]).
      assert (Hh4 : hasp j st4 n (kind pr t) (map (fe (fun h => Some (if among ml h then j else h))) es3)) by (eapply hasp_moved; [exact Mv4| |exact Hh3]; cbn beta; destruct (among ml j); reflexivity).
      assert (Hh5 : hasp j st5 n (kind pr t) (map (fe (fun h => if among (held frs) h then None else Some h)) (map (fe (fun h => Some (if among ml h then j else h))) es3))) by (eapply hasp_moved; [exact Mv5| |exact Hh4]; cbn beta; rewrite Hjh; reflexivity).
      assert (Hh6 : hasp q1 st6 n (kind pr t) (map (fe (onto j q1)) (map (fe (fun h => if among (held frs) h then None else Some h)) (map (fe (fun h => Some (if among ml h then j else h))) es3)))) by (eapply hasp_moved; [exact Mv6| |exact Hh5]; unfold onto; now rewrite Nat.eqb_refl).
      cbn [app] in HB3.
      assert (HB4 : bag (Nat.eqb j) st4 n d3 (map (fe (fun h => Some (if among ml h then j else h))) es3) L3).
      { eapply bag_moved; [exact Mv4| |exact HB3]. intros h Hh. rewrite Hmlh. change (among ([j] ++ held frs) h = true) in Hh. rewrite among_app in Hh. exists j. split; [|apply Nat.eqb_refl]. f_equal. destruct (among (held frs) h) eqn:Ea; [reflexivity|].
        rewrite orb_false_r in Hh. cbn in Hh. rewrite orb_false_r in Hh. now apply Nat.eqb_eq. }
      assert (HB5 : bag (Nat.eqb j) st5 n d3 (map (fe (fun h => if among (held frs) h then None else Some h)) (map (fe (fun h => Some (if among ml h then j else h))) es3)) L3).
      { eapply bag_moved; [exact Mv5| |exact HB4]. intros h Hh. apply Nat.eqb_eq in Hh. subst h. exists j. rewrite Hjh. split; [reflexivity|apply Nat.eqb_refl]. }
      assert (HB6 : bag (Nat.eqb q1) st6 n d3 (map (fe (onto j q1)) (map (fe (fun h => if among (held frs) h then None else Some h)) (map (fe (fun h => Some (if among ml h then j else h))) es3))) L3).
      { eapply bag_moved; [exact Mv6| |exact HB5]. intros h Hh. apply Nat.eqb_eq in Hh. subst h. exists q1. unfold onto. rewrite Nat.eqb_refl. split; [reflexivity|apply Nat.eqb_refl]. }
      set (es6 := map (fe (onto j q1)) _) in *. assert (Hle6 : len es6 = len es3) by (unfold es6; now rewrite !fe_len).
      assert (HlL : len es6 = len L3) by (unfold len; f_equal; symmetry; exact (kids_len _ _ _ _ HB6)).
      destruct (hasp_see q1 st6 n (kind pr t) es6 (Nat.eqb q1) d3 L3 Hh6 (Nat.eqb_refl _) HB6) as (md & Hsee).
      exists q1, es6, d3, L3, md. split; [reflexivity|]. split; [lia|]. split; [|split; [exact Hh6|split; [exact HB6|split; [|exact Hsee]]]].
      + intros k. rewrite X6, X5'. destruct (Nat.eqb_spec k j); [subst k; rewrite (Hnj j (Nat.le_refl _)); reflexivity|]. cbn. now rewrite orb_false_r, andb_true_r.
      + rewrite Ho. apply cont_bare; [exact Ht|reflexivity|exact HlL| |exact HL3]. rewrite <- HlL, Hle6. unfold len in Hl3 at 2. cbn [length] in Hl3. lia.
  Qed.

  Lemma calls_ok : forall f, P_el f /\ P_it f /\ P_co f.
  Proof.
    induction f as [|f (IE & II & IC)].
    - split; [|split].
      + intros j s st Hj Hb c m' q' Hc Hl. inversion Hc; subst. exists st. split; [apply runs_nil|]. split; [reflexivity|]. split; [reflexivity|]. split; [apply grown_refl|]. discriminate.
      + intros t ok j n e s st h P es d L l Ht Hj Hb HP Hn Hok c m' q' Hc Hl. inversion Hc; subst. exists st. split; [apply runs_nil|]. do 3 (split; [auto|]). split; [auto|]. split; [auto|]. intros Ho. destruct (Hok Ho) as (_ & _ & H). discriminate H.
      + intros t os st Ht Hb c m' q' fr Hc Hl. inversion Hc; subst. clear Hc. destruct (step_new st) as (st1 & S1 & O1 & L1 & X1).
        assert (Hj1 : exists_pool st1 (pools st) = true) by (rewrite X1, Nat.eqb_refl; apply orb_true_r).
        destruct (step_destroy st1 (pools st) Hj1) as (st2 & S2 & Mv & Q2 & X2). exists st2. split; [eapply runs_cons; [exact S1|eapply runs_one; exact S2]|].
        split; [rewrite (moved_len _ _ _ Mv), O1; reflexivity|]. split; [lia|]. split; [lia|]. split.
        { intros k o Hk. apply (moved_keeps (drop (pools st)) (pools st) st1 st2 Mv); [intros x Hx; unfold drop; destruct (Nat.eqb_spec x (pools st)); [lia|reflexivity]|now rewrite O1|].
          apply (proj1 (Forall_forall _ _) Hb). eapply nth_error_In. exact Hk. }
        assert (HX : forall k, exists_pool st2 k = exists_pool st k).
        { intros k. rewrite X2, X1. destruct (Nat.eqb_spec k (pools st)); [|cbn; now rewrite orb_false_r, andb_true_r].
          subst k. destruct (exists_pool st (pools st)) eqn:Ex; [apply exists_lt in Ex; lia|reflexivity]. }
        destruct t; [contradiction| |]; split; try reflexivity; exact HX.
    - split; [now apply el_step|]. split; [now apply it_step|now apply co_step].
  Qed.
End Items.

(** ** Loading *)
Lemma take_bare a b key : map (fun e : bytes * obj => (fst e, no_pools (snd e))) a = map (fun e => (fst e, no_pools (snd e))) b ->
  no_pools (fst (Map_take a key)) = no_pools (fst (Map_take b key)).
Proof.
  revert b. induction a as [|[k o] a IH]; intros [|[k' o'] b] H; try discriminate H; [reflexivity|]. cbn [map fst snd] in H. inversion H; subst. cbn [Map_take]. destruct (bytes_eqb k' key); [assumption|].
  specialize (IH b ltac:(assumption)). destruct (Map_take a key), (Map_take b key). exact IH.
Qed.
Lemma take_bare_view mem a b key : map (fun e : view * obj => (fst e, no_pools (snd e))) a = map (fun e => (fst e, no_pools (snd e))) b ->
  omap (fun x => no_pools (fst x)) (MapView_take mem a key) = omap (fun x => no_pools (fst x)) (MapView_take mem b key).
Proof.
  revert b. induction a as [|[k o] a IH]; intros [|[k' o'] b] H; try discriminate H; [reflexivity|]. cbn [map fst snd] in H. inversion H; subst. cbn [MapView_take]. destruct (read_view mem k') as [x| | | |]; cbn [obind omap]; try reflexivity.
  destruct (bytes_eqb x key); [cbn; congruence|]. specialize (IH b ltac:(assumption)). destruct (MapView_take mem a key) as [[? ?]| | | |], (MapView_take mem b key) as [[? ?]| | | |]; cbn in *; congruence.
Qed.
Lemma no_pools_null o : no_pools o = ONull -> o = ONull.
Proof. destruct o; try discriminate; reflexivity. Qed.

Lemma coro_buf c fuel content b sc : sane c -> fits c content -> initFromContent c fuel content b = Ok sc ->
  forall f os o e, run (getter c (sc_map sc)) (ParseMap (doc_env c content b sc) (sc_split sc) f true os) = Ok (o, e) -> all_views (fun v => v_buf v = b) o.
Proof.
  intros Hs HL Hi f os o e H. assert (Hf : len content < 2 ^ 32) by (unfold fits in HL; destruct (ndebug c); lia).
  refine (proj1 (proj2 (para_views (doc_env c content b sc) _ (fun v => v_buf v = b) eq_refl _ _ Hf (sc_split sc) f)) os (o, e) H).
  - intros id v Hg. now destruct (getter_view _ _ _ _ _ _ _ Hs Hi Hg).
  - reflexivity.
Qed.

Lemma para_load_spec c fuel content b i pr st um : sane c -> fits c content -> exists_pool st i = true -> below st -> um b = Some content ->
  let m := length (st_objs st) in let q := length (st_alive st) in
  let Par := Parse c fuel content b (PoolId i) {| po_type := Coroutine; po_ref := pr |} in
  len (Coro_calls c fuel content b i pr m q) < W64 ->
  exists st1 r, spec_run st (Coro_calls c fuel content b i pr m q) = Ok (st1, r) /\ (forall k, exists_pool st1 k = exists_pool st k) /\
    (forall j o, nth_error (st_objs st) j = Some o -> nth_error (st_objs st1) j = Some o) /\
    match Coro_check c fuel content b i pr with
    | Ok _ =>
        match Par with
        | Ok o => exists st2 v, spec_step st1 (CTake um m root_key) = Ok (st2, SaPtr v) /\ st_alive st2 = st_alive st1 /\
            (forall j x, nth_error (st_objs st) j = Some x -> nth_error (st_objs st2) j = Some x) /\
            match v with None => o = ONull | Some k => exists d o', see_from (Nat.eqb i) (S m) d st2 k = Ok o' /\ no_pools o' = no_pools o end
        | UB => spec_step st1 (CTake um m root_key) = UB
        | _ => False
        end
    | Throw e => Par = Throw e
    | UB => Par = UB
    | Abort => Par = Abort
    | Fuel => Par = Fuel
    end.
Proof.
  intros Hs HF Hi Hb Hum m q Par Hl. unfold Par, Coro_calls, Coro_check in *. clear Par. destruct (initFromContent c fuel content b) as [sc| | | |] eqn:Esc; cbn [obind].
  2-5: (exists st, []; split; [reflexivity|]; split; [reflexivity|]; split; [auto|]; unfold Parse; rewrite Esc; reflexivity).
  destruct (sc_need_to_split sc) eqn:Ens.
  2:{ destruct (load_spec c fuel content b i pr st um Hs Hi Hum) as (st1 & r & H1 & H2 & H3 & H4). cbn zeta in *. fold m in H1, H4.
      assert (HP : Parse c fuel content b (PoolId i) {| po_type := Coroutine; po_ref := pr |} = Parse c fuel content b (PoolId i) {| po_type := Normal; po_ref := pr |}) by (unfold Parse; rewrite Esc; cbn [obind]; unfold Parse_prog; cbn [po_type po_ref]; now rewrite Ens).
      rewrite HP. exists st1, r. split; [exact H1|]. split; [intros k; unfold exists_pool; now rewrite H2|]. split; [exact H3|].
      destruct (Parse_check c fuel content b i pr) as [[]| | | |]; auto. destruct (Parse c fuel content b (PoolId i) _) as [o| | | |]; auto.
      destruct H4 as (st2 & v & S2 & A2 & K2 & Hv). exists st2, v. split; [exact S2|]. split; [congruence|]. split; [exact K2|]. destruct v as [k|]; [|exact Hv]. destruct Hv as (d & Hv). exists d, o. auto. }
  unfold Parse. rewrite Esc. cbn [obind]. unfold Parse_prog. cbn [po_type po_ref]. rewrite Ens. unfold CoroParse_prog. rewrite run_bind.
  pose proof (coro_buf c fuel content b sc Hs HF Esc) as Hbuf.
  set (E := doc_env c content b sc) in *. set (get := getter c (sc_map sc)) in *. set (si := sc_split sc) in *.
  destruct (coro_calls E si get pr fuel TMap meta_size m q) as [[cs [m' q']] fr] eqn:Ec.
  destruct (calls_ok E si get pr fuel) as (_ & _ & PC). unfold P_co in PC.
  destruct (PC TMap meta_size st ltac:(discriminate) Hb cs m' q' fr Ec) as (st1 & R1 & M1 & Q1 & G1 & K1 & H1); [rewrite len_app in Hl; lia|]. clear PC. cbn [coro_prog] in H1.
  destruct (run get (ParseMap E si fuel pr meta_size)) as [[root e]| | | |] eqn:Er; cbn [obind].
  2-5: (destruct H1 as [-> X1]; destruct R1 as (r & R1); rewrite app_nil_r; exists st1, r; split; [exact R1|]; split; [exact X1|]; split; [exact K1|]; reflexivity).
  destruct H1 as (x & es & d & L & md & -> & Hx & X1 & Hh & HB & Hno & _). fold m in Hh, HB. fold q in Hx.
  assert (Hxi : i <> x) by (intros ->; apply exists_lt in Hi; unfold q in *; lia).
  destruct (deliver_ok st1 i x) as (st2 & R2 & Mv & L2 & X2); [rewrite X1, Hi; reflexivity|rewrite X1, Nat.eqb_refl; apply orb_true_r|exact Hxi|].
  destruct (runs_app _ _ _ _ _ R1 R2) as (r & R12). exists st2, r. split; [exact R12|].
  assert (K2 : forall j o, nth_error (st_objs st) j = Some o -> nth_error (st_objs st2) j = Some o).
  { intros k ob Hk. apply (moved_keeps (onto x i) q st1 st2 Mv); [intros h Hh0; unfold onto; destruct (Nat.eqb_spec h x); [lia|reflexivity]|now apply K1|]. apply (proj1 (Forall_forall _ _) Hb). eapply nth_error_In. exact Hk. }
  split; [|split; [exact K2|]].
  { intros k. rewrite X2, X1. destruct (Nat.eqb_spec k x); cbn; [|rewrite orb_false_r, andb_true_r; reflexivity]. subst k. rewrite andb_false_r. destruct (exists_pool st x) eqn:Ex; [apply exists_lt in Ex; unfold q in *; lia|reflexivity]. }
  assert (Hon : onto x i x = Some i) by (unfold onto; now rewrite Nat.eqb_refl).
  pose proof (hasp_moved (onto x i) x i st1 st2 m _ es Mv Hon Hh) as Hh2.
  assert (HB2 : bag (Nat.eqb i) st2 m d (map (fe (onto x i)) es) L).
  { eapply bag_moved; [exact Mv| |exact HB]. intros h Hh0. apply Nat.eqb_eq in Hh0. subst h. exists i. split; [exact Hon|apply Nat.eqb_refl]. }
  set (es2 := map (fe (onto x i)) es) in *. destruct Hh2 as (ob & Hob & Hk & Hhome & Hes & Hkf). unfold bag in HB2.
  rewrite run_lift. cbn [b_env E doc_env root_env r_content].
  assert (Hthe : the_obj st2 m = Ok ob) by (unfold the_obj; rewrite Hob, Hhome; reflexivity).
  assert (Hset : forall l', let st3 := set_obj m (with_content (SCont l') ob) st2 in st_alive st3 = st_alive st2 /\
     (forall j x, nth_error (st_objs st) j = Some x -> nth_error (st_objs st3) j = Some x) /\
     (forall k o, see_from (Nat.eqb i) (S m) d st2 k = Ok o -> see_from (Nat.eqb i) (S m) d st3 k = Ok o)).
  { intros l' st3. destruct (filled_set i m st2 ob (SCont l') Hob) as (F1 & _ & F3 & _). fold st3 in F1, F3. split; [congruence|]. split.
    - intros j y Hj. apply F3; [|now apply K2]. assert (j < m)%nat by (apply nth_error_Some; congruence). lia.
    - intros k o. apply see_from_ext; [auto|lia| |lia]. intros j y Hj. apply F3. lia. }
  assert (Hmap : is_map ob = true) by (unfold is_map; rewrite Hk; destruct pr; reflexivity).
  cbn [spec_step]. rewrite Hthe. cbn [obind]. unfold entries. rewrite Hes. cbn [obind]. rewrite Hmap. cbn [kind] in *.
  destruct pr; cbn [cont_obj no_pools] in Hno.
  - destruct root as [| | | | |p n items]; try discriminate Hno. cbn [no_pools] in Hno. inversion Hno as [[Hn0 Hit]]. clear Hno. cbn [take_root].
    assert (HM : Forall (fun e => read_view um (ref_of (en_key e)) = read_view (fun _ => Some content) (ref_of (en_key e))) es2).
    { pose proof (Hbuf fuel meta_size _ _ Er) as HV. inversion HV as [| | | | |? ? ? HV' E1]; subst. clear - HV' HB2 Hum Hit. rewrite map_map in Hit. cbn [fst snd] in Hit.
      revert L items HB2 Hit HV'. induction es2 as [|e0 es3 IH]; intros L items HL Hit HV'; [constructor|]. cbn [kids] in HL. destruct (home_in (Nat.eqb i) (en_home e0)); [|discriminate HL].
      apply obind_ok in HL as (t & _ & HL). apply obind_ok in HL as (r & Hr & HL). inversion HL; subst. destruct items as [|[v0 o0] items]; [discriminate Hit|]. cbn [map fst snd] in Hit. inversion Hit as [[Hv0 Ho0 Hit']]. pose proof (Forall_inv HV') as [Hvb _]. pose proof (Forall_inv_tail HV') as HV''.
      constructor; [|now apply (IH r items)]. unfold read_view. cbn [fst] in Hvb. rewrite Hv0, Hvb, Hum. reflexivity. }
    pose proof (take_ref _ _ um root_key (fun _ => Some content) es2 L HB2 Hkf HM) as HT.
    pose proof (take_bare_view (fun _ => Some content) _ _ root_key Hit) as HTB.
    destruct (MapView_take (fun _ => Some content) (map (fun e => (ref_of (fst e), snd e)) L) root_key) as [[o l']| | | |], (MapView_take (fun _ => Some content) items root_key) as [[o2 l2]| | | |]; cbn [obind fst omap] in *; try discriminate HTB.
    + destruct HT as (v & es' & -> & Hv). cbn [obind]. destruct (Hset es') as (S1 & S2 & S3). eexists _, _. split; [reflexivity|]. split; [exact S1|]. split; [exact S2|].
      assert (HTB' : no_pools o = no_pools o2) by congruence. destruct v as [k|]; [exists d, o; split; [now apply S3|exact HTB']|]. subst o. apply no_pools_null. now symmetry.
    + destruct HT; discriminate.
    + destruct HT; discriminate.
    + destruct HT as [_ ->]. reflexivity.
    + destruct HT; discriminate.
  - destruct root as [| | | |p n items|]; try discriminate Hno. cbn [no_pools] in Hno. inversion Hno as [[Hn0 Hit]]. clear Hno. cbn [take_root].
    destruct (take_own _ _ um root_key es2 L HB2 Hkf) as (v & es' & -> & Hv). cbn [obind]. destruct (Hset es') as (S1 & S2 & S3). eexists _, _. split; [reflexivity|]. split; [exact S1|]. split; [exact S2|].
    pose proof (take_bare _ _ root_key Hit) as HTB. destruct v as [k|]; [exists d; eexists; split; [apply S3; exact Hv|exact HTB]|]. rewrite Hv in HTB. apply no_pools_null. now symmetry.
Qed.

(** The objects that were there before, whatever comes of the parse. *)
Lemma coro_cases c fuel content b i pr m q : Coro_calls c fuel content b i pr m q = Parse_calls c fuel content b i pr m \/
  exists sc, initFromContent c fuel content b = Ok sc /\ sc_need_to_split sc = true.
Proof.
  unfold Coro_calls. destruct (initFromContent c fuel content b) as [sc| | | |] eqn:Esc; [|left; unfold Parse_calls; rewrite Esc; reflexivity..].
  destruct (sc_need_to_split sc) eqn:En; [right; eauto|left; reflexivity].
Qed.
Lemma spec_run_inv a b st st2 r : spec_run st (a ++ b) = Ok (st2, r) -> exists st1, runs st a st1 /\ runs st1 b st2.
Proof.
  revert st r. induction a as [|op a IH]; intros st r H; cbn [app] in H; [exists st; split; [apply runs_nil|eexists; exact H]|].
  cbn [spec_run] in H. apply obind_ok in H as ([st1 x] & H1 & H). apply obind_ok in H as ([st3 r2] & H2 & H). inversion H; subst.
  destruct (IH _ _ H2) as (st3 & A & B). exists st3. split; [eapply runs_cons; eauto|exact B].
Qed.
Lemma runs_fun st ops a b : runs st ops a -> runs st ops b -> a = b.
Proof. intros (r & H) (r' & H'). congruence. Qed.
Lemma coro_kept c fuel content b i pr st st1 r : below st ->
  (exists sc, initFromContent c fuel content b = Ok sc /\ sc_need_to_split sc = true) ->
  let calls := Coro_calls c fuel content b i pr (length (st_objs st)) (length (st_alive st)) in
  len calls < W64 -> spec_run st calls = Ok (st1, r) -> forall j o, nth_error (st_objs st) j = Some o -> nth_error (st_objs st1) j = Some o.
Proof.
  cbn zeta. intros Hb (sc & Esc & Ens) Hl H. unfold Coro_calls in *. rewrite Esc, Ens in *.
  set (E := doc_env c content b sc) in *. set (get := getter c (sc_map sc)) in *. set (si := sc_split sc) in *. set (m := length (st_objs st)) in *. set (q := length (st_alive st)) in *.
  destruct (coro_calls E si get pr fuel TMap meta_size m q) as [[cs [m' q']] fr] eqn:Ec.
  destruct (calls_ok E si get pr fuel) as (_ & _ & PC). unfold P_co in PC.
  destruct (PC TMap meta_size st ltac:(discriminate) Hb cs m' q' fr Ec) as (st2 & R1 & M1 & Q1 & G1 & K1 & H1); [rewrite len_app in Hl; lia|]. clear PC. cbn [coro_prog] in H1.
  destruct (spec_run_inv _ _ _ _ _ H) as (st2' & A & B). pose proof (runs_fun _ _ _ _ A R1). subst st2'.
  destruct (run get (ParseMap E si fuel pr meta_size)) as [[root e]| | | |] eqn:Er.
  2-5: (destruct H1 as [-> X1]; pose proof (runs_fun _ _ _ _ B (runs_nil _)); subst; exact K1).
  destruct H1 as (x & es & d & L & md & -> & Hx & X1 & _). fold q in Hx.
  assert (Hix : exists_pool st2 i = true /\ exists_pool st2 x = true /\ i <> x).
  { destruct B as (rb & B). unfold deliver in B. cbn [map spec_run] in B. apply obind_ok in B as ([st3 a3] & B & _). cbn [spec_step pool_call] in B. unfold only in B.
    destruct (exists_pool st2 i); [|discriminate B]. destruct (exists_pool st2 x); [|discriminate B]. destruct (Nat.eqb_spec i x); [discriminate B|]. auto. }
  destruct Hix as (Hi & Hxx & Hn). destruct (deliver_ok st2 i x Hi Hxx Hn) as (st3 & R2 & Mv & L2 & X2).
  pose proof (runs_fun _ _ _ _ B R2). subst st3.
  intros k ob Hk. apply (moved_keeps (onto x i) q st2 st1 Mv); [intros h Hh0; unfold onto; destruct (Nat.eqb_spec h x); [lia|reflexivity]|now apply K1|]. apply (proj1 (Forall_forall _ _) Hb). eapply nth_error_In. exact Hk.
Qed.
