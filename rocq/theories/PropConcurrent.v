(** * Properties C07, C08: the parallel parse under every interleaving. *)
From Verif Require Import Base BaseLemmas ModelVarint ModelData ModelSecondary ModelObject
  ModelParse ModelWrapper Spec SpecApi VarintProofs Wire NumProofs DocProofs ObjInd
  ParseLemmas NormalProofs SecondaryProofs ValueProofs ParaProofs RoundTrip GeneralProofs ApiProofs EndianProofs Samples
  PropRoundTrip ModelConcurrent.
From Coq Require Import ZifyBool ZifyNat ZifyN.

(** ** Induction over computations and task trees *)
Fixpoint prog_ind' (P : forall A, prog A -> Prop)
  (H1 : forall A a, P A (PRet a)) (H2 : forall A f, P A (PFail f))
  (H3 : forall A id k, (forall v, P A (k v)) -> P A (PGetStr id k))
  (H4 : forall A ts k, Forall (P block) ts -> (forall rs, P A (k rs)) -> P A (PPar ts k))
  A (p : prog A) {struct p} : P A p :=
  match p with
  | PRet a => H1 A a
  | PFail f => H2 A f
  | PGetStr id k => H3 A id k (fun v => prog_ind' P H1 H2 H3 H4 A (k v))
  | PPar ts k => H4 A ts k
      ((fix go (l : list (prog block)) : Forall (P block) l :=
          match l with [] => Forall_nil _ | t :: l' => Forall_cons _ (prog_ind' P H1 H2 H3 H4 block t) (go l') end) ts)
      (fun rs => prog_ind' P H1 H2 H3 H4 A (k rs))
  end.

Fixpoint tree_ind' (P : forall A, tree A -> Prop)
  (H1 : forall A p, P A (TRun p)) (H2 : forall A id k, P A (TBuild id k))
  (H3 : forall A ts k, Forall (P block) ts -> P A (TWait ts k))
  A (t : tree A) {struct t} : P A t :=
  match t with
  | TRun p => H1 A p
  | TBuild id k => H2 A id k
  | TWait ts k => H3 A ts k
      ((fix go (l : list (tree block)) : Forall (P block) l :=
          match l with [] => Forall_nil _ | x :: l' => Forall_cons _ (tree_ind' P H1 H2 H3 block x) (go l') end) ts)
  end.

(** ** Meaning of a task tree: the result of running the rest sequentially *)
Fixpoint meaning {A} (look : N -> outcome view) (t : tree A) : outcome A :=
  match t with
  | TRun p => run look p
  | TBuild id k => run look (PGetStr id k)
  | TWait ts k =>
      let rs := map (fun x => meaning look x) ts in
      match hard_failure rs with
      | Some f => fail_out f
      | None => run look (k rs)
      end
  end.

Lemma run_answer {A} look id (k : view -> prog A) : run look (answer (look id) k) = run look (PGetStr id k).
Proof. unfold answer. cbn. now destruct (look id). Qed.

Lemma finished_meaning look ts rs : map finished ts = map Some rs ->
  map (fun x => meaning look x) ts = rs /\ hard_failure rs = None.
Proof.
  revert rs. induction ts as [|t ts IH]; intros [|r rs] H; cbn in H; try discriminate; [auto|].
  injection H as H1 H2. destruct (IH _ H2) as [<- Hh]. destruct t as [[b|[e| | |]| |]| |]; cbn in H1; try discriminate; injection H1 as <-; auto.
Qed.

(** No interleaving step changes it, except a race. *)
Lemma cstep_meaning look A sh (t : tree A) sh' t' : cstep look sh t sh' t' ->
  sh <> Building -> meaning look t' = meaning look t.
Proof.
  induction 1 as [A id k|A id k sh|A id k|A id k|A ts k sh|A l1 t l2 k sh t' sh' St IH|A ts rs k sh Hf]; intros Hb.
  - reflexivity.
  - exact (run_answer look id k).
  - exact (run_answer look id k).
  - congruence.
  - cbn. rewrite map_map. reflexivity.
  - cbn. rewrite !map_app. cbn. now rewrite IH.
  - cbn. destruct (finished_meaning look ts rs Hf) as [-> ->]. reflexivity.
Qed.

(** ** Every schedule ends *)
Definition smaller {A} look (t' t : tree A) : Prop := exists sh sh', cstep look sh t sh' t'.

Lemma acc_list {X} (R : X -> X -> Prop) (l : list X) : Forall (Acc R) l ->
  Acc (fun l' l => exists l1 x l2 x', l = l1 ++ x :: l2 /\ l' = l1 ++ x' :: l2 /\ R x' x) l.
Proof.
  induction 1 as [|x l Hx Hl IH].
  - constructor. intros l' (l1 & x & l2 & x' & H & _). now destruct l1.
  - clear Hl. revert l IH. induction Hx as [x _ IHx]. intros l Hl. induction Hl as [l Hacc IHl].
    constructor. intros l' (l1 & y & l2 & y' & H1 & H2 & HR). destruct l1 as [|z l1]; cbn in *; injection H1 as -> ->; subst l'.
    + apply IHx; [exact HR|]. now constructor.
    + apply IHl. exists l1, y, l2, y'. auto.
Qed.

Lemma cstep_inv look A sh (t : tree A) sh' t' : cstep look sh t sh' t' ->
  match t with
  | TRun (PRet _) | TRun (PFail _) => False
  | TRun (PGetStr id k) => t' = TBuild id k \/ t' = TRun (answer (look id) k) \/ t' = TRun (PFail FUB)
  | TRun (PPar ts k) => t' = TWait (map TRun ts) k
  | TBuild id k => t' = TRun (answer (look id) k)
  | TWait ts k =>
      (exists l1 x l2 x', ts = l1 ++ x :: l2 /\ t' = TWait (l1 ++ x' :: l2) k /\ cstep look sh x sh' x') \/
      (exists rs, map finished ts = map Some rs /\ t' = TRun (k rs))
  end.
Proof. intros H; destruct H; eauto 10. Qed.

Lemma acc_wait A look ts (k : list (outcome block) -> prog A) :
  Forall (Acc (smaller look)) ts -> (forall rs, Acc (smaller look) (TRun (k rs))) -> Acc (smaller look) (TWait ts k).
Proof.
  intros Hts Hk. apply acc_list in Hts. induction Hts as [ts _ IH]. constructor. intros t' (sh & sh' & St).
  apply cstep_inv in St as [(l1 & x & l2 & x' & -> & -> & St)|(rs & _ & ->)]; [|apply Hk].
  apply IH. exists l1, x, l2, x'. repeat split. now exists sh, sh'.
Qed.

Lemma acc_fail A look f : Acc (smaller look) (@TRun A (PFail f)).
Proof. constructor. intros t' (sh & sh' & St). now apply cstep_inv in St. Qed.

Lemma acc_run look A (p : prog A) : Acc (smaller look) (TRun p).
Proof.
  induction p as [A a|A f|A id k IH|A ts k IHts IHk] using prog_ind'.
  - constructor. intros t' (sh & sh' & St). now apply cstep_inv in St.
  - apply acc_fail.
  - assert (Ha : Acc (smaller look) (TRun (answer (look id) k))).
    { unfold answer. destruct (look id); cbn; auto using acc_fail. }
    constructor. intros t' (sh & sh' & St). apply cstep_inv in St as [ -> |[ -> | -> ]]; auto using acc_fail.
    constructor. intros t' (sh1 & sh1' & St). apply cstep_inv in St. now subst t'.
  - constructor. intros t' (sh & sh' & St). apply cstep_inv in St. subst t'. apply acc_wait; [|exact IHk].
    clear -IHts. induction IHts; constructor; auto.
Qed.

Lemma acc_no_infinite {X} (R : X -> X -> Prop) (f : nat -> X) : Acc R (f 0%nat) -> ~ forall n, R (f (S n)) (f n).
Proof.
  intros Ha H. remember (f 0%nat) as x eqn:E. revert f E H. induction Ha as [x _ IH]. intros f -> H.
  apply (IH (f 1%nat) (H 0%nat) (fun n => f (S n)) eq_refl). intros n. apply H.
Qed.

(** ** A task tree that is neither finished nor crashed can move *)
Definition done {A} (t : tree A) : bool :=
  match t with TRun (PRet _) | TRun (PFail _) => true | _ => false end.

Lemma progress look A (t : tree A) : crashes t = false -> done t = true \/ forall sh, exists sh' t', cstep look sh t sh' t'.
Proof.
  induction t as [A p|A id k|A ts k IH] using tree_ind'; intros Hc.
  - destruct p as [a|f|id k|ts k]; [now left|now left| |].
    + right. intros [| |]; eexists; eexists; constructor.
    + right. intros sh. eexists; eexists; constructor.
  - right. intros sh. eexists; eexists; constructor.
  - right. intros sh. cbn in Hc.
    assert (G : (exists rs, map finished ts = map Some rs) \/ exists l1 x l2 sh' x', ts = l1 ++ x :: l2 /\ cstep look sh x sh' x').
    { induction IH as [|x ts Hx IH IHts]; [left; now exists []|]. cbn in Hc. apply Bool.orb_false_iff in Hc as [Hc1 Hc2].
      destruct (Hx Hc1) as [Hd|Hs].
      - destruct (IHts Hc2) as [(rs & Hrs)|(l1 & y & l2 & sh' & y' & -> & St)].
        + left. destruct x as [[b|[e| | |]| |]| |]; try discriminate.
          * exists (Ok b :: rs). cbn. now rewrite Hrs.
          * exists (Throw e :: rs). cbn. now rewrite Hrs.
        + right. exists (x :: l1), y, l2, sh', y'. auto.
      - right. destruct (Hs sh) as (sh' & x' & St). exists [], x, ts, sh', x'. auto. }
    destruct G as [(rs & Hrs)|(l1 & x & l2 & sh' & x' & -> & St)].
    + eexists; eexists; eapply c_join; eauto.
    + eexists; eexists; eapply c_task; eauto.
Qed.

Definition is_hard {A} (o : outcome A) : bool := match o with Ok _ | Throw _ => false | _ => true end.
Lemma hard_failure_some rs : existsb is_hard rs = true -> exists f, hard_failure rs = Some f /\ forall A, is_hard (@fail_out A f) = true.
Proof.
  induction rs as [|r rs IH]; cbn; intros H; [discriminate|]. destruct r; cbn in H; auto; eexists; (split; [reflexivity|reflexivity]).
Qed.
Lemma crashes_hard look A (t : tree A) : crashes t = true -> is_hard (meaning look t) = true.
Proof.
  induction t as [A p|A id k|A ts k IH] using tree_ind'; intros Hc.
  - destruct p as [a|[| | |]|id k|ts k]; cbn in *; try discriminate; reflexivity.
  - discriminate.
  - cbn in *. destruct (hard_failure_some (map (fun x => meaning look x) ts)) as (f & -> & Hf); [|apply Hf].
    induction IH as [|x ts Hx IH IHts]; [discriminate|]. cbn in *. apply Bool.orb_true_iff in Hc as [Hc|Hc].
    + now rewrite Hx.
    + rewrite IHts by exact Hc. apply Bool.orb_true_r.
Qed.

(** ** Who may touch the table *)

Definition all_of {X} (P : X -> Prop) (l : list X) : Prop := fold_right and True (map P l).
Lemma all_of_Forall {X} (P : X -> Prop) l : all_of P l <-> Forall P l.
Proof.
  unfold all_of. induction l as [|x l IH]; cbn; [split; auto|]. rewrite IH. split; [intros []; auto|intros H; inversion H; auto].
Qed.

(** No GetStr at all. *)
Fixpoint noget {A} (p : prog A) : Prop :=
  match p with
  | PRet _ | PFail _ => True
  | PGetStr _ _ => False
  | PPar ts k => fold_right and True (map (fun t => noget t) ts) /\ forall rs, noget (k rs)
  end.

(** The first GetStr comes before the first fork into several tasks. *)
Fixpoint solo {A} (p : prog A) : Prop :=
  match p with
  | PRet _ | PFail _ | PGetStr _ _ => True
  | PPar ts k => noget p \/ match ts with [t] => solo t /\ forall rs, solo (k rs) | _ => False end
  end.

Fixpoint tnoget {A} (t : tree A) : Prop :=
  match t with
  | TRun p => noget p
  | TBuild _ _ => False
  | TWait ts k => fold_right and True (map (fun x => tnoget x) ts) /\ forall rs, noget (k rs)
  end.

Fixpoint tsolo {A} (t : tree A) : Prop :=
  match t with
  | TRun p => solo p
  | TBuild _ _ => False
  | TWait ts k => tnoget t \/ match ts with [x] => tsolo x /\ forall rs, solo (k rs) | _ => False end
  end.

Fixpoint one_builder {A} (t : tree A) : Prop :=
  match t with
  | TRun _ => False
  | TBuild _ _ => True
  | TWait ts k => match ts with [x] => one_builder x | _ => False end
  end.

Fixpoint no_builder {A} (t : tree A) : Prop :=
  match t with
  | TRun _ => True
  | TBuild _ _ => False
  | TWait ts k => fold_right and True (map (fun x => no_builder x) ts)
  end.

Definition table_ok {A} (sh : shared) (t : tree A) : Prop :=
  match sh with Fresh => tsolo t | Building => one_builder t | Ready => no_builder t end.

Lemma noget_solo A (p : prog A) : noget p -> solo p.
Proof. destruct p; cbn; tauto. Qed.
Lemma tnoget_tsolo A (t : tree A) : tnoget t -> tsolo t.
Proof. destruct t; cbn; auto using noget_solo. Qed.

Lemma fold_mid {X} (P : X -> Prop) l1 x l2 :
  fold_right and True (map P (l1 ++ x :: l2)) <-> fold_right and True (map P (l1 ++ l2)) /\ P x.
Proof. induction l1 as [|y l1 IH]; cbn; [tauto|]. rewrite IH. tauto. Qed.
Lemma fold_run {X Y} (P : X -> Prop) (f : Y -> X) (Q : Y -> Prop) l : (forall y, P (f y) <-> Q y) ->
  fold_right and True (map P (map f l)) <-> fold_right and True (map Q l).
Proof. intros H. induction l as [|y l IH]; cbn; [tauto|]. rewrite IH, H. tauto. Qed.

Lemma tnoget_step look A sh (t : tree A) sh' t' : cstep look sh t sh' t' -> tnoget t -> tnoget t' /\ sh' = sh.
Proof.
  induction 1 as [A id k|A id k sh|A id k|A id k|A ts k sh|A l1 t l2 k sh t' sh' St IH|A ts rs k sh Hf]; cbn [tnoget noget]; try contradiction.
  - intros [H1 H2]. split; [|reflexivity]. split; [|exact H2]. revert H1. apply fold_run. reflexivity.
  - intros [H1 H2]. apply fold_mid in H1 as [H1 H3]. destruct (IH H3) as [H4 ->]. split; [|reflexivity]. split; [|exact H2]. apply fold_mid. auto.
  - intros [_ H]. split; [apply H|reflexivity].
Qed.

Lemma no_builder_run ts : fold_right and True (map (fun x => no_builder x) (map (@TRun block) ts)).
Proof. induction ts; cbn; auto. Qed.

Lemma no_builder_step look A sh (t : tree A) sh' t' : cstep look sh t sh' t' -> sh = Ready -> no_builder t -> no_builder t' /\ sh' = Ready.
Proof.
  induction 1 as [A id k|A id k sh|A id k|A id k|A ts k sh|A l1 t l2 k sh t' sh' St IH|A ts rs k sh Hf]; intros E; cbn [no_builder]; try discriminate; auto.
  - intros _. split; [apply no_builder_run|exact E].
  - intros H1. apply fold_mid in H1 as [H1 H3]. destruct (IH E H3) as [H4 ->]. split; [|reflexivity]. apply fold_mid. auto.
Qed.

Lemma singleton_mid {X} (x : X) l1 y l2 : [x] = l1 ++ y :: l2 -> l1 = [] /\ l2 = [] /\ x = y.
Proof. destruct l1 as [|z l1]; cbn; [|destruct l1; discriminate]. intros H. injection H as -> <-. auto. Qed.

Lemma one_builder_step look A sh (t : tree A) sh' t' : cstep look sh t sh' t' -> sh = Building -> one_builder t ->
  no_builder t' /\ sh' = Ready /\ meaning look t' = meaning look t.
Proof.
  induction 1 as [A id k|A id k sh|A id k|A id k|A ts k sh|A l1 t l2 k sh t' sh' St IH|A ts rs k sh Hf]; intros E; cbn [one_builder]; try discriminate; try contradiction.
  - intros _. split; [exact I|]. split; [reflexivity|]. exact (run_answer look id k).
  - destruct (l1 ++ t :: l2) as [|x [|y l]] eqn:El; try contradiction. symmetry in El. apply singleton_mid in El as (-> & -> & ->).
    intros H. destruct (IH E H) as (H1 & -> & H2). cbn. split; [auto|]. split; [reflexivity|]. now rewrite H2.
  - destruct ts as [|x [|y l]]; try contradiction. intros H. destruct x as [|id k'|[|x [|]] k']; cbn in H; try contradiction; destruct rs; discriminate.
Qed.

Lemma tsolo_step look A sh (t : tree A) sh' t' : cstep look sh t sh' t' -> sh = Fresh -> tsolo t -> table_ok sh' t' /\ sh' <> Ready.
Proof.
  induction 1 as [A id k|A id k sh|A id k|A id k|A ts k sh|A l1 t l2 k sh t' sh' St IH|A ts rs k sh Hf]; intros E; try discriminate.
  - intros _. split; [exact I|discriminate].
  - cbn [tsolo]. contradiction.
  - subst sh. cbn [tsolo solo]. intros H. split; [|discriminate]. cbn [table_ok tsolo]. destruct H as [H|H].
    + left. apply (tnoget_step look A Fresh (TRun (PPar ts k)) Fresh _); [constructor|exact H].
    + right. destruct ts as [|x [|]]; try contradiction. exact H.
  - subst sh. cbn [tsolo]. intros [H|H].
    + cbn [tnoget] in H. destruct H as [H1 H2]. apply fold_mid in H1 as [H1 H3]. destruct (tnoget_step _ _ _ _ _ _ St H3) as [H4 ->].
      split; [|discriminate]. cbn [table_ok tsolo]. left. split; [|exact H2]. apply fold_mid. auto.
    + destruct (l1 ++ t :: l2) as [|x [|y l]] eqn:El; try contradiction. symmetry in El. apply singleton_mid in El as (-> & -> & ->).
      destruct H as [H1 H2]. destruct (IH eq_refl H1) as [H3 H4]. split; [|exact H4]. destruct sh'; cbn [table_ok] in *.
      * right. cbn. auto.
      * exact H3.
      * congruence.
  - subst sh. cbn [tsolo]. intros H. split; [|discriminate]. cbn [table_ok tsolo]. destruct H as [H|H].
    + apply noget_solo. apply H.
    + destruct ts as [|x [|]]; try contradiction. apply H.
Qed.

Lemma table_ok_step look A sh (t : tree A) sh' t' : cstep look sh t sh' t' -> table_ok sh t ->
  table_ok sh' t' /\ meaning look t' = meaning look t.
Proof.
  intros St H. destruct sh; cbn [table_ok] in H.
  - destruct (tsolo_step _ _ _ _ _ _ St eq_refl H) as [H1 _]. split; [exact H1|]. now apply (cstep_meaning look A Fresh t sh' t').
  - destruct (one_builder_step _ _ _ _ _ _ St eq_refl H) as (H1 & -> & H2). auto.
  - destruct (no_builder_step _ _ _ _ _ _ St eq_refl H) as (H1 & ->). split; [exact H1|]. now apply (cstep_meaning look A Ready t Ready t').
Qed.

Lemma table_ok_steps look A (p : prog A) sh t : solo p -> csteps look Fresh (TRun p) sh t ->
  table_ok sh t /\ meaning look t = run look p.
Proof.
  intros Hs H. remember Fresh as sh0. remember (TRun p) as t0. induction H as [sh t|sh t sh1 t1 sh2 t2 H IH St]; subst.
  - split; [exact Hs|reflexivity].
  - destruct (IH eq_refl eq_refl) as [H1 H2]. destruct (table_ok_step _ _ _ _ _ _ St H1) as [H3 H4]. split; [exact H3|congruence].
Qed.

Lemma tnoget_count A (t : tree A) : tnoget t -> in_getstr t = 0%nat.
Proof.
  induction t as [A p|A id k|A ts k IH] using tree_ind'; cbn; try contradiction.
  - destruct p; cbn; tauto.
  - intros [H _]. induction IH as [|x ts Hx IH IHts]; [reflexivity|]. cbn [map fold_right] in H. destruct H as [H1 H2].
    cbn [map list_sum fold_right]. rewrite Hx by exact H1. exact (IHts H2).
Qed.
Lemma one_builder_count A (t : tree A) : one_builder t -> active t = 1%nat.
Proof.
  induction t as [A p|A id k|A ts k IH] using tree_ind'; cbn; try contradiction; [reflexivity|].
  intros H. inversion IH as [|x l Hx Hl]; subst; [contradiction|]. destruct l; [|contradiction]. cbn. now rewrite Hx.
Qed.
Lemma tsolo_count A (t : tree A) : tsolo t -> in_getstr t <> 0%nat -> active t = 1%nat.
Proof.
  induction t as [A p|A id k|A ts k IH] using tree_ind'; cbn [tsolo]; try contradiction.
  - destruct p; cbn; try congruence.
  - intros [H|H] Hn; [elim Hn; now apply tnoget_count|].
    inversion IH as [|x l Hx Hl]; subst; [contradiction|]. destruct l; [|contradiction]. cbn in *. rewrite Hx; [reflexivity|apply H|].
    intros E. apply Hn. now rewrite E.
Qed.

(** ** What the parser's computations look like *)
Section Closed.
  Variable E : penv.
  Variable Q : forall A, prog A -> Prop.
  Hypothesis Q_ret : forall A a, Q A (PRet a).
  Hypothesis Q_fail : forall A f, Q A (PFail f).
  Hypothesis Q_bind : forall A B p f, Q A p -> (forall a, Q B (f a)) -> Q B (pbind p f).
  Hypothesis Q_get : ModelParse.b_map E = true -> forall A id k, (forall v, Q A (k v)) -> Q A (PGetStr id k).

  Lemma Q_lift A (o : outcome A) : Q A (lift o).
  Proof. destruct o; cbn; auto. Qed.

  Lemma Q_data pr s : Q _ (Data_valueParse E pr s).
  Proof.
    unfold Data_valueParse. apply Q_bind; [apply Q_lift|]. intros [dt s1]. destruct (negb (valid_data_type dt)); [apply Q_fail|].
    destruct ((dt =? BRIDGE_STRING) && ModelParse.b_map E) eqn:Em.
    - apply andb_prop in Em as [_ Em]. apply Q_bind; [apply Q_lift|]. intros [id s2]. apply (Q_get Em). intros v. destruct pr; [apply Q_ret|].
      apply Q_bind; [apply Q_lift|]. intros; apply Q_ret.
    - apply Q_bind; [apply Q_lift|]. intros [size s2]. apply Q_bind; [apply Q_lift|]. intros a. apply Q_bind; [apply Q_lift|]. intros d.
      apply Q_bind; [apply Q_lift|]. intros; apply Q_ret.
  Qed.

  Lemma Q_key s : Q _ (parse_key E s).
  Proof.
    unfold parse_key. destruct (ModelParse.b_map E) eqn:Em.
    - apply Q_bind; [apply Q_lift|]. intros [id s1]. apply (Q_get eq_refl). intros; apply Q_ret.
    - apply Q_bind; [apply Q_lift|]. intros [id s1]. apply Q_bind; [apply Q_lift|]. intros a. apply Q_bind; [apply Q_lift|]. intros; apply Q_ret.
  Qed.
  Lemma Q_block_key s : Q _ (block_key E s).
  Proof.
    unfold block_key. destruct (ModelParse.b_map E) eqn:Em.
    - apply Q_bind; [apply Q_lift|]. intros [id s1]. apply (Q_get eq_refl). intros; apply Q_ret.
    - apply Q_bind; [apply Q_lift|]. intros [id s1]. apply Q_bind; [apply Q_lift|]. intros; apply Q_ret.
  Qed.

  Lemma Q_value p fuel : forall pr,
    (forall t s, Q _ (valueParse E p pr fuel t s)) /\
    (forall n s acc, Q _ (array_loop E p pr fuel n s acc)) /\
    (forall n s acc, Q _ (map_loop E p pr fuel n s acc)) /\
    (forall n s acc, Q _ (mapview_loop E p pr fuel n s acc)).
  Proof.
    induction fuel as [|f IH]; intros pr; [repeat split; intros; apply Q_fail|]. destruct (IH pr) as (IV & IA & IM & IW).
    repeat split; intros; cbn [valueParse array_loop map_loop mapview_loop].
    - destruct t.
      + apply Q_data.
      + apply Q_bind; [apply Q_lift|]. intros [n s1]. apply Q_bind; [apply Q_lift|]. intros [? s2]. destruct pr.
        * apply Q_bind; [apply IW|]. intros [? ?]; apply Q_ret.
        * apply Q_bind; [apply Q_lift|]. intros _. apply Q_bind; [apply IM|]. intros [? ?]; apply Q_ret.
      + apply Q_bind; [apply Q_lift|]. intros [n s1]. apply Q_bind; [apply Q_lift|]. intros [? s2]. apply Q_bind; [apply IA|]. intros [? ?]; apply Q_ret.
    - destruct (n =? 0); [apply Q_ret|]. apply Q_bind; [apply Q_lift|]. intros [t s1]. apply Q_bind; [apply IV|]. intros [o s2]. apply IA.
    - destruct (n =? 0); [apply Q_ret|]. apply Q_bind; [apply Q_key|]. intros [kv s1]. apply Q_bind; [apply Q_lift|]. intros [t s2].
      apply Q_bind; [apply IV|]. intros [o s3]. apply Q_bind; [apply Q_lift|]. intros key. apply IM.
    - destruct (n =? 0); [apply Q_ret|]. apply Q_bind; [apply Q_key|]. intros [kv s1]. apply Q_bind; [apply Q_lift|]. intros [t s2].
      apply Q_bind; [apply IV|]. intros [o s3]. apply IW.
  Qed.

  Lemma Q_normal fuel pr p total : Q _ (NormalParse_prog E fuel pr p total).
  Proof.
    unfold NormalParse_prog. apply Q_bind; [apply (Q_value p fuel pr)|]. intros [root s]. destruct (negb (off s =? total)); [apply Q_fail|apply Q_lift].
  Qed.

  Hypothesis Q_par : forall A ts k, Forall (Q block) ts -> (forall rs, Q A (k rs)) -> Q A (PPar ts k).
  Lemma Q_blocks si fuel :
    (forall pr os, Q _ (ParseArray E si fuel pr os)) /\
    (forall pr os, Q _ (ParseMap E si fuel pr os)) /\
    (forall pr s, Q _ (block_value E si fuel pr s)) /\
    (forall pr e s acc n, Q _ (ParseArrayBlock E si fuel pr e s acc n)) /\
    (forall e s acc n, Q _ (ParseMapBlock E si fuel e s acc n)) /\
    (forall e s acc n, Q _ (ParseMapViewBlock E si fuel e s acc n)).
  Proof.
    induction fuel as [|f (IA & IM & IV & IAB & IMB & IWB)]; [repeat split; intros; apply Q_fail|].
    repeat split; intros.
    - rewrite ParseArray_S. cbv zeta. apply Q_bind; [apply Q_lift|]. intros [n s1]. apply Q_bind; [apply Q_lift|]. intros [id s2].
      apply Q_bind; [apply Q_lift|]. intros bi. destruct (ranges (idx s2) bi) as [rs last]. apply Q_par.
      + apply Forall_forall. intros x Hx. apply in_map_iff in Hx as (be & <- & _). apply IAB.
      + intros r. apply Q_bind; [apply Q_lift|]. intros [? ?]; apply Q_ret.
    - rewrite ParseMap_S. cbv zeta. apply Q_bind; [apply Q_lift|]. intros [n s1]. apply Q_bind; [apply Q_lift|]. intros [id s2].
      apply Q_bind; [apply Q_lift|]. intros bi. destruct (ranges (idx s2) bi) as [rs last]. destruct pr; apply Q_par.
      + apply Forall_forall. intros x Hx. apply in_map_iff in Hx as (be & <- & _). apply IWB.
      + intros r. apply Q_bind; [apply Q_lift|]. intros [? ?]; apply Q_ret.
      + apply Forall_forall. intros x Hx. apply in_map_iff in Hx as (be & <- & _). apply IMB.
      + intros r. apply Q_bind; [apply Q_lift|]. intros [? ?]; apply Q_ret.
    - rewrite block_value_S. apply Q_bind; [apply Q_lift|]. intros [[t b] s1]. destruct b; [|apply (Q_value CoroFrame f pr)].
      destruct t; [apply Q_fail| |]; (apply Q_bind; [auto|]; intros [? ?]; apply Q_ret).
    - rewrite ParseArrayBlock_S. destruct (off s <? e); [|apply Q_ret]. apply Q_bind; [apply IV|]. intros [? ?]; apply IAB.
    - rewrite ParseMapBlock_S. destruct (off s <? e); [|apply Q_ret]. apply Q_bind; [apply Q_block_key|]. intros [kv s1].
      apply Q_bind; [apply Q_lift|]. intros key. apply Q_bind; [apply IV|]. intros [? ?]; apply IMB.
    - rewrite ParseMapViewBlock_S. destruct (off s <? e); [|apply Q_ret]. apply Q_bind; [apply Q_block_key|]. intros [kv s1].
      apply Q_bind; [apply IV|]. intros [? ?]; apply IWB.
  Qed.
End Closed.

(** No fork: a sequential computation. *)
Fixpoint nopar {A} (p : prog A) : Prop :=
  match p with
  | PRet _ | PFail _ => True
  | PGetStr _ k => forall v, nopar (k v)
  | PPar _ _ => False
  end.
Lemma nopar_bind A B (p : prog A) (f : A -> prog B) : nopar p -> (forall a, nopar (f a)) -> nopar (pbind p f).
Proof. intros Hp Hf. induction p; cbn in *; auto; contradiction. Qed.
Lemma nopar_solo A (p : prog A) : nopar p -> solo p.
Proof. destruct p; cbn; auto; contradiction. Qed.
Lemma noget_bind A B (p : prog A) (f : A -> prog B) : noget p -> (forall a, noget (f a)) -> noget (pbind p f).
Proof.
  intros Hp Hf. induction p as [A a|A e|A id k IH|A ts k IH]; cbn in *; auto; try contradiction.
  destruct Hp as [H1 H2]. split; [exact H1|]. intros rs. apply IH; auto.
Qed.

Lemma normal_nopar E fuel pr p total : nopar (NormalParse_prog E fuel pr p total).
Proof. apply (Q_normal E (@nopar)); try (intros; exact I); auto using nopar_bind. Qed.

Lemma coro_noget E si fuel pr : ModelParse.b_map E = false -> noget (CoroParse_prog E si fuel pr).
Proof.
  intros Hb. unfold CoroParse_prog. apply noget_bind.
  - apply (Q_blocks E (@noget)); try (intros; exact I); auto using noget_bind; try congruence.
    intros A ts k HF Hk. split; [|exact Hk]. clear -HF. induction HF; cbn; auto.
  - intros [root x]. destruct (take_root _ _); exact I.
Qed.

(** The root of a serialized document is one block, which starts with a lookup. *)
Lemma root_solo c sz ty v content X buf fuel p po :
  sane c -> document sz ty v content -> lim c (len (content ++ X)) -> (length content <= fuel)%nat ->
  exists sc, initFromContent c fuel (content ++ X) buf = Ok sc /\ solo (Parse_prog c fuel (content ++ X) buf p po sc).
Proof.
  intros Hsane Hdoc HL Hf.
  destruct (init_ok c sz ty v content X buf fuel Hsane Hdoc HL Hf)
    as (sc & body & fl & ks & info & Y & Hinit & (hd & Hhd & Hcont) & HY & Hw & Htot & Hfl & Hinfo & Hmp & Hans & Hlb).
  exists sc. split; [exact Hinit|]. unfold Parse_prog. set (E := doc_env c (content ++ X) buf sc).
  destruct (po_type po); [apply nopar_solo, normal_nopar|].
  destruct (sc_need_to_split sc) eqn:Hsp; [|apply nopar_solo, normal_nopar].
  destruct (ModelParse.b_map E) eqn:Hb; [|now apply noget_solo, coro_noget].
  (* REPLACE, split *)
  rewrite <- Hfl in Hw. clear Hsp Hfl fl.
  assert (Hty : ty = REPLACE).
  { destruct ty; [|reflexivity]. exfalso. unfold E in Hb; cbn in Hb. destruct Hmp as [_ Hmp]. rewrite Hmp in Hb by reflexivity. discriminate. }
  subst ty. unfold CoroParse_prog.
  inversion Hw as [| |l0 id chunks fl L1 L2 HF HS]. subst l0 fl body.
  destruct HS as (groups & -> & HT & Hne & HF1 & _).
  assert (Hg : exists ch, groups = [[ch]] /\ entry_wire (dict_of REPLACE ks) (table_of info) sz (root_key, v) ch).
  { inversion HF as [|e ch l1 l2 He HF' E1 E2]. subst. inversion HF'; subst.
    destruct groups as [|g groups]; [congruence|]. inversion HF1 as [|? ? Hg1 Hg2]; subst.
    destruct g as [|ch' g]; [congruence|]. cbn in E2. injection E2 as -> Hc. symmetry in Hc. apply app_eq_nil in Hc as [-> Hc].
    destruct groups as [|g groups]; [|inversion Hg2; subst; destruct g; [congruence|discriminate]].
    exists ch'. split; [reflexivity|exact He]. }
  destruct Hg as (ch & -> & (kb & f1 & b1 & Hk & Hwb & Hch)). cbn [concat app] in *. rewrite app_nil_r in *.
  inversion Hk as [|d kid s Hkid Hd E1 E2 E3]; subst. clear Hk.
  destruct fuel as [|f]; [pose proof (f_equal (@length byte) Hcont) as HX; rewrite !app_length in HX; cbn in HX; rewrite ?app_length in *; lia|].
  set (ch := venc kid ++ tag v f1 :: b1) in *.
  assert (Hlen : len (content ++ X) < W32) by now apply lim_W32 in HL.
  assert (Hlhd : len hd = 10) by (unfold len; now rewrite Hhd).
  assert (Hsz : len [(root_key, v)] = 1) by reflexivity.
  assert (HC : r_content (b_env E) = hd ++ (venc 1 ++ venc id ++ ch) ++ Y) by exact Hcont.
  set (look := fun _ : N => @UB view).
  assert (Hbm : ModelParse.b_map E = match dict_of REPLACE ks with Some _ => true | None => false end) by exact Hb.
  destruct (head_ok E (sc_split sc) look (dict_of REPLACE ks) (fun _ => None) eq_refl eq_refl HL Hbm ltac:(discriminate) hd 1 id ch Y) as (P1 & P2 & HC');
    [exact HC|reflexivity|exact L2|].
  rewrite ParseMap_S. cbv zeta. unfold meta_size. rewrite Hlhd in P1. unfold at_ in P1 at 1. rewrite P1. cbn [lift pbind].
  rewrite P2. cbn [lift pbind]. rewrite u32_small by exact L2.
  assert (HB : GetBlockInfoFromId (sc_split sc) id = Ok [len ch]).
  { unfold GetBlockInfoFromId. unfold table_of in HT. rewrite HT. cbn [map]. unfold block_size. cbn [concat]. now rewrite app_nil_r. }
  rewrite HB. cbn [lift pbind]. set (A' := (hd ++ venc 1) ++ venc id) in *. cbn [idx at_ ranges].
  assert (Hsmall : len A' + len ch < W32).
  { change (r_content (b_env E)) with (content ++ X) in HC'. rewrite HC', (len_app A'), (len_app ch) in Hlen. lia. }
  assert (HW : W32 < W64) by reflexivity.
  rewrite u64_small by lia.
  assert (Hpl : parseLength (b_env E) (at_ (len A')) = Ok (kid, at_ (len (A' ++ venc kid)))).
  { rewrite (pl E look) with (n := kid) (B := tag v f1 :: b1 ++ Y); auto.
    - now rewrite len_app.
    - rewrite HC'. unfold ch. rewrite <- !app_assoc. reflexivity.
    - lia. }
  assert (Hch0 : 0 < len ch).
  { unfold ch. rewrite len_app, len_cons. lia. }
  destruct f as [|f].
  { exfalso. rewrite !app_length in Hlb. cbn [length] in Hlb. pose proof (venc_pos_nat (len [(root_key, v)])). lia. }
  assert (Hkey : forall A (k : view * rstate -> prog A), exists id' k', pbind (block_key E {| idx := len A'; off := len A' |}) k = PGetStr id' k').
  { intros A k. unfold block_key. rewrite Hb. change {| idx := len A'; off := len A' |} with (at_ (len A')). rewrite Hpl. cbn. eauto. }
  assert (Hlt : len A' <? len A' + len ch = true) by lia.
  destruct (po_ref po); cbn [pbind map fst snd]; right.
  - split.
    + rewrite ParseMapViewBlock_S. cbn [off]. rewrite Hlt. match goal with |- solo (pbind _ ?k) => destruct (Hkey _ k) as (i & k' & ->) end. exact I.
    + intros rs. destruct (merge_all _ _ _) as [[items size]| | | |]; cbn; try exact I. destruct (MapView_take _ _ _); exact I.
  - split.
    + rewrite ParseMapBlock_S. cbn [off]. rewrite Hlt. match goal with |- solo (pbind _ ?k) => destruct (Hkey _ k) as (i & k' & ->) end. exact I.
    + intros rs. destruct (merge_all _ _ _) as [[items size]| | | |]; cbn; exact I.
Qed.

(** ** The properties *)

(** A computation that builds the table while it is alone: every schedule computes
    what the sequential meaning computes. *)
Lemma solo_schedules A look (p : prog A) r : solo p -> run look p = r -> is_hard r = false ->
  (forall sh t, csteps look Fresh (TRun p) sh t ->
     crashes t = false /\
     (t = TRun (match r with Ok a => PRet a | Throw e => PFail (FThrow e) | _ => PFail FUB end) \/
      exists sh' t', cstep look sh t sh' t')).
Proof.
  intros Hs Hr Hh sh t Hst. destruct (table_ok_steps look A p sh t Hs Hst) as [_ Hm]. rewrite Hr in Hm.
  assert (Hc : crashes t = false).
  { destruct (crashes t) eqn:Hc; [|reflexivity]. apply (crashes_hard look) in Hc. congruence. }
  split; [exact Hc|]. destruct (progress look A t Hc) as [Hd|Hstep]; [left|right; auto].
  destruct t as [[a|[e| | |]|id k|ts k]|id k|ts k]; try discriminate; cbn in Hm; rewrite <- Hm; reflexivity.
Qed.

(** No schedule is infinite. *)
Definition infinite {A} look (t0 : tree A) (f : nat -> shared * tree A) : Prop :=
  f 0%nat = (Fresh, t0) /\ forall n, cstep look (fst (f n)) (snd (f n)) (fst (f (S n))) (snd (f (S n))).

Lemma no_infinite A look (p : prog A) f : ~ infinite look (TRun p) f.
Proof.
  intros [H0 H]. apply (acc_no_infinite (smaller look) (fun n => snd (f n))).
  - rewrite H0. apply acc_run.
  - intros n. eexists; eexists; apply H.
Qed.

(** C07.  Parsing a serialized document (followed by any bytes [X]): whatever the
    executor does, no task crashes, as long as the parse has not returned some task
    can run, no schedule goes on for ever, and what is returned is the same object. *)
Theorem C07_schedule_independent : forall cs cp mem ty p o v content X buf fuel p' po,
  sane cs -> sane cp -> denotes mem o v -> (po_ref po = true -> no_custom v) ->
  Serialize cs mem ty p o = Ok content -> fits cp (content ++ X) -> (length content <= fuel)%nat ->
  exists sc o',
    initFromContent cp fuel (content ++ X) buf = Ok sc /\
    Parse cp fuel (content ++ X) buf p' po = Ok o' /\
    let start := TRun (Parse_prog cp fuel (content ++ X) buf p' po sc) in
    let look := getter cp (sc_map sc) in
    (forall sh t, csteps look Fresh start sh t ->
       crashes t = false /\ (t = TRun (PRet o') \/ exists sh' t', cstep look sh t sh' t')) /\
    (forall f, ~ infinite look start f).
Proof.
  intros cs cp mem ty p o v content X buf fuel p' po Hcs Hcp Hd Hnc Hs Hf Hfuel.
  destruct (transport cs cp mem ty p o v content X buf fuel p' po) as (o' & v' & HP & _); auto.
  destruct (Serialize_document cs mem ty p o v Hcs Hd) as (content' & Hs' & Hdoc).
  rewrite Hs in Hs'. injection Hs' as <-.
  assert (HW : len content < W32). { assert (HL : lim cp (len (content ++ X))) by exact Hf. apply lim_W32 in HL. rewrite len_app in HL. lia. }
  destruct (root_solo cp _ ty v content X buf fuel p' po Hcp (Hdoc HW) Hf Hfuel) as (sc & Hinit & Hsolo).
  exists sc, o'. split; [exact Hinit|]. split; [exact HP|]. cbv zeta. split; [|intros f; apply no_infinite].
  unfold Parse in HP. rewrite Hinit in HP. cbn [obind] in HP.
  intros sh t Hst. exact (solo_schedules _ _ _ (Ok o') Hsolo HP eq_refl sh t Hst).
Qed.

(** C08.  While the table is not complete, a task that is in [GetStr] or about to
    call it is the only one that can run; so the table is written by one task, and
    no other task can reach it before it is complete. *)
Theorem C08_no_race : forall cs cp mem ty p o v content X buf fuel p' po,
  sane cs -> sane cp -> denotes mem o v ->
  Serialize cs mem ty p o = Ok content -> fits cp (content ++ X) -> (length content <= fuel)%nat ->
  exists sc,
    initFromContent cp fuel (content ++ X) buf = Ok sc /\
    forall sh t, csteps (getter cp (sc_map sc)) Fresh (TRun (Parse_prog cp fuel (content ++ X) buf p' po sc)) sh t ->
      sh <> Ready -> in_getstr t <> 0%nat -> active t = 1%nat.
Proof.
  intros cs cp mem ty p o v content X buf fuel p' po Hcs Hcp Hd Hs Hf Hfuel.
  destruct (Serialize_document cs mem ty p o v Hcs Hd) as (content' & Hs' & Hdoc).
  rewrite Hs in Hs'. injection Hs' as <-.
  assert (HW : len content < W32). { assert (HL : lim cp (len (content ++ X))) by exact Hf. apply lim_W32 in HL. rewrite len_app in HL. lia. }
  destruct (root_solo cp _ ty v content X buf fuel p' po Hcp (Hdoc HW) Hf Hfuel) as (sc & Hinit & Hsolo).
  exists sc. split; [exact Hinit|]. intros sh t Hst Hsh Hn.
  destruct (table_ok_steps _ _ _ _ _ Hsolo Hst) as [Ht _]. destruct sh; cbn [table_ok] in Ht.
  - now apply tsolo_count.
  - now apply one_builder_count.
  - congruence.
Qed.

(** An executable scheduler, for examples: child number [n] (from the left, among
    those that have not finished, at every level) makes a step; when none can, the innermost join happens. *)
Fixpoint fin_list (ts : list (tree block)) : option (list (outcome block)) :=
  match ts with
  | [] => Some []
  | t :: ts' => match finished t, fin_list ts' with Some r, Some rs => Some (r :: rs) | _, _ => None end
  end.
Lemma fin_list_ok ts rs : fin_list ts = Some rs -> map finished ts = map Some rs.
Proof.
  revert rs. induction ts as [|t ts IH]; cbn; intros rs H; [injection H as <-; reflexivity|].
  destruct (finished t) eqn:Ht; [|discriminate]. destruct (fin_list ts); [|discriminate]. injection H as <-. cbn. now rewrite (IH _ eq_refl).
Qed.

Section Pick.
  Variable f : tree block -> option (shared * tree block).
  Fixpoint pick (n : nat) (l : list (tree block)) : option (shared * list (tree block)) :=
    match l with
    | [] => None
    | x :: l' =>
        match finished x, n with
        | None, O => match f x with Some (sh', x') => Some (sh', x' :: l') | None => None end
        | None, S m => match pick m l' with Some (sh', r) => Some (sh', x :: r) | None => None end
        | Some _, _ => match pick n l' with Some (sh', r) => Some (sh', x :: r) | None => None end
        end
    end.
  Lemma pick_ok l : forall n sh2 r, pick n l = Some (sh2, r) ->
    exists l1 x l2 x', l = l1 ++ x :: l2 /\ r = l1 ++ x' :: l2 /\ In x l /\ f x = Some (sh2, x').
  Proof.
    induction l as [|x l IH]; intros n sh2 r H; [discriminate|]. cbn in H.
    assert (Hrec : forall m sh3 r3, pick m l = Some (sh3, r3) -> exists l1 y l2 y', x :: l = l1 ++ y :: l2 /\ x :: r3 = l1 ++ y' :: l2 /\ In y (x :: l) /\ f y = Some (sh3, y')).
    { intros m sh3 r3 Hm. destruct (IH _ _ _ Hm) as (l1 & y & l2 & y' & -> & -> & Hin & Hf). exists (x :: l1), y, l2, y'. cbn; auto. }
    destruct (finished x).
    - destruct (pick n l) as [[sh3 r3]|] eqn:Hp; [|discriminate]. injection H as <- <-. eauto.
    - destruct n as [|m].
      + destruct (f x) as [[sh3 x3]|] eqn:Hf; [|discriminate]. injection H as <- <-. exists [], x, l, x3. cbn; auto.
      + destruct (pick m l) as [[sh3 r3]|] eqn:Hp; [|discriminate]. injection H as <- <-. eauto.
  Qed.
End Pick.

Fixpoint next {A} (look : N -> outcome view) (n : nat) (sh : shared) (t : tree A) {struct t} : option (shared * tree A) :=
  match t with
  | TRun (PRet _) | TRun (PFail _) => None
  | TRun (PGetStr id k) =>
      match sh with
      | Fresh => Some (Building, TBuild id k)
      | Building => Some (Building, TRun (PFail FUB))
      | Ready => Some (Ready, TRun (answer (look id) k))
      end
  | TRun (PPar ts k) => Some (sh, TWait (map TRun ts) k)
  | TBuild id k => Some (Ready, TRun (answer (look id) k))
  | TWait ts k =>
      match fin_list ts with
      | Some rs => Some (sh, TRun (k rs))
      | None => match pick (fun x => next look n sh x) n ts with Some (sh', ts') => Some (sh', TWait ts' k) | None => None end
      end
  end.

Lemma next_ok look A (t : tree A) : forall n sh sh' t', next look n sh t = Some (sh', t') -> cstep look sh t sh' t'.
Proof.
  induction t as [A p|A id k|A ts k IH] using tree_ind'; intros n sh sh' t' H.
  - destruct p as [a|f|id k|ts k]; cbn in H; try discriminate.
    + destruct sh; injection H as <- <-; constructor.
    + injection H as <- <-. constructor.
  - cbn in H. injection H as <- <-. constructor.
  - cbn [next] in H. destruct (fin_list ts) as [rs|] eqn:Hr.
    + injection H as <- <-. constructor. now apply fin_list_ok.
    + destruct (pick (fun x => next look n sh x) n ts) as [[sh3 ts']|] eqn:He; [|discriminate].
      injection H as <- <-. destruct (pick_ok _ _ _ _ _ He) as (l1 & x & l2 & x' & -> & -> & Hin & Hx). constructor.
      rewrite Forall_forall in IH. eapply IH; [|exact Hx]. apply in_app_iff. cbn; auto.
Qed.

(** [play ns]: the scheduler makes the choices [ns]. *)
Fixpoint play {A} (look : N -> outcome view) (ns : list nat) (sh : shared) (t : tree A) : option (shared * tree A) :=
  match ns with
  | [] => Some (sh, t)
  | n :: ns' => match next look n sh t with Some (sh', t') => play look ns' sh' t' | None => None end
  end.
Lemma play_ok look A ns : forall sh0 (t0 : tree A) sh t sh' t', csteps look sh0 t0 sh t -> play look ns sh t = Some (sh', t') -> csteps look sh0 t0 sh' t'.
Proof.
  induction ns as [|n ns IH]; intros sh0 t0 sh t sh' t' H0 H; cbn in H; [now injection H as <- <-|].
  destruct (next look n sh t) as [[sh1 t1]|] eqn:Hn; [|discriminate]. apply next_ok in Hn. eapply IH; [|exact H]. econstructor; eauto.
Qed.

(** The sample document, parsed in parallel: three tasks run at the same time. *)
Definition par_copy : ParseOption := {| po_type := Coroutine; po_ref := false |}.
Example C07_C08_met : exists sc o' sh t t',
  initFromContent tiny 200 (sample_doc tiny REPLACE) 7 = Ok sc /\
  Parse tiny 200 (sample_doc tiny REPLACE) 7 p1 par_copy = Ok o' /\
  csteps (getter tiny (sc_map sc)) Fresh (TRun (Parse_prog tiny 200 (sample_doc tiny REPLACE) 7 p1 par_copy sc)) sh t /\
  active t = 3%nat /\ in_getstr t = 3%nat /\
  csteps (getter tiny (sc_map sc)) Fresh (TRun (Parse_prog tiny 200 (sample_doc tiny REPLACE) 7 p1 par_copy sc)) Ready t' /\
  t' = TRun (PRet o').
Proof.
  destruct (C07_schedule_independent tiny tiny no_mem REPLACE p0 sample sample_value (sample_doc tiny REPLACE) [] 7%nat 200%nat p1 par_copy)
    as (sc & o' & Hi & HP & Hall & _).
  - apply tiny_sane.
  - apply tiny_sane.
  - apply sample_denotes.
  - discriminate.
  - apply sample_serialized. cbn; tauto.
  - vm_compute. reflexivity.
  - apply sample_doc_small. cbn; tauto.
  - rewrite app_nil_r in *.
    set (look := getter tiny (sc_map sc)) in *.
    set (t0 := TRun (Parse_prog tiny 200 (sample_doc tiny REPLACE) 7 p1 par_copy sc)) in *.
    assert (Hsc : initFromContent tiny 200 (sample_doc tiny REPLACE) 7 = Ok sc) by exact Hi.
    assert (H4 : exists sh t, play look (repeat 0%nat 4) Fresh t0 = Some (sh, t) /\ active t = 3%nat /\ in_getstr t = 3%nat).
    { assert (Hx : match play look (repeat 0%nat 4) Fresh t0 with Some (sh, t) => (active t =? 3)%nat && (in_getstr t =? 3)%nat | None => false end = true).
      { subst look t0. clear -Hi. vm_compute in Hi. injection Hi as Hi. subst sc. vm_compute. reflexivity. }
      destruct (play look (repeat 0%nat 4) Fresh t0) as [[sh t]|]; [|discriminate Hx]. apply andb_prop in Hx as [H1 H2].
      apply Nat.eqb_eq in H1, H2. exists sh, t. auto. }
    assert (H18 : exists t, play look (repeat 0%nat 18) Fresh t0 = Some (Ready, t) /\ done t = true).
    { assert (Hx : match play look (repeat 0%nat 18) Fresh t0 with Some (Ready, t) => done t | _ => false end = true).
      { subst look t0. clear -Hi. vm_compute in Hi. injection Hi as Hi. subst sc. vm_compute. reflexivity. }
      destruct (play look (repeat 0%nat 18) Fresh t0) as [[[| |] t]|]; try discriminate Hx. exists t. auto. }
    destruct H4 as (sh & t & Hp & Ha & Hg). destruct H18 as (t' & Hp' & Hd).
    pose proof (play_ok look _ _ _ t0 _ _ _ _ (cs_refl look Fresh t0) Hp) as Hp2. pose proof (play_ok look _ _ _ t0 _ _ _ _ (cs_refl look Fresh t0) Hp') as Hp2'.
    exists sc, o', sh, t, t'. do 6 (split; [assumption|]).
    destruct (Hall _ _ Hp2') as [_ [H|(sh1 & t1 & St)]]; [exact H|]. exfalso. apply cstep_inv in St. clear -Hd St. destruct t' as [[]| |]; try discriminate Hd; contradiction.
Qed.

(** C57 for arbitrary input is false: here is a document, not produced by
    [Serialize], whose root map has two blocks.  Sequentially it parses; in parallel
    one schedule reads the table while it is being filled. *)
Definition racy_chunk : bytes := map n2b [0; ObjectTypeToChar TData; BRIDGE_STRING; 0].
Definition racy_body : bytes := venc 2 ++ venc 1 ++ racy_chunk ++ racy_chunk.
Definition racy_doc : bytes :=
  be_bytes 8 (10 + len racy_body) ++ [n2b (SeriTypeToChar REPLACE)] ++ [n2b 10] ++ racy_body ++
  section (dict_bytes [(root_key, 0)]) ++ section (split_bytes [(1, [4; 4])]).

Theorem C57_any_input_race_free_refuted :
  exists c content buf fuel p po sc o sh t,
    sane c /\ fits c content /\ initFromContent c fuel content buf = Ok sc /\
    Parse c fuel content buf p po = Ok o /\
    csteps (getter c (sc_map sc)) Fresh (TRun (Parse_prog c fuel content buf p po sc)) sh t /\
    crashes t = true.
Proof.
  destruct (initFromContent tiny 200 racy_doc 7) as [sc| | | |] eqn:Hi; try (vm_compute in Hi; discriminate Hi).
  destruct (Parse tiny 200 racy_doc 7 p1 par_copy) as [o| | | |] eqn:HP; try (clear Hi; vm_compute in HP; discriminate HP).
  assert (H4 : exists sh t, play (getter tiny (sc_map sc)) [0; 0; 1]%nat Fresh (TRun (Parse_prog tiny 200 racy_doc 7 p1 par_copy sc)) = Some (sh, t) /\ crashes t = true).
  { match goal with |- exists sh t, ?pl = _ /\ _ => assert (Hx : match pl with Some (sh, t) => crashes t | None => false end = true) end.
    { clear -Hi. vm_compute in Hi. injection Hi as Hi. subst sc. vm_compute. reflexivity. }
    destruct (play _ _ _ _) as [[sh t]|]; [|discriminate Hx]. exists sh, t. auto. }
  destruct H4 as (sh & t & Hp & Hc). pose proof (play_ok _ _ _ Fresh _ _ _ _ _ (cs_refl _ _ _) Hp) as Hp2.
  exists tiny, racy_doc, 7%nat, 200%nat, p1, par_copy, sc, o, sh, t.
  split; [apply tiny_sane|]. split; [vm_compute; reflexivity|]. do 3 (split; [assumption|]). exact Hc.
Qed.

(** What holds of arbitrary bytes: without a dictionary, or when the root is not
    marked as split, or with the Normal scheduler, there is no race, and every
    schedule does what the sequential execution does. *)
Theorem C57_no_dictionary_race_free_partial : forall c content buf fuel p po sc,
  initFromContent c fuel content buf = Ok sc ->
  po_type po = Normal \/ sc_need_to_split sc = false \/ sc_map sc = None ->
  let start := TRun (Parse_prog c fuel content buf p po sc) in
  let look := getter c (sc_map sc) in
  (forall sh t, csteps look Fresh start sh t -> sh <> Ready -> in_getstr t <> 0%nat -> active t = 1%nat) /\
  (forall f, ~ infinite look start f) /\
  (forall sh t o, csteps look Fresh start sh t -> t = TRun (PRet o) -> Parse c fuel content buf p po = Ok o) /\
  (forall sh t e, csteps look Fresh start sh t -> t = TRun (PFail (FThrow e)) -> Parse c fuel content buf p po = Throw e) /\
  (forall r, Parse c fuel content buf p po = r -> (exists o, r = Ok o) \/ (exists e, r = Throw e) ->
     forall sh t, csteps look Fresh start sh t ->
       crashes t = false /\ (done t = true \/ exists sh' t', cstep look sh t sh' t')).
Proof.
  intros c content buf fuel p po sc Hi Hcase start look.
  assert (Hsolo : solo (Parse_prog c fuel content buf p po sc)).
  { unfold Parse_prog. destruct (po_type po) eqn:Hpt; [apply nopar_solo, normal_nopar|].
    destruct (sc_need_to_split sc) eqn:Hsp; [|apply nopar_solo, normal_nopar].
    destruct Hcase as [|[|Hm]]; try discriminate. apply noget_solo, coro_noget. cbn. now rewrite Hm. }
  assert (HP : Parse c fuel content buf p po = run look (Parse_prog c fuel content buf p po sc)).
  { unfold Parse. now rewrite Hi. }
  split; [|split; [|split; [|split]]].
  - intros sh t Hst Hsh Hn. destruct (table_ok_steps _ _ _ _ _ Hsolo Hst) as [Ht _]. destruct sh; cbn [table_ok] in Ht.
    + now apply tsolo_count.
    + now apply one_builder_count.
    + congruence.
  - intros f. apply no_infinite.
  - intros sh t o Hst ->. destruct (table_ok_steps _ _ _ _ _ Hsolo Hst) as [_ Hm]. rewrite HP, <- Hm. reflexivity.
  - intros sh t e Hst ->. destruct (table_ok_steps _ _ _ _ _ Hsolo Hst) as [_ Hm]. rewrite HP, <- Hm. reflexivity.
  - intros r Hr Hok sh t Hst. rewrite HP in Hr. destruct (solo_schedules _ look _ r Hsolo Hr) with (sh := sh) (t := t) as [Hc Hor]; auto.
    + destruct Hok as [[? ->]|[? ->]]; reflexivity.
    + split; [exact Hc|]. destruct Hor as [-> |Hs]; [left|right; exact Hs]. destruct Hok as [[? ->]|[? ->]]; reflexivity.
Qed.

Example C57_met : exists sc o, initFromContent tiny 200 (sample_doc tiny NORMAL) 7 = Ok sc /\ sc_need_to_split sc = true /\
  sc_map sc = None /\ Parse tiny 200 (sample_doc tiny NORMAL) 7 p1 par_copy = Ok o.
Proof. eexists; eexists; vm_compute; repeat split. Qed.
