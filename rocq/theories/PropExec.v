(** * Properties C68, C69: the parallel parse comes to an end on its executor. *)
From Verif Require Import Base BaseLemmas ModelVarint ModelData ModelSecondary ModelObject
  ModelParse ModelWrapper Spec SpecApi VarintProofs Wire NumProofs DocProofs ObjInd
  ParseLemmas NormalProofs SecondaryProofs ValueProofs ParaProofs RoundTrip GeneralProofs ApiProofs EndianProofs Samples
  PropRoundTrip ModelConcurrent PropConcurrent ModelExec.
From Coq Require Import ZifyBool ZifyNat ZifyN Wellfounded.Transitive_Closure Relations.Relation_Operators.

Fixpoint etree_ind' (P : forall A, etree A -> Prop)
  (H1 : forall A p, P A (EQueued p)) (H2 : forall A p, P A (ERun p)) (H3 : forall A id k, P A (EBuild id k))
  (H4 : forall A ts k, Forall (P block) ts -> P A (EWait ts k)) (H5 : forall A r, P A (EDone r))
  A (t : etree A) {struct t} : P A t :=
  match t with
  | EQueued p => H1 A p
  | ERun p => H2 A p
  | EBuild id k => H3 A id k
  | EWait ts k => H4 A ts k
      ((fix go (l : list (etree block)) : Forall (P block) l :=
          match l with [] => Forall_nil _ | x :: l' => Forall_cons _ (etree_ind' P H1 H2 H3 H4 H5 block x) (go l') end) ts)
  | EDone r => H5 A r
  end.

(** ** Forgetting the executor *)
Fixpoint forget {A} (t : etree A) : tree A :=
  match t with
  | EQueued p | ERun p => TRun p
  | EBuild id k => TBuild id k
  | EWait ts k => TWait (map (fun x => forget x) ts) k
  | EDone r => TRun (lift r)
  end.

Fixpoint weight {A} (t : etree A) : nat :=
  match t with
  | EQueued _ => 2
  | ERun _ | EBuild _ _ => 1
  | EWait ts _ => list_sum (map (fun x => weight x) ts)
  | EDone _ => 0
  end.

Inductive cplus (look : N -> outcome view) {A} : shared -> tree A -> shared -> tree A -> Prop :=
| cp_one sh t sh' t' : cstep look sh t sh' t' -> cplus look sh t sh' t'
| cp_more sh t sh1 t1 sh2 t2 : cplus look sh t sh1 t1 -> cstep look sh1 t1 sh2 t2 -> cplus look sh t sh2 t2.

Lemma cplus_ctx look A l1 t l2 (k : list (outcome block) -> prog A) sh sh' t' :
  cplus look sh t sh' t' -> cplus look sh (TWait (l1 ++ t :: l2) k) sh' (TWait (l1 ++ t' :: l2) k).
Proof. induction 1; [apply cp_one; now constructor|eapply cp_more; [eassumption|now constructor]]. Qed.

Lemma csteps_cplus look A sh0 (t0 : tree A) sh t sh' t' :
  csteps look sh0 t0 sh t -> cplus look sh t sh' t' -> csteps look sh0 t0 sh' t'.
Proof.
  intros H H'. induction H' as [sh t sh' t' St|sh t sh1 t1 sh2 t2 Hp IH St]; [eapply cs_step; eassumption|].
  eapply cs_step; [exact (IH H)|exact St].
Qed.

Lemma result_lift A (p : prog A) r : result p = Some r -> lift r = p.
Proof. destruct p as [a|[e| | |]| |]; cbn; intros H; try discriminate H; injection H as <-; reflexivity. Qed.

Lemma finished_done rs : Forall (fun r => exists p : prog block, result p = Some r) rs ->
  map finished (map (fun x => forget x) (map EDone rs)) = map Some rs.
Proof.
  induction 1 as [|r rs (p & Hp) H IH]; cbn; [reflexivity|]. rewrite IH. f_equal.
  destruct p as [b|[e| | |]| |]; cbn in Hp; try discriminate Hp; injection Hp as <-; reflexivity.
Qed.

(** Results on record are values or exceptions; a suspended task has an unfinished child. *)
Definition is_done {A} (t : etree A) : bool := match t with EDone _ => true | _ => false end.
Fixpoint healthy {A} (t : etree A) : Prop :=
  match t with
  | EWait ts _ => fold_right and True (map (fun x => healthy x) ts) /\ existsb (fun x => negb (is_done x)) ts = true
  | EDone r => exists p, result p = Some r
  | _ => True
  end.

Lemma healthy_list (ts : list (etree block)) : fold_right and True (map (fun x => healthy x) ts) <-> Forall healthy ts.
Proof. induction ts; cbn; split; intros H; auto; [destruct H; constructor; tauto|inversion H; subst; tauto]. Qed.

Lemma not_done_iff (t : etree block) : (forall r, t <> EDone r) <-> is_done t = false.
Proof. destruct t; cbn; split; intros H; try reflexivity; try discriminate; try (intros; discriminate). now specialize (H r). Qed.

Lemma estep_healthy look ip fr A sh (t : etree A) sh' t' : estep look ip fr sh t sh' t' -> healthy t -> healthy t'.
Proof.
  induction 1 as [A p sh Hf|A id k|A id k sh|A id k|A id k|A t ts k sh|A k sh|A l1 t l2 k sh t' sh' St IH Hn|A l1 p r l2 k sh Hr (x & Hx & Hxn)|A p rs1 r rs2 k sh Hr|A p r sh Hr];
    intros H; cbn [healthy] in *; auto.
  - split; [|reflexivity]. apply healthy_list. apply Forall_map. apply Forall_forall. intros; exact I.
  - destruct H as [H _]. rewrite healthy_list in *. apply Forall_app in H as [H1 H2]. inversion H2; subst.
    split; [apply Forall_app; split; auto|]. apply not_done_iff in Hn. rewrite existsb_app. cbn. rewrite Hn. cbn. now rewrite Bool.orb_true_r.
  - destruct H as [H _]. rewrite healthy_list in *. apply Forall_app in H as [H1 H2]. inversion H2; subst.
    split; [apply Forall_app; split; [exact H1|constructor; [cbn; eauto|assumption]]|].
    apply existsb_exists. exists x. apply not_done_iff in Hxn. rewrite Hxn. split; [|reflexivity].
    apply in_app_or in Hx. apply in_or_app. cbn. tauto.
  - destruct ip; exact I.
  - eauto.
Qed.

Lemma list_sum_mid {X} (f : X -> nat) l1 x l2 : list_sum (map f (l1 ++ x :: l2)) = (list_sum (map f l1) + f x + list_sum (map f l2))%nat.
Proof. rewrite map_app, list_sum_app. cbn [map list_sum fold_right]. fold (list_sum (map f l2)). lia. Qed.

(** Every step of the executor is a step of the tasks, or moves a task forward. *)
Lemma estep_sim look ip fr A sh (t : etree A) sh' t' : estep look ip fr sh t sh' t' -> healthy t ->
  (sh' = sh /\ forget t' = forget t /\ (weight t' < weight t)%nat) \/ cplus look sh (forget t) sh' (forget t').
Proof.
  induction 1 as [A p sh Hf|A id k|A id k sh|A id k|A id k|A t ts k sh|A k sh|A l1 t l2 k sh t' sh' St IH Hn|A l1 p r l2 k sh Hr Hx|A p rs1 r rs2 k sh Hr|A p r sh Hr];
    intros H; cbn [forget weight].
  - left. repeat split. lia.
  - right. apply cp_one. constructor.
  - right. apply cp_one. constructor.
  - right. apply cp_one. constructor.
  - right. apply cp_one. constructor.
  - right. apply cp_one. rewrite map_map. constructor.
  - right. eapply cp_more; [apply cp_one; constructor|]. now apply c_join with (rs := []).
  - cbn [healthy] in H. destruct H as [H _]. rewrite healthy_list in H. apply Forall_app in H as [_ H]. inversion H as [|? ? Ht _]; subst.
    destruct (IH Ht) as [(-> & Hfg & Hw)|Hc].
    + left. split; [reflexivity|]. rewrite !map_app. cbn [map]. rewrite Hfg. split; [reflexivity|].
      rewrite !list_sum_app. cbn [list_sum fold_right]. lia.
    + right. rewrite !map_app. cbn [map]. now apply cplus_ctx.
  - left. split; [reflexivity|]. rewrite !map_app. cbn [map forget]. rewrite (result_lift _ _ _ Hr). split; [reflexivity|].
    rewrite !list_sum_app. cbn. lia.
  - right. cbn [healthy] in H. destruct H as [H _]. rewrite healthy_list in H. apply Forall_app in H as [H1 H2]. inversion H2 as [|? ? _ H3]; subst.
    assert (G : forall rs, Forall healthy (map EDone rs) -> Forall (fun r => exists p : prog block, result p = Some r) rs).
    { clear. induction rs as [|r rs IH]; cbn; intros H; inversion H; subst; constructor; auto. }
    apply cp_one. replace (forget (if ip then _ else _)) with (TRun (k (rs1 ++ r :: rs2))) by now destruct ip.
    apply c_join. rewrite !map_app. cbn [map forget]. rewrite !finished_done by auto.
    f_equal. f_equal. destruct p as [b|[e| | |]| |]; cbn in Hr; try discriminate Hr; injection Hr as <-; reflexivity.
  - left. rewrite (result_lift _ _ _ Hr). repeat split. lia.
Qed.

(** ** At most n workers *)
Lemma estep_busy look ip fr A sh (t : etree A) sh' t' : estep look ip fr sh t sh' t' ->
  (busy t' <= busy t)%nat \/ (fr = true /\ busy t' = S (busy t)).
Proof.
  induction 1 as [A p sh Hf|A id k|A id k sh|A id k|A id k|A t ts k sh|A k sh|A l1 t l2 k sh t' sh' St IH Hn|A l1 p r l2 k sh Hr Hx|A p rs1 r rs2 k sh Hr|A p r sh Hr];
    cbn [busy]; auto.
  - left. cbn. rewrite map_map. cbn. clear. induction ts; cbn; [lia|exact IHts].
  - rewrite !list_sum_mid. destruct IH as [IH|[IH1 IH2]]; [left; lia|right; split; [exact IH1|lia]].
  - left. rewrite !list_sum_mid. cbn [busy]. lia.
  - left. rewrite list_sum_mid. destruct ip; cbn [busy]; lia.
Qed.

Lemma xsteps_busy look ip n A sh0 (t0 : etree A) sh t : xsteps look ip n sh0 t0 sh t -> (busy t0 <= n)%nat -> (busy t <= n)%nat.
Proof.
  induction 1 as [|sh t sh1 t1 sh2 t2 H IH St]; intros H0; [exact H0|]. specialize (IH H0). unfold xstep in St.
  apply estep_busy in St as [St|[Hf St]]; lia.
Qed.

(** ** Progress *)
Definition can_run {A} (fr : bool) (t : etree A) : Prop := (1 <= busy t)%nat \/ (fr = true /\ (1 <= waiting t)%nat).

Lemma list_sum_pos {X} (f : X -> nat) l : (1 <= list_sum (map f l))%nat -> exists l1 x l2, l = l1 ++ x :: l2 /\ (1 <= f x)%nat.
Proof.
  induction l as [|x l IH]; cbn; intros H; [lia|]. destruct (f x) eqn:Hx.
  - destruct IH as (l1 & y & l2 & -> & Hy); [exact H|]. exists (x :: l1), y, l2. auto.
  - exists [], x, l. split; [reflexivity|lia].
Qed.

Lemma all_done_map (l : list (etree block)) : existsb (fun x => negb (is_done x)) l = false -> exists rs, l = map EDone rs.
Proof.
  induction l as [|x l IH]; cbn; intros H; [now exists []|]. apply Bool.orb_false_iff in H as [H1 H2].
  destruct x; try discriminate H1. destruct (IH H2) as (rs & ->). now exists (r :: rs).
Qed.

Lemma estep_progress look ip fr A (t : etree A) : can_run fr t -> ecrashes t = false ->
  (exists p r, t = ERun p /\ result p = Some r) \/
  (forall sh, exists sh' t', estep look ip fr sh t sh' t' /\ is_done t' = false).
Proof.
  induction t as [A p|A p|A id k|A ts k IH|A r] using etree_ind'; intros Hr Hc.
  - right. intros sh. destruct Hr as [Hr|[Hr _]]; [cbn in Hr; lia|]. exists sh, (ERun p). split; [now constructor|reflexivity].
  - destruct p as [a|[e| | |]|id k|ts k]; try discriminate Hc.
    + left. now exists (PRet a), (Ok a).
    + left. now exists (PFail (FThrow e)), (Throw e).
    + right. intros [| |]; do 2 eexists; (split; [constructor|reflexivity]).
    + right. intros sh. destruct ts as [|t ts]; do 2 eexists; (split; [constructor|reflexivity]).
  - right. intros sh. do 2 eexists. split; [constructor|reflexivity].
  - right. intros sh.
    assert (G : exists l1 x l2, ts = l1 ++ x :: l2 /\ can_run fr x).
    { destruct Hr as [Hr|[Hf Hr]]; cbn in Hr; apply list_sum_pos in Hr as (l1 & x & l2 & -> & Hx);
        exists l1, x, l2; (split; [reflexivity|]); [now left|right; auto]. }
    destruct G as (l1 & x & l2 & -> & Hx). apply Forall_app in IH as [_ IH]. inversion IH as [|? ? IHx _]; subst.
    cbn [ecrashes] in Hc. rewrite existsb_app in Hc. cbn [existsb] in Hc. apply Bool.orb_false_iff in Hc as [_ Hc].
    apply Bool.orb_false_iff in Hc as [Hc _].
    destruct (IHx Hx Hc) as [(p & r & -> & Hp)|Hs].
    + destruct (existsb (fun x => negb (is_done x)) (l1 ++ l2)) eqn:He.
      * apply existsb_exists in He as (y & Hy & Hyn). exists sh, (EWait (l1 ++ EDone r :: l2) k). split; [|reflexivity].
        constructor; [exact Hp|]. exists y. split; [exact Hy|]. apply not_done_iff. now destruct (is_done y).
      * rewrite existsb_app in He. apply Bool.orb_false_iff in He as [He1 He2].
        apply all_done_map in He1 as (rs1 & ->). apply all_done_map in He2 as (rs2 & ->).
        exists sh, (if ip then ERun (k (rs1 ++ r :: rs2)) else EQueued (k (rs1 ++ r :: rs2))). split; [apply e_last; exact Hp|]. now destruct ip.
    + destruct (Hs sh) as (sh' & t' & St & Hd). exists sh', (EWait (l1 ++ t' :: l2) k). split; [|reflexivity].
      constructor; [exact St|]. now apply not_done_iff.
  - destruct Hr as [Hr|[_ Hr]]; cbn in Hr; lia.
Qed.

Lemma healthy_can_run A (t : etree A) : healthy t -> is_done t = false -> (1 <= busy t + waiting t)%nat.
Proof.
  induction t as [A p|A p|A id k|A ts k IH|A r] using etree_ind'; intros H Hd; cbn [busy waiting]; try lia; [|discriminate].
  cbn [healthy] in H. destruct H as [H1 H2]. rewrite healthy_list in H1. apply existsb_exists in H2 as (x & Hx & Hxn).
  apply in_split in Hx as (l1 & l2 & ->). rewrite Forall_app in *. destruct IH as [_ IH]. destruct H1 as [_ H1].
  inversion IH as [|? ? IHx _]; subst. inversion H1 as [|? ? Hxh _]; subst.
  assert (Hxn' : is_done x = false) by now destruct (is_done x). specialize (IHx Hxh Hxn').
  rewrite !list_sum_mid. lia.
Qed.

Lemma xstep_exists look ip n A sh (t : etree A) : (1 <= n)%nat -> healthy t -> ecrashes t = false -> is_done t = false ->
  exists sh' t', xstep look ip n sh t sh' t'.
Proof.
  intros Hn Hh Hc Hd. pose proof (healthy_can_run _ t Hh Hd) as Hr. unfold xstep.
  destruct (estep_progress look ip (busy t <? n)%nat A t) as [(p & r & -> & Hp)|Hs]; auto.
  - unfold can_run. destruct (busy t) eqn:Hb; [right; split; lia|left; lia].
  - exists sh, (EDone r). now constructor.
  - destruct (Hs sh) as (sh' & t' & St & _). eauto.
Qed.

Lemma ecrashes_forget A (t : etree A) : ecrashes t = true -> crashes (forget t) = true.
Proof.
  induction t as [A p|A p|A id k|A ts k IH|A r] using etree_ind'; cbn; try discriminate; auto.
  rewrite !existsb_exists. intros (x & Hx & Hc). exists (forget x). split; [now apply in_map with (f := fun x => forget x)|].
  rewrite Forall_forall in IH. auto.
Qed.

(** ** Runs *)
Lemma xsteps_sim look ip n A (p : prog A) sh t : xsteps look ip n Fresh (EQueued p) sh t ->
  healthy t /\ csteps look Fresh (TRun p) sh (forget t).
Proof.
  intros H. remember Fresh as sh0. remember (EQueued p) as t0. induction H as [|sh t sh1 t1 sh2 t2 H IH St]; subst.
  - split; [exact I|constructor].
  - destruct (IH eq_refl eq_refl) as [Hh Hc]. split; [eapply estep_healthy; eassumption|].
    destruct (estep_sim _ _ _ _ _ _ _ _ St Hh) as [(-> & Hf & _)|Hp]; [now rewrite Hf|]. eapply csteps_cplus; eassumption.
Qed.

Definition xinfinite {A} look ip n (t0 : etree A) (f : nat -> shared * etree A) : Prop :=
  f 0%nat = (Fresh, t0) /\ forall i, xstep look ip n (fst (f i)) (snd (f i)) (fst (f (S i))) (snd (f (S i))).

Lemma cplus_trans look A sh (t : tree A) sh' t' : cplus look sh t sh' t' -> clos_trans _ (smaller look) t' t.
Proof.
  induction 1 as [sh t sh' t' H|sh t sh1 t1 sh2 t2 H IH St].
  - apply t_step. now exists sh, sh'.
  - eapply t_trans; [apply t_step; exists sh1, sh2; exact St|exact IH].
Qed.

Lemma no_xinfinite look ip n A (p : prog A) f : ~ xinfinite look ip n (EQueued p) f.
Proof.
  intros [H0 H].
  assert (Hh : forall i, healthy (snd (f i))).
  { induction i as [|i IH]; [rewrite H0; exact I|]. eapply estep_healthy; [apply H|exact IH]. }
  assert (Ha : Acc (clos_trans _ (smaller look)) (forget (snd (f 0%nat)))).
  { rewrite H0. apply Acc_clos_trans, acc_run. }
  enough (G : forall T, Acc (clos_trans _ (smaller look)) T -> forall w i, forget (snd (f i)) = T -> (weight (snd (f i)) <= w)%nat -> False).
  { eapply G; [exact Ha|reflexivity|apply le_n]. }
  intros T HT. induction HT as [T _ IHT]. induction w as [|w IHw]; intros i HTi Hw;
    (destruct (estep_sim _ _ _ _ _ _ _ _ (H i) (Hh i)) as [(_ & Hf & Hl)|Hp];
     [|apply cplus_trans in Hp; rewrite HTi in Hp; exact (IHT _ Hp _ (S i) eq_refl (le_n _))]).
  - lia.
  - apply (IHw (S i)); [congruence|lia].
Qed.

(** What the executor makes of a computation that builds the table while it is alone. *)
Lemma solo_executes look ip n A (p : prog A) r : (1 <= n)%nat -> solo p -> run look p = r -> is_hard r = false ->
  (forall sh t, xsteps look ip n Fresh (EQueued p) sh t ->
     ecrashes t = false /\ (busy t <= n)%nat /\
     (forall r', t = EDone r' -> r' = r) /\
     (t = EDone r \/ exists sh' t', xstep look ip n sh t sh' t')).
Proof.
  intros Hn Hs Hr Hh sh t Hx. destruct (xsteps_sim _ _ _ _ _ _ _ Hx) as [Hhe Hc].
  destruct (solo_schedules A look p r Hs Hr Hh sh (forget t) Hc) as [Hcr Hd].
  assert (Hec : ecrashes t = false).
  { destruct (ecrashes t) eqn:He; [|reflexivity]. apply ecrashes_forget in He. congruence. }
  assert (Hun : forall r', t = EDone r' -> r' = r).
  { intros r' ->. destruct Hd as [Hd|(sh' & t' & St)].
    - cbn [forget] in Hd. injection Hd as Hd. destruct r; try discriminate Hh; destruct r'; cbn in Hd; try discriminate Hd; congruence.
    - cbn [forget] in St. apply cstep_inv in St. now destruct r'. }
  split; [exact Hec|]. split; [eapply xsteps_busy; [exact Hx|cbn; lia]|]. split; [exact Hun|].
  destruct (is_done t) eqn:Hdn; [|right; now apply xstep_exists].
  left. destruct t; try discriminate Hdn. f_equal. auto.
Qed.

(** C68.  A serialized document (followed by any bytes), at least one worker:
    whatever the pool picks next, at most [n] tasks run at a time, none crashes,
    some step is possible until the parse is done, it is done after finitely many
    steps, and then with the object the sequential meaning gives. *)
Theorem C68_parallel_parse_completes : forall cs cp mem ty p o v content X buf fuel p' ref n inplace,
  sane cs -> sane cp -> denotes mem o v -> (ref = true -> no_custom v) ->
  Serialize cs mem ty p o = Ok content -> fits cp (content ++ X) -> (length content <= fuel)%nat -> (1 <= n)%nat ->
  let po := {| po_type := Coroutine; po_ref := ref |} in
  exists sc o',
    initFromContent cp fuel (content ++ X) buf = Ok sc /\
    Parse cp fuel (content ++ X) buf p' po = Ok o' /\
    let start := EQueued (Parse_prog cp fuel (content ++ X) buf p' po sc) in
    let look := getter cp (sc_map sc) in
    (forall sh t, xsteps look inplace n Fresh start sh t ->
       ecrashes t = false /\ (busy t <= n)%nat /\
       (forall r, t = EDone r -> r = Ok o') /\
       (t = EDone (Ok o') \/ exists sh' t', xstep look inplace n sh t sh' t')) /\
    (forall f, ~ xinfinite look inplace n start f).
Proof.
  intros cs cp mem ty p o v content X buf fuel p' ref n ip Hcs Hcp Hd Hnc Hs Hf Hfuel Hn po.
  destruct (transport cs cp mem ty p o v content X buf fuel p' po) as (o' & v' & HP & _); auto.
  destruct (Serialize_document cs mem ty p o v Hcs Hd) as (content' & Hs' & Hdoc).
  rewrite Hs in Hs'. injection Hs' as <-.
  assert (HW : len content < W32). { assert (HL : lim cp (len (content ++ X))) by exact Hf. apply lim_W32 in HL. rewrite len_app in HL. lia. }
  destruct (root_solo cp _ ty v content X buf fuel p' po Hcp (Hdoc HW) Hf Hfuel) as (sc & Hinit & Hsolo).
  exists sc, o'. split; [exact Hinit|]. split; [exact HP|]. cbv zeta. split; [|intros f; apply no_xinfinite].
  unfold Parse in HP. rewrite Hinit in HP. cbn [obind] in HP.
  intros sh t Hst. exact (solo_executes _ ip n _ _ (Ok o') Hn Hsolo HP eq_refl sh t Hst).
Qed.

(** Arbitrary bytes without a dictionary: a parse that fails with an exception
    also comes to its end, with that exception. *)
Theorem C68_failing_parse_completes : forall c content buf fuel p ref sc n inplace r,
  let po := {| po_type := Coroutine; po_ref := ref |} in
  initFromContent c fuel content buf = Ok sc -> sc_map sc = None -> (1 <= n)%nat ->
  Parse c fuel content buf p po = r -> (exists o, r = Ok o) \/ (exists e, r = Throw e) ->
  let start := EQueued (Parse_prog c fuel content buf p po sc) in
  let look := getter c (sc_map sc) in
  (forall sh t, xsteps look inplace n Fresh start sh t ->
     ecrashes t = false /\ (busy t <= n)%nat /\ (forall r', t = EDone r' -> r' = r) /\
     (t = EDone r \/ exists sh' t', xstep look inplace n sh t sh' t')) /\
  (forall f, ~ xinfinite look inplace n start f).
Proof.
  intros c content buf fuel p ref sc n ip r po Hi Hm Hn HP Hr start look. split; [|intros f; apply no_xinfinite].
  apply solo_executes; auto.
  - unfold Parse_prog. cbn [po po_type]. destruct (sc_need_to_split sc) eqn:Hsp; [|apply nopar_solo, normal_nopar].
    apply noget_solo, coro_noget. cbn. now rewrite Hm.
  - unfold Parse in HP. rewrite Hi in HP. exact HP.
  - destruct Hr as [(o & ->)|(e & ->)]; reflexivity.
Qed.

(** C69.  [worker_num_ = 0] is accepted, and then the parse of a document with a split
    root never starts: the caller blocks for ever. *)
Theorem C69_zero_workers_refuted :
  exists c content buf fuel p sc o,
    sane c /\ Serialize c no_mem NORMAL p0 sample = Ok content /\
    initFromContent c fuel content buf = Ok sc /\ sc_need_to_split sc = true /\
    Parse c fuel content buf p par_copy = Ok o /\
    let start := EQueued (Parse_prog c fuel content buf p par_copy sc) in
    forall inplace sh' t', ~ xstep (getter c (sc_map sc)) inplace 0 Fresh start sh' t'.
Proof.
  exists tiny. eexists. exists 7%nat, 200%nat, p1. do 2 eexists.
  split; [apply tiny_sane|]. split; [vm_compute; reflexivity|].
  split; [vm_compute; reflexivity|]. split; [reflexivity|]. split; [vm_compute; reflexivity|].
  cbv zeta. intros ip sh' t' St. unfold xstep in St. inversion St. discriminate.
Qed.

(** What remains of C69: every positive number of workers will do, and the result
    does not depend on it. *)
Theorem C69_any_positive_number_partial : forall cs cp mem ty p o v content buf fuel p' ref,
  sane cs -> sane cp -> denotes mem o v -> (ref = true -> no_custom v) ->
  Serialize cs mem ty p o = Ok content -> fits cp content -> (length content <= fuel)%nat ->
  let po := {| po_type := Coroutine; po_ref := ref |} in
  exists sc o',
    initFromContent cp fuel content buf = Ok sc /\
    let start := EQueued (Parse_prog cp fuel content buf p' po sc) in
    let look := getter cp (sc_map sc) in
    forall n inplace, (1 <= n)%nat ->
      (forall sh t, xsteps look inplace n Fresh start sh t ->
         t = EDone (Ok o') \/ ((forall r, t <> EDone r) /\ exists sh' t', xstep look inplace n sh t sh' t')) /\
      (forall f, ~ xinfinite look inplace n start f).
Proof.
  intros cs cp mem ty p o v content buf fuel p' ref Hcs Hcp Hd Hnc Hs Hf Hfuel po.
  assert (G : forall n ip, (1 <= n)%nat -> _) by
    (intros n ip Hn; exact (C68_parallel_parse_completes cs cp mem ty p o v content [] buf fuel p' ref n ip
       Hcs Hcp Hd Hnc Hs ltac:(rewrite app_nil_r; exact Hf) Hfuel Hn)).
  destruct (G 1%nat true (le_n _)) as (sc & o' & Hi & HP & _). rewrite app_nil_r in *.
  exists sc, o'. split; [exact Hi|]. cbv zeta. intros n ip Hn.
  destruct (G n ip Hn) as (sc2 & o2 & Hi2 & HP2 & Hall & Hinf). cbv zeta in Hall, Hinf. fold po in HP, HP2, Hall, Hinf.
  rewrite Hi in Hi2. injection Hi2 as <-. rewrite HP in HP2. injection HP2 as <-.
  split; [|exact Hinf]. intros sh t Hx. destruct (Hall sh t Hx) as (_ & _ & Hun & [Hd'|Hst]); [now left|].
  destruct t as [q|q|id k|ts k|r]; try (right; split; [intros; discriminate|exact Hst]). left. f_equal. auto.
Qed.

(** ** An executable schedule, for the example: child number [n] (from the left,
    among those that are not done) moves. *)
Section EPick.
  Variable f : etree block -> option (shared * etree block).
  Fixpoint epick (n : nat) (l : list (etree block)) : option (shared * list (etree block)) :=
    match l with
    | [] => None
    | x :: l' =>
        match is_done x, n with
        | false, O => match f x with Some (sh', x') => Some (sh', x' :: l') | None => None end
        | false, S m =>
            match epick m l' with
            | Some (sh', r) => Some (sh', x :: r)
            | None => match f x with Some (sh', x') => Some (sh', x' :: l') | None => None end
            end
        | true, _ => match epick n l' with Some (sh', r) => Some (sh', x :: r) | None => None end
        end
    end.
  Lemma epick_ok l : forall n sh2 r, epick n l = Some (sh2, r) ->
    exists l1 x l2 x', l = l1 ++ x :: l2 /\ r = l1 ++ x' :: l2 /\ In x l /\ f x = Some (sh2, x').
  Proof.
    induction l as [|x l IH]; intros n sh2 r H; [discriminate|]. cbn in H.
    assert (Hrec : forall m sh3 r3, epick m l = Some (sh3, r3) -> exists l1 y l2 y', x :: l = l1 ++ y :: l2 /\ x :: r3 = l1 ++ y' :: l2 /\ In y (x :: l) /\ f y = Some (sh3, y')).
    { intros m sh3 r3 Hm. destruct (IH _ _ _ Hm) as (l1 & y & l2 & y' & -> & -> & Hin & Hf). exists (x :: l1), y, l2, y'. cbn; auto. }
    destruct (is_done x).
    - destruct (epick n l) as [[sh3 r3]|] eqn:Hp; [|discriminate]. injection H as <- <-. eauto.
    - destruct n as [|m].
      + destruct (f x) as [[sh3 x3]|] eqn:Hf; [|discriminate]. injection H as <- <-. exists [], x, l, x3. cbn; auto.
      + destruct (epick m l) as [[sh3 r3]|] eqn:Hp; [injection H as <- <-; eauto|].
        destruct (f x) as [[sh3 x3]|] eqn:Hf; [|discriminate]. injection H as <- <-. exists [], x, l, x3. cbn; auto.
  Qed.
End EPick.

Fixpoint done_list (ts : list (etree block)) : option (list (outcome block)) :=
  match ts with
  | [] => Some []
  | EDone r :: ts' => match done_list ts' with Some rs => Some (r :: rs) | None => None end
  | _ => None
  end.

Lemma done_list_ok ts rs : done_list ts = Some rs -> ts = map EDone rs.
Proof.
  revert rs. induction ts as [|[p|p|id k|ts' k|r] ts IH]; cbn; intros rs H; try discriminate H; [now injection H as <-|].
  destruct (done_list ts) as [rs'|]; [|discriminate H]. injection H as <-. cbn. now rewrite (IH _ eq_refl).
Qed.
Lemma done_list_none ts : done_list ts = None -> exists x, In x ts /\ forall r, x <> EDone r.
Proof.
  induction ts as [|x ts IH]; cbn; intros H; [discriminate H|].
  destruct x as [p|p|id k|ts' k|r];
    try (eexists; split; [now left|intros; discriminate]).
  destruct (done_list ts) eqn:Hd; [discriminate H|]. destruct (IH eq_refl) as (y & Hy & Hn). exists y. auto.
Qed.

Fixpoint enext {A} (look : N -> outcome view) (free : bool) (n : nat) (sh : shared) (t : etree A) {struct t} : option (shared * etree A) :=
  match t with
  | EQueued p => if free then Some (sh, ERun p) else None
  | ERun (PGetStr id k) =>
      match sh with
      | Fresh => Some (Building, EBuild id k)
      | Building => Some (Building, ERun (PFail FUB))
      | Ready => Some (Ready, ERun (answer (look id) k))
      end
  | ERun (PPar [] k) => Some (sh, ERun (k []))
  | ERun (PPar ts k) => Some (sh, EWait (map EQueued ts) k)
  | ERun p => match result p with Some r => Some (sh, EDone r) | None => None end
  | EBuild id k => Some (Ready, ERun (answer (look id) k))
  | EWait ts k =>
      match epick (fun x => enext look free n sh x) n ts with
      | Some (sh', ts') => match done_list ts' with Some rs => Some (sh', ERun (k rs)) | None => Some (sh', EWait ts' k) end
      | None => None
      end
  | EDone _ => None
  end.

Lemma enext_done look free n sh A (t : etree A) sh' r : enext look free n sh t = Some (sh', EDone r) ->
  exists p, t = ERun p /\ result p = Some r /\ sh' = sh.
Proof.
  destruct t as [p|p|id k|ts k|r0]; cbn; try discriminate.
  - now destruct free.
  - destruct p as [a|f|id k|[|t ts] k]; cbn; try discriminate.
    + intros [= <- <-]. exists (PRet a). auto.
    + destruct f; try discriminate. intros [= <- <-]. eexists. repeat split.
    + destruct sh; discriminate.
  - destruct (epick _ _ _) as [[s l]|]; [|discriminate]. destruct (done_list l); discriminate.
Qed.

Lemma enext_ok look free A (t : etree A) : forall n sh sh' t', enext look free n sh t = Some (sh', t') -> estep look true free sh t sh' t'.
Proof.
  induction t as [A p|A p|A id k|A ts k IH|A r] using etree_ind'; intros n sh sh' t' H.
  - cbn in H. destruct free eqn:Hf; [|discriminate]. injection H as <- <-. now constructor.
  - destruct p as [a|f|id k|[|t ts] k]; cbn in H; try discriminate.
    + injection H as <- <-. now constructor.
    + destruct f; try discriminate. injection H as <- <-. now constructor.
    + destruct sh; injection H as <- <-; constructor.
    + injection H as <- <-. constructor.
    + injection H as <- <-. constructor.
  - cbn in H. injection H as <- <-. constructor.
  - cbn [enext] in H. destruct (epick _ _ _) as [[sh3 ts']|] eqn:He; [|discriminate].
    destruct (epick_ok _ _ _ _ _ He) as (l1 & x & l2 & x' & -> & -> & Hin & Hx).
    rewrite Forall_forall in IH. pose proof (IH x Hin _ _ _ _ Hx) as St.
    destruct x' as [p'|p'|id' k'|ts' k'|r'].
    5:{ destruct (enext_done _ _ _ _ _ _ _ _ Hx) as (p & -> & Hp & ->).
        destruct (done_list (l1 ++ EDone r' :: l2)) as [rs|] eqn:Hd; injection H as <- <-.
        - apply done_list_ok in Hd.
          assert (G : exists rs1 rs2, l1 = map EDone rs1 /\ l2 = map EDone rs2 /\ rs = rs1 ++ r' :: rs2).
          { clear -Hd. revert rs Hd. induction l1 as [|y l1 IHl]; intros rs Hd; destruct rs as [|r0 rs]; cbn in Hd; try discriminate Hd.
            - injection Hd as -> Hd. exists [], rs. auto.
            - injection Hd as -> Hd. destruct (IHl _ Hd) as (rs1 & rs2 & -> & -> & ->). exists (r0 :: rs1), rs2. auto. }
          destruct G as (rs1 & rs2 & -> & -> & ->).
          exact (e_last look true free A p rs1 r' rs2 k sh Hp).
        - apply done_list_none in Hd as (y & Hy & Hn). constructor; [exact Hp|]. exists y. split; [|exact Hn].
          apply in_app_or in Hy. apply in_or_app. destruct Hy as [Hy|[Hy|Hy]]; auto. subst y. now specialize (Hn r'). }
    all: (match type of H with context [done_list ?l] => destruct (done_list l) as [rs|] eqn:Hd end;
      [apply done_list_ok in Hd; exfalso; clear -Hd; revert rs Hd; induction l1 as [|y l1 IHl]; intros [|r0 rs] Hd; cbn in Hd; try discriminate Hd; injection Hd as _ Hd; eauto|]);
      injection H as <- <-; (constructor; [exact St|intros; discriminate]).
  - discriminate H.
Qed.

Fixpoint eplay {A} (look : N -> outcome view) (w : nat) (ns : list nat) (sh : shared) (t : etree A) : option (shared * etree A) :=
  match ns with
  | [] => Some (sh, t)
  | n :: ns' => match enext look (busy t <? w)%nat n sh t with Some (sh', t') => eplay look w ns' sh' t' | None => None end
  end.
Lemma eplay_ok look w A ns : forall sh0 (t0 : etree A) sh t sh' t', xsteps look true w sh0 t0 sh t -> eplay look w ns sh t = Some (sh', t') -> xsteps look true w sh0 t0 sh' t'.
Proof.
  induction ns as [|n ns IH]; intros sh0 t0 sh t sh' t' H0 H; cbn in H; [now injection H as <- <-|].
  destruct (enext look _ n sh t) as [[sh1 t1]|] eqn:Hn; [|discriminate]. apply enext_ok in Hn. eapply IH; [|exact H]. econstructor; eauto.
Qed.

(** The sample document on two workers: both busy while a third task waits, and
    later done. *)
Definition c68_start sc := EQueued (Parse_prog tiny 200 (sample_doc tiny REPLACE) 7 p1 par_copy sc).

Example C68_met : exists sc o' sh t sh2,
  initFromContent tiny 200 (sample_doc tiny REPLACE) 7 = Ok sc /\ sc_need_to_split sc = true /\
  Parse tiny 200 (sample_doc tiny REPLACE) 7 p1 par_copy = Ok o' /\
  xsteps (getter tiny (sc_map sc)) true 2 Fresh (c68_start sc) sh t /\ busy t = 2%nat /\ waiting t = 1%nat /\
  xsteps (getter tiny (sc_map sc)) true 2 Fresh (c68_start sc) sh2 (EDone (Ok o')).
Proof.
  destruct (C68_parallel_parse_completes tiny tiny no_mem REPLACE p0 sample sample_value (sample_doc tiny REPLACE) [] 7%nat 200%nat p1 false 2%nat true)
    as (sc & o' & Hi & HP & Hall & _).
  - apply tiny_sane.
  - apply tiny_sane.
  - apply sample_denotes.
  - discriminate.
  - apply sample_serialized. cbn; tauto.
  - vm_compute. reflexivity.
  - apply sample_doc_small. cbn; tauto.
  - lia.
  - rewrite app_nil_r in *.
    set (look := getter tiny (sc_map sc)) in *.
    change (EQueued _) with (c68_start sc) in Hall.
    assert (H1 : exists sh t, eplay look 2 [0; 0; 0; 0; 0; 0; 0; 1]%nat Fresh (c68_start sc) = Some (sh, t) /\ busy t = 2%nat /\ waiting t = 1%nat).
    { assert (Hx : match eplay look 2 [0; 0; 0; 0; 0; 0; 0; 1]%nat Fresh (c68_start sc) with Some (sh, t) => (busy t =? 2)%nat && (waiting t =? 1)%nat | None => false end = true).
      { subst look. clear -Hi. vm_compute in Hi. injection Hi as Hi. subst sc. vm_compute. reflexivity. }
      destruct (eplay look 2 [0; 0; 0; 0; 0; 0; 0; 1]%nat Fresh (c68_start sc)) as [[sh t]|]; [|discriminate Hx]. apply andb_prop in Hx as [H1 H2].
      apply Nat.eqb_eq in H1, H2. exists sh, t. auto. }
    assert (H2 : exists sh t, eplay look 2 (repeat 0%nat 30) Fresh (c68_start sc) = Some (sh, t) /\ is_done t = true).
    { assert (Hx : match eplay look 2 (repeat 0%nat 30) Fresh (c68_start sc) with Some (sh, t) => is_done t | None => false end = true).
      { subst look. clear -Hi. vm_compute in Hi. injection Hi as Hi. subst sc. vm_compute. reflexivity. }
      destruct (eplay look 2 (repeat 0%nat 30) Fresh (c68_start sc)) as [[sh t]|]; [|discriminate Hx]. exists sh, t. auto. }
    destruct H1 as (sh & t & Hp & Hb & Hw). destruct H2 as (sh2 & t2 & Hp2 & Hd).
    pose proof (eplay_ok look 2 _ _ _ (c68_start sc) _ _ _ _ (xs_refl look true 2 Fresh (c68_start sc)) Hp) as Hp1.
    pose proof (eplay_ok look 2 _ _ _ (c68_start sc) _ _ _ _ (xs_refl look true 2 Fresh (c68_start sc)) Hp2) as Hp3.
    exists sc, o', sh, t, sh2. split; [exact Hi|]. split; [clear -Hi; vm_compute in Hi; injection Hi as <-; reflexivity|].
    split; [exact HP|]. do 3 (split; [assumption|]).
    destruct (Hall _ _ Hp3) as (_ & _ & Hun & _). destruct t2 as [| | | |r]; try discriminate Hd. now rewrite (Hun r eq_refl) in Hp3.
Qed.
