(** * Property C70: parallel parses sharing the thread pool. *)
From Verif Require Import Base BaseLemmas ModelVarint ModelData ModelSecondary ModelObject
  ModelParse ModelWrapper Spec SpecApi VarintProofs Wire NumProofs DocProofs ObjInd
  ParseLemmas NormalProofs SecondaryProofs ValueProofs ParaProofs RoundTrip GeneralProofs ApiProofs EndianProofs Samples
  PropRoundTrip ModelConcurrent PropConcurrent ModelExec PropExec.
From Coq Require Import ZifyBool ZifyNat ZifyN Wellfounded.Transitive_Closure Relations.Relation_Operators.

(** ** Specification: a call of Parse with the Coroutine scheduler *)
Record call := { c_cfg : cfg; c_content : bytes; c_buf : nat; c_fuel : nat; c_pool : pool; c_ref : bool }.
Definition c_po (j : call) := {| po_type := Coroutine; po_ref := c_ref j |}.

(** The bytes are a serialized document, possibly followed by others. *)
Definition serialized_call (j : call) : Prop :=
  exists cs mem ty p o v content X,
    sane cs /\ sane (c_cfg j) /\ denotes mem o v /\ (c_ref j = true -> no_custom v) /\
    Serialize cs mem ty p o = Ok content /\ c_content j = content ++ X /\
    fits (c_cfg j) (content ++ X) /\ (length content <= c_fuel j)%nat.

(** The state in which the call blocks in [syncAwait], its root task queued. *)
Definition enters (j : call) (s : parse_state) : Prop :=
  exists sc, initFromContent (c_cfg j) (c_fuel j) (c_content j) (c_buf j) = Ok sc /\
    s = (getter (c_cfg j) (sc_map sc), Fresh,
         EQueued (Parse_prog (c_cfg j) (c_fuel j) (c_content j) (c_buf j) (c_pool j) (c_po j) sc)).

(** What the call would return alone, sequentially. *)
Definition alone (j : call) : outcome obj := Parse (c_cfg j) (c_fuel j) (c_content j) (c_buf j) (c_pool j) (c_po j).

(** ** One parse among others: the number of free workers is up to the others *)
Inductive fsteps {A} (look : N -> outcome view) (ip : bool) : shared -> etree A -> shared -> etree A -> Prop :=
| fs_refl sh t : fsteps look ip sh t sh t
| fs_step sh t sh1 t1 sh2 t2 fr :
    fsteps look ip sh t sh1 t1 -> estep look ip fr sh1 t1 sh2 t2 -> fsteps look ip sh t sh2 t2.

Lemma fsteps_sim look ip A (p : prog A) sh t : fsteps look ip Fresh (EQueued p) sh t ->
  healthy t /\ csteps look Fresh (TRun p) sh (forget t).
Proof.
  intros H. remember Fresh as sh0. remember (EQueued p) as t0. induction H as [|sh t sh1 t1 sh2 t2 fr H IH St]; subst.
  - split; [exact I|constructor].
  - destruct (IH eq_refl eq_refl) as [Hh Hc]. split; [eapply estep_healthy; eassumption|].
    destruct (estep_sim _ _ _ _ _ _ _ _ St Hh) as [(-> & Hf & _)|Hp]; [now rewrite Hf|]. eapply csteps_cplus; eassumption.
Qed.

(** What we know of one parse: where it stands, and what it will return. *)
Definition on_track ip (r : outcome obj) (s : parse_state) : Prop :=
  exists p, solo p /\ run (fst (fst s)) p = r /\ is_hard r = false /\
    fsteps (fst (fst s)) ip Fresh (EQueued p) (snd (fst s)) (snd s).

Lemma on_track_facts ip r s : on_track ip r s ->
  healthy (snd s) /\ ecrashes (snd s) = false /\ (forall r', snd s = EDone r' -> r' = r).
Proof.
  destruct s as [[look sh] t]. intros (p & Hs & Hr & Hh & Hx). cbn [fst snd] in *.
  destruct (fsteps_sim _ _ _ _ _ _ Hx) as [Hhe Hc].
  destruct (solo_schedules _ look p r Hs Hr Hh sh (forget t) Hc) as [Hcr Hd].
  split; [exact Hhe|]. split.
  - destruct (ecrashes t) eqn:He; [|reflexivity]. apply ecrashes_forget in He. congruence.
  - intros r' ->. destruct Hd as [Hd|(sh' & t' & St)].
    + cbn [forget] in Hd. injection Hd as Hd. destruct r; try discriminate Hh; destruct r'; cbn in Hd; try discriminate Hd; congruence.
    + cbn [forget] in St. apply cstep_inv in St. now destruct r'.
Qed.

Lemma mstep_track ip n l l' rs : mstep ip n l l' -> Forall2 (on_track ip) rs l -> Forall2 (on_track ip) rs l'.
Proof.
  intros H. destruct H as [l1 look sh t l2 sh' t' St]. intros HF. apply Forall2_app_inv_r in HF as (r1 & r2 & H1 & H2 & ->).
  inversion H2 as [|r x r2' l2' Hx H2']; subst. apply Forall2_app; [exact H1|]. constructor; [|exact H2'].
  destruct Hx as (p & Hs & Hr & Hh & Hf). exists p. cbn [fst snd] in *. do 3 (split; [assumption|]). econstructor; eassumption.
Qed.

(** ** Every schedule ends *)
Definition later ip (s' s : parse_state) : Prop :=
  fst (fst s') = fst (fst s) /\ healthy (snd s) /\
  exists fr, estep (fst (fst s)) ip fr (snd (fst s)) (snd s) (snd (fst s')) (snd s').

Lemma acc_later ip look T : Acc (clos_trans _ (smaller look)) T ->
  forall w sh t, forget t = T -> (weight t <= w)%nat -> Acc (later ip) (look, sh, t).
Proof.
  intros HT. induction HT as [T _ IHT]. induction w as [|w IHw]; intros sh t HTi Hw; constructor;
    intros [[look' sh'] t'] (Hl & Hh & fr & St); cbn [fst snd] in *; subst look';
    (destruct (estep_sim _ _ _ _ _ _ _ _ St Hh) as [(_ & Hf & Hlt)|Hp];
     [|apply cplus_trans in Hp; rewrite HTi in Hp; exact (IHT _ Hp _ sh' t' eq_refl (le_n _))]).
  - lia.
  - apply IHw; [congruence|lia].
Qed.

Lemma acc_start ip look sh p : Acc (later ip) (look, sh, EQueued p).
Proof. eapply acc_later; [apply Acc_clos_trans, acc_run|reflexivity|apply le_n]. Qed.

Definition minfinite ip n (l0 : list parse_state) (f : nat -> list parse_state) : Prop :=
  f 0%nat = l0 /\ forall i, mstep ip n (f i) (f (S i)).

Lemma no_minfinite ip n l0 f : Forall (fun s => exists look p, s = (look, Fresh, EQueued p)) l0 -> ~ minfinite ip n l0 f.
Proof.
  intros HF [H0 H].
  assert (Hh : forall i, Forall (fun s => healthy (snd s)) (f i)).
  { induction i as [|i IH].
    - rewrite H0. eapply Forall_impl; [|exact HF]. intros s (look & p & ->). exact I.
    - specialize (H i). inversion H as [l1 look sh t l2 sh' t' St E1 E2]. rewrite <- E1 in IH.
      apply Forall_app in IH as [I1 I2]. inversion I2; subst. apply Forall_app. split; [assumption|]. constructor; [|assumption].
      eapply estep_healthy; eassumption. }
  assert (Ha : Forall (Acc (later ip)) l0).
  { eapply Forall_impl; [|exact HF]. intros s (look & p & ->). apply acc_start. }
  apply acc_list in Ha. rewrite <- H0 in Ha. eapply acc_no_infinite; [exact Ha|].
  intros i. cbn beta. specialize (H i). specialize (Hh i). inversion H as [l1 look sh t l2 sh' t' St E1 E2].
  exists l1, (look, sh, t), l2, (look, sh', t'). split; [reflexivity|]. split; [reflexivity|]. split; [reflexivity|].
  rewrite <- E1 in Hh. apply Forall_app in Hh as [_ Hh]. inversion Hh; subst. split; [assumption|]. cbn [fst snd]. eauto.
Qed.

(** ** Workers and progress *)
Lemma all_busy_mid l1 s l2 : all_busy (l1 ++ s :: l2) = (all_busy l1 + busy (snd s) + all_busy l2)%nat.
Proof. exact (list_sum_mid (fun x : parse_state => busy (snd x)) l1 s l2). Qed.

Lemma msteps_busy ip n l0 l : msteps ip n l0 l -> (all_busy l0 <= n)%nat -> (all_busy l <= n)%nat.
Proof.
  induction 1 as [|l l1 l2 H IH St]; intros H0; [exact H0|]. specialize (IH H0).
  destruct St as [l1 look sh t l2 sh' t' St]. apply estep_busy in St as [St|[Hf St]]; rewrite !all_busy_mid in *; cbn [snd] in *; lia.
Qed.

Lemma mstep_exists ip n l : (1 <= n)%nat ->
  Forall (fun s => healthy (snd s) /\ ecrashes (snd s) = false) l ->
  Exists (fun s => is_done (snd s) = false) l -> exists l', mstep ip n l l'.
Proof.
  intros Hn HF HE.
  set (fr := (all_busy l <? n)%nat).
  assert (G : exists l1 look sh t l2, l = l1 ++ (look, sh, t) :: l2 /\ can_run fr t).
  { destruct (all_busy l) as [|b] eqn:Hb.
    - apply Exists_exists in HE as ([[look sh] t] & Hin & Hd). apply in_split in Hin as (l1 & l2 & ->).
      exists l1, look, sh, t, l2. split; [reflexivity|]. rewrite all_busy_mid in Hb. cbn [snd] in *.
      apply Forall_app in HF as [_ HF]. inversion HF as [|? ? [Hh _] _]; subst. cbn [snd] in Hh.
      pose proof (healthy_can_run _ t Hh Hd). right. unfold fr. split; lia.
    - unfold all_busy in Hb. destruct (list_sum_pos (fun x => busy (snd x)) l) as (l1 & [[look sh] t] & l2 & -> & Ht); [lia|].
      exists l1, look, sh, t, l2. split; [reflexivity|]. now left. }
  destruct G as (l1 & look & sh & t & l2 & -> & Hr).
  apply Forall_app in HF as [_ HF]. inversion HF as [|? ? [Hh Hc] _]; subst. cbn [snd] in *.
  destruct (estep_progress look ip fr _ t Hr Hc) as [(p & r & -> & Hp)|Hs].
  - eexists. apply m_step with (sh' := sh) (t' := EDone r). now constructor.
  - destruct (Hs sh) as (sh' & t' & St & _). eexists. apply m_step. exact St.
Qed.

Lemma call_track ip j s : serialized_call j -> enters j s -> exists o', alone j = Ok o' /\ on_track ip (Ok o') s.
Proof.
  intros (cs & mem & ty & p & o & v & content & X & Hcs & Hcp & Hd & Hnc & Hs & Hcont & Hf & Hfuel) (sc & Hi & ->).
  destruct j as [cp cont buf fuel p' ref]. unfold alone, c_po in *. cbn [c_cfg c_content c_buf c_fuel c_pool c_ref] in *. subst cont.
  set (po := {| po_type := Coroutine; po_ref := ref |}) in *.
  destruct (transport cs cp mem ty p o v content X buf fuel p' po) as (o' & v' & HP & _); auto.
  destruct (Serialize_document cs mem ty p o v Hcs Hd) as (content' & Hs' & Hdoc).
  rewrite Hs in Hs'. injection Hs' as <-.
  assert (HW : len content < W32). { assert (HL : lim cp (len (content ++ X))) by exact Hf. apply lim_W32 in HL. rewrite len_app in HL. lia. }
  destruct (root_solo cp _ ty v content X buf fuel p' po Hcp (Hdoc HW) Hf Hfuel) as (sc2 & Hinit & Hsolo).
  rewrite Hi in Hinit. injection Hinit as <-.
  exists o'. split; [exact HP|]. eexists. cbn [fst snd]. split; [exact Hsolo|]. split; [|split; [reflexivity|constructor]].
  unfold Parse in HP. now rewrite Hi in HP.
Qed.

(** C70.  Any number of parallel parses on one pool with at least one worker: no
    task crashes, never more than [n] tasks run, each call returns exactly what it
    returns alone, some step is possible until all have returned, and that is after
    finitely many steps. *)
Theorem C70_parses_share_the_pool : forall calls starts n inplace,
  Forall serialized_call calls -> Forall2 enters calls starts -> (1 <= n)%nat ->
  (forall l, msteps inplace n starts l ->
     Forall2 (fun j s => ecrashes (snd s) = false /\
                         forall r, snd s = EDone r -> r = alone j /\ exists o, r = Ok o) calls l /\
     (all_busy l <= n)%nat /\
     (Forall (fun s => exists r, snd s = EDone r) l \/ exists l', mstep inplace n l l')) /\
  (forall f, ~ minfinite inplace n starts f).
Proof.
  intros calls starts n ip Hc He Hn.
  assert (G : exists rs, Forall2 (fun j r => alone j = r /\ exists o, r = Ok o) calls rs /\ Forall2 (on_track ip) rs starts).
  { clear -Hc He. induction He as [|j s calls starts Hj He IH]; [exists []; split; constructor|].
    inversion Hc as [|? ? Hj2 Hc2]; subst. destruct (IH Hc2) as (rs & I1 & I2). destruct (call_track ip j s Hj2 Hj) as (o' & Ha & Ht).
    exists (Ok o' :: rs). split; constructor; eauto. }
  destruct G as (rs & Hrs & Hts). split.
  - intros l Hl.
    assert (Ht : Forall2 (on_track ip) rs l).
    { clear -Hts Hl. induction Hl as [|l l1 l2 H IH St]; [exact Hts|]. eapply mstep_track; [exact St|auto]. }
    split; [|split].
    + clear -Hrs Ht. revert l Ht. induction Hrs as [|j r calls rs [Ha Ho] H IH]; intros l Ht; inversion Ht as [|? s ? l' Hs Ht']; subst; constructor; auto.
      destruct (on_track_facts _ _ _ Hs) as (_ & Hcr & Hun). split; [exact Hcr|]. intros r' Hr'. rewrite (Hun _ Hr'). auto.
    + eapply msteps_busy; [exact Hl|]. assert (H0 : all_busy starts = 0%nat) by (clear -He; induction He as [|j s calls starts (sc & _ & ->) He IH]; [reflexivity|exact IH]); lia.
    + destruct (Forall_Exists_dec (fun s : parse_state => is_done (snd s) = true) (fun s => Bool.bool_dec _ _) l) as [Hd|Hd].
      * left. eapply Forall_impl; [|exact Hd]. intros [[look sh] t]. cbn. destruct t; try discriminate. eauto.
      * right. apply mstep_exists; [exact Hn| |].
        -- clear -Ht. induction Ht as [|r s rs l Hs Ht IH]; constructor; auto. destruct (on_track_facts _ _ _ Hs) as (? & ? & _). auto.
        -- eapply Exists_impl; [|exact Hd]. cbn. intros s Hs. now destruct (is_done (snd s)).
  - intros f. apply no_minfinite. clear -He. induction He as [|j s calls starts (sc & _ & ->) He IH]; constructor; eauto.
Qed.

(** Two calls on the sample document, copying and in place, with two workers: both
    root tasks run. *)
Definition call1 : call := {| c_cfg := tiny; c_content := sample_doc tiny REPLACE; c_buf := 7; c_fuel := 200; c_pool := p1; c_ref := false |}.
Definition call2 : call := {| c_cfg := tiny; c_content := sample_doc tiny NORMAL; c_buf := 8; c_fuel := 200; c_pool := p0; c_ref := true |}.

Example C70_met : exists starts l,
  Forall serialized_call [call1; call2] /\ Forall2 enters [call1; call2] starts /\
  msteps true 2 starts l /\ all_busy l = 2%nat.
Proof.
  assert (S1 : forall j ty, In ty [NORMAL; REPLACE] -> c_cfg j = tiny -> c_content j = sample_doc tiny ty -> c_fuel j = 200%nat -> serialized_call j).
  { intros j ty Hty H1 H2 H3. exists tiny, no_mem, ty, p0, sample, sample_value, (sample_doc tiny ty), [].
    rewrite H1, H2, H3, app_nil_r. split; [apply tiny_sane|]. split; [apply tiny_sane|]. split; [apply sample_denotes|].
    split; [intros _; apply sample_no_custom|]. split; [apply sample_serialized; cbn; tauto|]. split; [reflexivity|].
    split; [cbn in Hty; destruct Hty as [<-|[<-|[]]]; vm_compute; reflexivity|apply sample_doc_small; cbn; tauto]. }
  destruct (initFromContent tiny 200 (sample_doc tiny REPLACE) 7) as [sc1| | | |] eqn:H1; try (vm_compute in H1; discriminate H1).
  destruct (initFromContent tiny 200 (sample_doc tiny NORMAL) 8) as [sc2| | | |] eqn:H2; try (clear H1; vm_compute in H2; discriminate H2).
  set (q1 := Parse_prog tiny 200 (sample_doc tiny REPLACE) 7 p1 (c_po call1) sc1).
  set (q2 := Parse_prog tiny 200 (sample_doc tiny NORMAL) 8 p0 (c_po call2) sc2).
  set (k1 := getter tiny (sc_map sc1)). set (k2 := getter tiny (sc_map sc2)).
  exists [(k1, Fresh, EQueued q1); (k2, Fresh, EQueued q2)], [(k1, Fresh, ERun q1); (k2, Fresh, ERun q2)].
  split; [|split; [|split]].
  - constructor; [apply (S1 _ REPLACE); cbn; tauto|]. constructor; [apply (S1 _ NORMAL); cbn; tauto|constructor].
  - constructor; [exists sc1; split; [exact H1|reflexivity]|]. constructor; [exists sc2; split; [exact H2|reflexivity]|constructor].
  - eapply ms_step; [eapply ms_step; [apply ms_refl|]|].
    + apply (m_step true 2 [] k1 Fresh (EQueued q1) [(k2, Fresh, EQueued q2)] Fresh (ERun q1)). now constructor.
    + apply (m_step true 2 [(k1, Fresh, ERun q1)] k2 Fresh (EQueued q2) [] Fresh (ERun q2)). now constructor.
  - reflexivity.
Qed.
