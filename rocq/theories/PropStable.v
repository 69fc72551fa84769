(** * Property C105: nothing changes under the program's feet. *)
From Verif Require Import Base BaseLemmas ModelVarint ModelData ModelSecondary ModelObject ModelParse ModelWrapper ModelPool ModelStorage ModelFrames
  ModelAlloc ModelClient ModelSession Spec SpecApi SpecClient ParseLemmas Samples PropPool PropFrames ClientProofs PropClient SessionProofs ParaSessionProofs ParaSessionProofs2 PropSession.
From Coq Require Import ZifyBool ZifyNat ZifyN.
Local Open Scope out_scope.

(** The calls that change object [n] itself. *)
Definition changes (op : ccall) (n : nat) : Prop :=
  match op with CInsert c _ _ | CAppend _ c _ _ | CClear c | CTake _ c _ => c = n | CAssign d _ => d = n | _ => False end.

(** [m] is [n] or one of the objects below [n], as the program finds them by iterating. *)
Inductive under (w : client) (n : nat) : nat -> Prop :=
| under_self : under w n n
| under_entry m l key a k :
    under w n m -> cl_step w (CIterate m) = Ok (w, AnList l) -> In (key, Some a) l -> nth_error (k_vars w) k = Some a -> under w n k.

(** ** Objects nobody changed *)
Section Same.
  Variable P : Prop.      (* nothing is ended *)
  Definition still (h h' : option nat) : Prop := P -> present h = true -> present h' = true.
  Definition same_obj (o o' : sobj) : Prop :=
    so_cls o' = so_cls o /\ so_made o' = so_made o /\ still (so_home o) (so_home o') /\
    match so_content o, so_content o' with
    | SData x, SData x' => x' = x
    | SCont l, SCont l' => Forall2 (fun e e' => en_key e' = en_key e /\ en_val e' = en_val e /\ still (en_home e) (en_home e')) l l'
    | _, _ => False
    end.
  Lemma same_obj_refl o : same_obj o o.
  Proof using. repeat split; try (intros _ H; exact H). destruct (so_content o) as [x|l]; [reflexivity|]. induction l; constructor; auto. repeat split. intros _ H; exact H. Qed.
  Lemma same_obj_trans a b c : same_obj a b -> same_obj b c -> same_obj a c.
  Proof using.
    intros (A1 & A2 & A3 & A4) (B1 & B2 & B3 & B4). split; [congruence|]. split; [congruence|]. split; [intros p H; auto|].
    destruct (so_content a) as [x|l], (so_content b) as [y|l1], (so_content c) as [z|l2]; try contradiction; [congruence|].
    clear - A4 B4. revert l2 B4. induction A4 as [|e e1 l l1 (H1 & H2 & H3) _ IH]; intros l2 B4; inversion B4 as [|? e2 ? ? (G1 & G2 & G3) B4']; subst; constructor; auto.
    split; [congruence|]. split; [congruence|]. intros p H; auto.
  Qed.

  Lemma same_rehome f o : (P -> forall h, f h <> None) -> same_obj o (fo f o).
  Proof using.
    intros Hf. assert (HS : forall h, still h (ohome f h)) by (intros [h|] p H; [|discriminate]; cbn; destruct (f h) eqn:E; [reflexivity|destruct (Hf p h E)]).
    unfold fo. repeat split; cbn; try apply HS. destruct (so_content o) as [x|l]; [reflexivity|]. induction l as [|e l IH]; cbn; constructor; auto. cbn. repeat split. apply HS.
  Qed.

  Definition stays (st st' : sstate) (m : nat) : Prop :=
    forall o, nth_error (st_objs st) m = Some o -> exists o', nth_error (st_objs st') m = Some o' /\ same_obj o o'.
  Lemma stays_refl st m : stays st st m.
  Proof using. intros o Ho. exists o. split; [exact Ho|apply same_obj_refl]. Qed.
  Lemma stays_trans a b c m : stays a b m -> stays b c m -> stays a c m.
  Proof using. intros H1 H2 o Ho. destruct (H1 o Ho) as (o1 & Ho1 & S1). destruct (H2 o1 Ho1) as (o2 & Ho2 & S2). exists o2. split; [exact Ho2|]. eapply same_obj_trans; eauto. Qed.
  Lemma stays_set st n ob c m : nth_error (st_objs st) n = Some ob -> n <> m -> stays st (set_obj n (with_content c ob) st) m.
  Proof using.
    intros Hob Hn o Ho. exists o. split; [|apply same_obj_refl]. unfold set_obj. cbn [st_objs]. assert (n < length (st_objs st))%nat by (apply nth_error_Some; congruence).
    rewrite put_spec by assumption. rewrite nth_error_put by assumption. destruct (Nat.eqb_spec m n); [congruence|exact Ho].
  Qed.
  Lemma stays_home st f alive' m : (P -> forall h, f h <> None) -> stays st {| st_alive := alive'; st_objs := rehome_all f (st_objs st) |} m.
  Proof using.
    intros Hf o Ho. exists (fo f o). split; [|now apply same_rehome]. cbn [st_objs]. unfold rehome_all. rewrite nth_error_map, Ho. reflexivity.
  Qed.

  Lemma stays_step st op st' a m : (P -> ends_nothing op) -> spec_step st op = Ok (st', a) -> ~ changes op m -> stays st st' m.
  Proof using.
    intros Hop E Hc.
    assert (Hlook : looks op -> st' = st) by (intros Hl; eapply spec_looks_same; eauto).
    assert (Hmake : forall i k c st1, make st i k c = Ok st1 -> stays st st1 m).
    { intros i k c st1 Em. unfold make, only in Em. destruct (exists_pool st i); [|discriminate Em]. inversion Em; subst. intros o Ho. exists o. split; [|apply same_obj_refl].
      cbn [st_objs]. rewrite nth_error_app1; [exact Ho|]. apply nth_error_Some. congruence. }
    destruct op; cbn [spec_step changes] in E, Hc; try (rewrite (Hlook I); apply stays_refl).
    - apply obind_ok in E as (st1 & Ep & E). inversion E; subst. destruct op as [|i k th|i j|i|j|i j|i]; cbn [pool_call] in Ep; unfold only in Ep; try discriminate Ep.
      + inversion Ep; subst. rewrite <- (rehome_same Some (st_objs st)) by reflexivity. apply stays_home. discriminate.
      + destruct (_ && _); [|discriminate Ep]. inversion Ep; subst. apply stays_home. discriminate.
      + destruct (exists_pool st i); [|discriminate Ep]. inversion Ep; subst. apply stays_home. intros p. destruct (Hop p).
      + destruct (exists_pool st j); [|discriminate Ep]. inversion Ep; subst. apply stays_home. discriminate.
      + destruct (_ && _); [|discriminate Ep]. inversion Ep; subst. apply stays_home. intros p. destruct (Hop p).
      + destruct (exists_pool st i); [|discriminate Ep]. inversion Ep; subst. apply stays_home. intros p. destruct (Hop p).
    - apply obind_ok in E as (st1 & Em & E). inversion E; subst. eapply Hmake; exact Em.
    - assert (E' : st'' <- make st i k (SCont []) ;; Ok (st'', SaNone) = Ok (st', a)) by (destruct k; try discriminate E; exact E).
      apply obind_ok in E' as (st1 & Em & E'). inversion E'; subst. eapply Hmake; exact Em.
    - unfold only in E. destruct (exists_pool st i); [|discriminate E]. inversion E; subst. apply stays_refl.
    - apply obind_ok in E as (o & Eo & E). apply obind_ok in E as (l & El & E). destruct (_ && _); [|discriminate E]. inversion E; subst. apply the_obj_some in Eo as [Eo _]. now apply stays_set.
    - apply obind_ok in E as (o & Eo & E). apply obind_ok in E as (l & El & E). destruct (_ && _); [|discriminate E]. apply obind_ok in E as (ys & _ & E). destruct (exists_pool _ _); [|discriminate E].
      inversion E; subst. apply the_obj_some in Eo as [Eo _]. now apply stays_set.
    - apply obind_ok in E as (o & Eo & E). apply obind_ok in E as (l & El & E). inversion E; subst. apply the_obj_some in Eo as [Eo _]. now apply stays_set.
    - apply obind_ok in E as (o & Eo & E). apply obind_ok in E as (l & El & E). destruct (is_map o); [|discriminate E]. apply obind_ok in E as ([v l'] & _ & E). inversion E; subst.
      apply the_obj_some in Eo as [Eo _]. now apply stays_set.
    - apply obind_ok in E as (o & Eo & E). apply obind_ok in E as (l & El & E). inversion E; subst. apply the_obj_some in Eo as [Eo _]. now apply stays_set.
  Qed.
  Lemma stays_run ops m : forall st st' rs, (P -> Forall ends_nothing ops) -> spec_run st ops = Ok (st', rs) -> Forall (fun op => ~ changes op m) ops -> stays st st' m.
  Proof using.
    induction ops as [|op ops IH]; intros st st' rs Hop E Hc; cbn [spec_run] in E; [inversion E; subst; apply stays_refl|].
    apply obind_ok in E as ([st1 a] & E1 & E). apply obind_ok in E as ([st2 r] & E2 & E). inversion E; subst. inversion Hc as [|? ? Hc1 Hc2]; subst.
    eapply stays_trans; [eapply stays_step; [|exact E1|exact Hc1]|eapply IH; [|exact E2|exact Hc2]]; intros p; specialize (Hop p); now inversion Hop.
  Qed.

  (** The tree below an object none of whose parts was changed: unchanged, or gone. *)
  Variables st st' : sstate.
  Variable T : nat -> Prop.
  Hypothesis Hclosed : forall m ob l ys, T m -> the_obj st m = Ok ob -> so_content ob = SCont l -> see_all l = Ok ys -> forall key k, In (key, Some k) ys -> T k.
  Hypothesis Hstays : forall m, T m -> stays st st' m.

  Definition unchanged {A} (x : A) (y : outcome A) : Prop := y = Ok x \/ (y = UB /\ ~ P).

  Lemma the_obj_same m ob : T m -> the_obj st m = Ok ob -> exists ob', nth_error (st_objs st') m = Some ob' /\ same_obj ob ob' /\ unchanged ob' (the_obj st' m).
  Proof using Hstays.
    intros HT H. apply the_obj_some in H as [H Hh]. destruct (Hstays m HT ob H) as (ob' & H' & HS). exists ob'. split; [exact H'|]. split; [exact HS|].
    unfold unchanged, the_obj. rewrite H'. destruct (present (so_home ob')) eqn:E; [left; reflexivity|right]. split; [reflexivity|]. intros p.
    destruct HS as (_ & _ & HS & _). rewrite HS in E; [discriminate|exact p|]. destruct (so_home ob); [reflexivity|congruence].
  Qed.
  Lemma see_all_same l l' ys : Forall2 (fun e e' => en_key e' = en_key e /\ en_val e' = en_val e /\ still (en_home e) (en_home e')) l l' ->
    see_all l = Ok ys -> unchanged ys (see_all l').
  Proof using.
    intros HF. revert ys. induction HF as [|e e' l l' (H1 & H2 & H3) _ IH]; intros ys H; cbn [see_all] in *; [inversion H; now left|].
    destruct (present (en_home e)) eqn:Ep; [|discriminate H]. apply obind_ok in H as (r & Hr & H). inversion H; subst. unfold still in H3. rewrite Ep in H3.
    destruct (present (en_home e')); [|right; split; [reflexivity|]; intros p; now specialize (H3 p eq_refl)].
    destruct (IH r Hr) as [-> | [-> Hp]]; cbn [obind]; [left; now rewrite H1, H2|right; auto].
  Qed.
  Lemma see_tree_same d : forall n o, T n -> see_tree d st n = Ok o -> unchanged o (see_tree d st' n).
  Proof using Hclosed Hstays.
    induction d as [|d IH]; intros n o HT H; cbn [see_tree] in *; [discriminate H|]. apply obind_ok in H as (ob & Hob & H).
    destruct (the_obj_same n ob HT Hob) as (ob' & _ & (S1 & S2 & _ & S4) & [-> | [-> Hp]]); cbn [obind]; [|now right].
    destruct (so_content ob) as [x|l] eqn:Ec, (so_content ob') as [x'|l']; try contradiction.
    - inversion H; subst. left. now rewrite S1.
    - apply obind_ok in H as (ys & Hys & H). apply obind_ok in H as (ts & Hts & H). inversion H; subst.
      destruct (see_all_same l l' ys S4 Hys) as [-> | [-> Hp]]; cbn [obind]; [|now right].
      assert (HK : unchanged ts (see_children (see_tree d st') ys)).
      { assert (HTk : forall key k, In (key, Some k) ys -> T k) by (eapply Hclosed; eauto). clear - HTk Hts IH. revert ts Hts.
        induction ys as [|[key [k|]] ys IHy]; intros ts H; cbn [see_children] in *; [inversion H; now left| |].
        - apply obind_ok in H as (t & Ht & H). apply obind_ok in H as (r & Hr & H). inversion H; subst.
          destruct (IH k t (HTk key k (or_introl eq_refl)) Ht) as [-> | [-> Hp]]; cbn [obind]; [|now right].
          destruct (IHy (fun key' k' H' => HTk key' k' (or_intror H')) r Hr) as [-> | [-> Hp]]; cbn [obind]; [now left|now right].
        - cbn [obind] in *. apply obind_ok in H as (r & Hr & H). inversion H; subst.
          destruct (IHy (fun key' k' H' => HTk key' k' (or_intror H')) r Hr) as [-> | [-> Hp]]; cbn [obind]; [now left|now right]. }
      destruct HK as [-> | [-> Hp]]; cbn [obind]; [|now right]. left. rewrite S1, S2. apply len_Forall2 in S4. rewrite S4. reflexivity.
  Qed.
End Same.

(** The objects the program finds below an object are those of the specification. *)
Lemma under_closed w st owns G t n : rel w st owns G t -> t + 1 < W64 ->
  forall m ob l ys, under w n m -> the_obj st m = Ok ob -> so_content ob = SCont l -> see_all l = Ok ys -> forall key k, In (key, Some k) ys -> under w n k.
Proof.
  intros R Ht m ob l ys HU Hob Hc Hys key k Hin.
  assert (S := step_ok_client w st owns G t (CIterate m) R Ht). cbn [spec_step] in S. rewrite Hob in S. cbn [obind] in S. unfold entries in S. rewrite Hc in S. cbn [obind] in S. rewrite Hys in S. cbn [obind] in S.
  inversion S as [x y (owns1 & G1 & _ & Ha & _) E1 E2| |]. subst y. destruct x as [w1 a]. cbn [fst snd] in *.
  symmetry in E1. assert (w1 = w) by (eapply (looks_same w (CIterate m)); [exact I|exact E1]). subst w1. destruct a as [| | |xs| |]; cbn [same_answer] in Ha; try contradiction.
  assert (HE : exists a, In (key, Some a) xs /\ nth_error (k_vars w) k = Some a).
  { clear - Ha Hin. induction Ha as [|[k1 v1] [k2 v2] xs ys [H1 H2] _ IH]; [destruct Hin|]. destruct Hin as [[= -> ->]|Hin].
    - cbn in H1, H2. destruct H2 as [Hn Hv]. subst k1. destruct v1 as [a|]; [|congruence]. exists a. split; [now left|now symmetry].
    - destruct (IH Hin) as (a & A1 & A2). exists a. split; [now right|exact A2]. }
  destruct HE as (a & A1 & A2). eapply under_entry; eauto.
Qed.

Lemma stable_states (P : Prop) w st owns G t w' st' owns' G' t' d n o : rel w st owns G t -> t + 1 < W64 -> rel w' st' owns' G' t' -> (exists e, k_vars w' = k_vars w ++ e) ->
  cl_step w (CView d n) = Ok (w, AnView o) -> (forall m, under w n m -> stays P st st' m) ->
  unchanged P (w', AnView o) (cl_step w' (CView d n)).
Proof.
  intros R Hlen R' (e & He) Hview Hstay.
  cbn [cl_step] in Hview. unfold var in Hview. destruct (nth_error (k_vars w) n) as [a|] eqn:Ha; [|discriminate Hview]. cbn [obind] in Hview.
  apply obind_ok in Hview as (o' & Hv & Hx). inversion Hx; subst o'. clear Hx.
  pose proof (view_ok w st owns G t R d n a Ha) as V. rewrite Hv in V. inversion V as [x y -> E1 E2| |]. subst y. clear V.
  assert (Ha' : nth_error (k_vars w') n = Some a) by (rewrite He, nth_error_app1; [exact Ha|apply nth_error_Some; congruence]).
  pose proof (see_tree_same P st st' (under w n) (under_closed w st owns G t n R ltac:(lia)) Hstay d n o (under_self w n) (eq_sym E2)) as HT.
  pose proof (view_ok w' st' owns' G' t' R' d n a Ha') as V. cbn [cl_step]. unfold var. rewrite Ha'. cbn [obind].
  destruct HT as [HT | [HT Hp]]; rewrite HT in V; inversion V as [x y -> Q1 Q2| |]; cbn [obind]; [left; congruence|right; auto].
Qed.
Lemma stable_from (P : Prop) w st owns G t ops' w' rs' d n o : rel w st owns G t -> t + len ops' + 1 < W64 ->
  cl_run w ops' = Ok (w', rs') -> (P -> Forall ends_nothing ops') ->
  cl_step w (CView d n) = Ok (w, AnView o) ->
  (forall m, under w n m -> Forall (fun op => ~ changes op m) ops') ->
  unchanged P (w', AnView o) (cl_step w' (CView d n)).
Proof.
  intros R Hlen Hrun HP Hview Hunder.
  destruct (run_up ops' w st owns G t w' rs' R ltac:(lia) Hrun) as (st' & r & owns' & G' & t' & Es & R' & Ht' & _ & He).
  eapply stable_states; [exact R|lia|exact R'|exact He|exact Hview|]. intros m Hm. exact (stays_run P ops' m st st' r HP Es (Hunder m Hm)).
Qed.

(** C105.  Look at an object and everything below it; then let the program do anything -
    other objects, merges, moves, clearing and destroying pools, new documents - except
    changing one of these objects itself.  A later look either shows exactly the same or is
    undefined because something of it has ended.  It is never something else: nothing is
    overwritten, cut short or mixed up with other objects. *)
Theorem C105_unchanged_or_gone : forall ops w rs ops' w' rs' d n o,
  len ops + len ops' + 1 < W64 -> cl_run client0 ops = Ok (w, rs) ->
  cl_step w (CView d n) = Ok (w, AnView o) ->
  (forall m, under w n m -> Forall (fun op => ~ changes op m) ops') ->
  cl_run w ops' = Ok (w', rs') ->
  cl_step w' (CView d n) = Ok (w', AnView o) \/ cl_step w' (CView d n) = UB.
Proof.
  intros ops w rs ops' w' rs' d n o Hlen E Hview Hunder Hrun. destruct (after ops w rs ltac:(lia) E) as (st & srs & owns & G & t & _ & R & Ht).
  destruct (stable_from False w st owns G t ops' w' rs' d n o R ltac:(lia) Hrun ltac:(contradiction) Hview Hunder) as [H|[H _]]; auto.
Qed.

(** C105.  If no pool was cleared, overwritten or destroyed in between - whatever was merged
    or moved - it is still there. *)
Theorem C105_unchanged : forall ops w rs ops' w' rs' d n o,
  len ops + len ops' + 1 < W64 -> cl_run client0 ops = Ok (w, rs) ->
  cl_step w (CView d n) = Ok (w, AnView o) ->
  (forall m, under w n m -> Forall (fun op => ~ changes op m) ops') -> Forall ends_nothing ops' ->
  cl_run w ops' = Ok (w', rs') ->
  cl_step w' (CView d n) = Ok (w', AnView o).
Proof.
  intros ops w rs ops' w' rs' d n o Hlen E Hview Hunder Hends Hrun. destruct (after ops w rs ltac:(lia) E) as (st & srs & owns & G & t & _ & R & Ht).
  destruct (stable_from True w st owns G t ops' w' rs' d n o R ltac:(lia) Hrun ltac:(auto) Hview Hunder) as [H|[_ H]]; [exact H|now destruct H].
Qed.

(** ** Sessions *)
(** What a parse changes it made itself. *)
Section Fresh.
  Variable E : penv.
  Variable get : N -> outcome view.
  Variable i : nat.
  Variable pr : bool.
  Notation p := (PoolId i).
  Definition within (n m : nat) (op : ccall) : Prop := ends_nothing op /\ forall j, changes op j -> j = n \/ (m <= j)%nat.
  Lemma within_make n m t : within n m (make_call i pr t).
  Proof using. destruct t, pr; (split; [exact I|intros j H; destruct H]). Qed.
  Lemma within_more n m n' m' l : (forall j, j = n' \/ (m' <= j)%nat -> j = n \/ (m <= j)%nat) -> Forall (within n' m') l -> Forall (within n m) l.
  Proof using. intros Hj H. eapply Forall_impl; [|exact H]. intros op [He Hw]. split; [exact He|]. intros j Hc. auto. Qed.
  Lemma calls_fresh : forall f,
    (forall t s n m, Forall (within n m) (fst (value_calls E get p i pr f t s n m)) /\ (m <= snd (value_calls E get p i pr f t s n m))%nat) /\
    (forall count s n m, Forall (within n m) (fst (array_calls E get p i pr f count s n m)) /\ (m <= snd (array_calls E get p i pr f count s n m))%nat) /\
    (forall count s n m, Forall (within n m) (fst (entry_calls E get p i pr f count s n m)) /\ (m <= snd (entry_calls E get p i pr f count s n m))%nat).
  Proof using.
    assert (Hself : forall n m op, ends_nothing op /\ (forall j, changes op j -> j = n) -> within n m op) by (intros n m op [He H]; split; [exact He|]; intros j Hc; left; auto).
    induction f as [|f (IV & IA & IM)].
    { split; [|split]; intros; split; cbn; auto. }
    split; [|split].
    - intros t s n m. rewrite value_calls_S. destruct t.
      + cbn [fst snd]. split; [|lia]. destruct (run get (Data_valueParse E pr s)) as [[[] ?]| | | |]; repeat (first [apply Forall_nil|apply Forall_cons]); apply Hself; cbn; auto.
      + cbn zeta. destruct (obind (parseLength _ s) _) as [[count s2]| | | |]; cbn [fst snd]; try (split; [repeat (first [apply Forall_nil|apply Forall_cons]); apply Hself; cbn; auto|lia]).
        destruct pr; [|destruct (check_oor _ s2)]; cbn [fst snd]; try (split; [repeat (first [apply Forall_nil|apply Forall_cons]); apply Hself; cbn; auto|lia]);
          destruct (IM count s2 n m) as [H1 H2]; (split; [apply Forall_cons; [apply Hself; cbn; auto|exact H1]|exact H2]).
      + cbn zeta. destruct (obind (parseLength _ s) _) as [[count s2]| | | |]; cbn [fst snd]; try (split; [repeat (first [apply Forall_nil|apply Forall_cons]); apply Hself; cbn; auto|lia]).
        destruct (IA count s2 n m) as [H1 H2]; (split; [apply Forall_cons; [apply Hself; cbn; auto|exact H1]|exact H2]).
    - intros count s n m. rewrite array_calls_S. destruct (count =? 0); [split; cbn; auto|].
      destruct (parseObjectType _ s) as [[t s1]| | | |]; cbn [fst snd]; try (split; [constructor|lia]).
      destruct (IV t s1 m (S m)) as [H1 H1']. cbn zeta. assert (H1b : Forall (within n m) (fst (value_calls E get p i pr f t s1 m (S m)))) by (eapply within_more; [|exact H1]; lia).
      destruct (run get (valueParse E p pr f t s1)) as [[o s2]| | | |]; cbn [fst snd].
      2-5: (split; [apply Forall_cons; [apply within_make|exact H1b]|lia]).
      destruct (IA (count - 1) s2 n (snd (value_calls E get p i pr f t s1 m (S m)))) as [H2 H2']. split; [|lia].
      apply Forall_cons; [apply within_make|]. apply Forall_app. split; [exact H1b|]. apply Forall_cons; [apply Hself; cbn; auto|]. eapply within_more; [|exact H2]. lia.
    - intros count s n m. rewrite entry_calls_S. destruct (count =? 0); [split; cbn; auto|].
      destruct (run get (parse_key E s)) as [[kv s0]| | | |]; cbn [fst snd]; try (split; [constructor|lia]).
      destruct (parseObjectType _ s0) as [[t s1]| | | |]; cbn [fst snd]; try (split; [constructor|lia]).
      destruct (IV t s1 m (S m)) as [H1 H1']. cbn zeta. assert (H1b : Forall (within n m) (fst (value_calls E get p i pr f t s1 m (S m)))) by (eapply within_more; [|exact H1]; lia).
      destruct (run get (valueParse E p pr f t s1)) as [[o s2]| | | |]; cbn [fst snd].
      2-5: (split; [apply Forall_cons; [apply within_make|exact H1b]|lia]).
      destruct (if pr then Ok (RefKey kv) else _) as [key| | | |]; cbn [fst snd].
      2-5: (split; [apply Forall_cons; [apply within_make|exact H1b]|lia]).
      destruct (IM (count - 1) s2 n (snd (value_calls E get p i pr f t s1 m (S m)))) as [H2 H2']. split; [|lia].
      apply Forall_cons; [apply within_make|]. apply Forall_app. split; [exact H1b|]. apply Forall_cons; [apply Hself; cbn; auto|]. eapply within_more; [|exact H2]. lia.
  Qed.
End Fresh.
Lemma load_fresh c fuel content b i pr m : Forall (fun op => ends_nothing op /\ forall j, (j < m)%nat -> ~ changes op j) (Parse_calls c fuel content b i pr m).
Proof.
  unfold Parse_calls. destruct (initFromContent c fuel content b) as [sc| | | |]; try constructor; [destruct pr; (split; [exact I|intros j _ H; destruct H])|].
  destruct (proj1 (calls_fresh (doc_env c content b sc) (getter c (sc_map sc)) i pr fuel) TMap {| idx := meta_size; off := meta_size |} m (S m)) as [H _].
  eapply Forall_impl; [|exact H]. intros op [He Hw]. split; [exact He|]. intros j Hj Hc. specialize (Hw j Hc). lia.
Qed.

(** What a session did in memory, as calls. *)
Definition spares (j : nat) (op : scall) : Prop := match op with SCall op' => ~ changes op' j | _ => True end.
Lemma session_step_stays (P : Prop) c fuel s op s' a st owns G t : rel (se_client s) st owns G t -> below st -> t <= len (se_done s) -> len (se_done s') < W64 -> se_step c fuel s op = Ok (s', a) ->
  exists st' owns' G' t', rel (se_client s') st' owns' G' t' /\ below st' /\ t' <= len (se_done s') /\ (exists e, k_vars (se_client s') = k_vars (se_client s) ++ e) /\
    forall m, (m < length (k_vars (se_client s)))%nat -> spares m op -> (P -> forall op', op = SCall op' -> ends_nothing op') -> stays P st st' m.
Proof.
  intros R Hb Ht Hlen H.
  assert (HD : forall ops s1 r, se_do s ops = Ok (s1, r) -> len (se_done s1) < W64 -> exists st' owns' G' t' r', rel (se_client s1) st' owns' G' t' /\ below st' /\ t' <= len (se_done s1) /\
     (exists e, k_vars (se_client s1) = k_vars (se_client s) ++ e) /\ spec_run st ops = Ok (st', r')).
  { intros ops q1 r Hd Hl. unfold se_do in Hd. apply obind_ok in Hd as ([w x] & H1 & Hd). inversion Hd; subst. cbn [se_client se_done] in *. rewrite len_app in *.
    destruct (run_up ops _ _ _ _ _ _ _ R ltac:(lia) H1) as (st1 & r1 & owns1 & G1 & t1 & S1 & R1 & Ht1 & _ & He).
    exists st1, owns1, G1, t1, r1. split; [exact R1|]. split; [eapply below_run; eauto|]. split; [lia|]. auto. }
  assert (HL : forall calls check, se_load s calls check = Ok (s', a) -> (len calls < W64 -> forall st1 r m, (m < length (st_objs st))%nat -> spec_run st calls = Ok (st1, r) -> stays P st st1 m) ->
     exists st' owns' G' t', rel (se_client s') st' owns' G' t' /\ below st' /\ t' <= len (se_done s') /\ (exists e, k_vars (se_client s') = k_vars (se_client s) ++ e) /\
    forall m, (m < length (k_vars (se_client s)))%nat -> stays P st st' m).
  { intros calls check HLd HK. destruct (load_runs s calls check s' a st owns G t R Ht Hlen HLd) as (st1 & owns1 & G1 & t1 & R1 & Ht1 & He & Hc & st' & r' & S1 & Hst).
    exists st1, owns1, G1, t1. split; [exact R1|]. pose proof (below_run _ _ _ _ Hb S1) as Hb1. split; [destruct Hst as [[-> _]|(y & y' & Hy & _)]; [exact Hb1|eapply below_step; eauto]|]. split; [exact Ht1|]. split; [exact He|].
    intros m Hm. rewrite (r_len _ _ _ _ _ R) in Hm. pose proof (HK ltac:(lia) _ _ m Hm S1) as K1. destruct Hst as [[-> _]|(y & y' & Hy & _)]; [exact K1|]. eapply stays_trans; [exact K1|].
    eapply stays_step; [|exact Hy|cbn; lia]. intros _. exact I. }
  assert (HF : forall content b i pr st1 r m, (m < length (st_objs st))%nat -> spec_run st (Parse_calls c fuel content b i pr (length (st_objs st))) = Ok (st1, r) -> stays P st st1 m).
  { intros content b i pr st1 r m Hm S1. eapply stays_run; [|exact S1|].
    - intros _. eapply Forall_impl; [|apply load_fresh]. intros o [He _]. exact He.
    - eapply Forall_impl; [|apply load_fresh]. intros o [_ Hc]. now apply Hc. }
  destruct op as [op|b x|depth ty i n b|i b pr|i b pr]; cbn [se_step] in H.
  - apply obind_ok in H as ([s1 rs] & H1 & H). destruct rs as [|? []]; try discriminate H. inversion H; subst. destruct (HD _ _ _ H1 Hlen) as (st1 & owns1 & G1 & t1 & r1 & R1 & Hb1 & Ht1 & He & S1).
    exists st1, owns1, G1, t1. repeat (split; [assumption|]). intros m Hm Hsp Hends. cbn [spares] in Hsp. eapply stays_run; [|exact S1|].
    + intros p. specialize (Hends p op eq_refl). repeat constructor. destruct op; exact Hends.
    + repeat constructor. destruct op; exact Hsp.
  - inversion H; subst. cbn [se_client se_done] in *. exists st, owns, G, t. split; [exact R|]. split; [exact Hb|]. split; [exact Ht|]. split; [exists []; now rewrite app_nil_r|]. intros m _ _ _. apply stays_refl.
  - apply obind_ok in H as ([s1 rs] & H1 & H).
    assert (se_done s' = se_done s1 /\ se_client s' = se_client s1) as [Ed Ecl] by (destruct rs as [|? [|[] []]]; try discriminate H; destruct (Serialize _ _ _ _ _); try discriminate H; inversion H; subst; auto).
    rewrite Ed in *. rewrite Ecl. destruct (HD _ _ _ H1 Hlen) as (st1 & owns1 & G1 & t1 & r1 & R1 & Hb1 & Ht1 & He & S1).
    exists st1, owns1, G1, t1. repeat (split; [assumption|]). intros m Hm _ _. eapply stays_run; [|exact S1|]; [intros _|]; repeat constructor; auto.
  - destruct (se_mem s b) as [content|]; [|discriminate H]. rewrite (r_len _ _ _ _ _ R) in H. destruct (HL _ _ H) as (st1 & owns1 & G1 & t1 & H1 & H2 & H3 & H4 & H5); [intros _ st1 r m; apply HF|].
    exists st1, owns1, G1, t1. repeat (split; [assumption|]). auto.
  - destruct (se_mem s b) as [content|]; [|discriminate H]. rewrite (r_len _ _ _ _ _ R), (pools_len _ _ _ _ _ R) in H. destruct (HL _ _ H) as (st1 & owns1 & G1 & t1 & H1 & H2 & H3 & H4 & H5).
    { intros Hc st1 r m Hm S1. destruct (coro_cases c fuel content b i pr (length (st_objs st)) (length (st_alive st))) as [E|E]; [rewrite E in S1; eapply HF; eauto|].
      intros o Ho. exists o. split; [exact (coro_kept c fuel content b i pr st st1 r Hb E Hc S1 m o Ho)|apply same_obj_refl]. }
    exists st1, owns1, G1, t1. repeat (split; [assumption|]). auto.
Qed.
Lemma grows_run c fuel ops : forall s s' rs, se_run c fuel s ops = Ok (s', rs) -> len (se_done s) <= len (se_done s').
Proof.
  induction ops as [|op ops IH]; intros q q' r H; cbn [se_run] in H; [inversion H; subst; lia|]. apply obind_ok in H as ([q1 a] & H1 & H). apply obind_ok in H as ([q2 r2] & H2 & H). inversion H; subst.
  apply done_grows in H1. apply IH in H2. lia.
Qed.
Lemma session_run_stays (P : Prop) c fuel ops : forall s s' rs st owns G t, rel (se_client s) st owns G t -> below st -> t <= len (se_done s) -> len (se_done s') < W64 -> se_run c fuel s ops = Ok (s', rs) ->
  exists st' owns' G' t', rel (se_client s') st' owns' G' t' /\ below st' /\ t' <= len (se_done s') /\ (exists e, k_vars (se_client s') = k_vars (se_client s) ++ e) /\
    forall m, (m < length (k_vars (se_client s)))%nat -> Forall (spares m) ops -> (P -> forall op', In (SCall op') ops -> ends_nothing op') -> stays P st st' m.
Proof.
  induction ops as [|op ops IH]; intros s s' rs st owns G t R Hb Ht Hlen H; cbn [se_run] in H.
  - inversion H; subst. exists st, owns, G, t. split; [exact R|]. split; [exact Hb|]. split; [exact Ht|]. split; [exists []; now rewrite app_nil_r|]. intros; apply stays_refl.
  - apply obind_ok in H as ([s1 a] & H1 & H). apply obind_ok in H as ([s2 r] & H2 & H). inversion H; subst. pose proof (grows_run _ _ _ _ _ _ H2) as Hg.
    destruct (session_step_stays P c fuel s op s1 a st owns G t R Hb Ht ltac:(lia) H1) as (st1 & owns1 & G1 & t1 & R1 & Hb1 & Ht1 & (e & He) & HS1).
    destruct (IH s1 s' r st1 owns1 G1 t1 R1 Hb1 Ht1 Hlen H2) as (st2 & owns2 & G2 & t2 & R2 & Hb2 & Ht2 & (e2 & He2) & HS2).
    exists st2, owns2, G2, t2. split; [exact R2|]. split; [exact Hb2|]. split; [exact Ht2|]. split; [exists (e ++ e2); rewrite He2, He, app_assoc; reflexivity|].
    intros m Hm HF HE. inversion HF; subst. eapply stays_trans; [apply HS1; auto|apply HS2; auto].
    + intros p op' ->. apply HE; [exact p|now left].
    + rewrite He, app_length. lia.
    + intros p op' Hin. apply HE; [exact p|now right].
Qed.

Lemma session_stable (P : Prop) c fuel ops s rs ops' s' rs' d n o :
  se_run c fuel session0 ops = Ok (s, rs) -> len (se_done s') + 1 < W64 ->
  cl_step (se_client s) (CView d n) = Ok (se_client s, AnView o) ->
  (forall m, under (se_client s) n m -> Forall (spares m) ops') -> (P -> forall op, In (SCall op) ops' -> ends_nothing op) ->
  se_run c fuel s ops' = Ok (s', rs') ->
  unchanged P (se_client s', AnView o) (cl_step (se_client s') (CView d n)).
Proof.
  intros Hrun Hlen Hview Hunder HP Hrun'. pose proof (grows_run _ _ _ _ _ _ Hrun') as Hg.
  pose proof (lived_run _ _ _ _ _ _ lived0 Hrun) as (r0 & Hcl). destruct (after (se_done s) _ _ ltac:(lia) Hcl) as (st & srs & owns & G & t & Sp & R & Ht).
  pose proof (below_run _ _ _ _ below_start Sp) as Hb.
  assert (Hin : forall m, under (se_client s) n m -> (m < length (k_vars (se_client s)))%nat).
  { intros m Hm. destruct Hm as [|m l key a k _ _ _ Hk]; [|apply nth_error_Some; congruence].
    cbn [cl_step] in Hview. unfold var in Hview. destruct (nth_error (k_vars (se_client s)) n) eqn:En; [|discriminate Hview]. apply nth_error_Some. congruence. }
  destruct (session_run_stays P c fuel ops' s s' rs' st owns G t R Hb Ht ltac:(lia) Hrun') as (st' & owns' & G' & t' & R' & _ & _ & He & HS).
  eapply stable_states; [exact R|lia|exact R'|exact He|exact Hview|]. intros m Hm. apply HS; auto.
Qed.

(** C105.  The same while the program also parses documents into its pools, by either
    scheduler - the pool of the object included - and serializes objects, the object itself included.  (For objects
    parsed in place this is about the pointers they hold; what the bytes behind them are is
    the program's own business, see C04 and C85.) *)
Theorem C105_session : forall c fuel ops s rs ops' s' rs' d n o,
  se_run c fuel session0 ops = Ok (s, rs) -> len (se_done s') + 1 < W64 ->
  cl_step (se_client s) (CView d n) = Ok (se_client s, AnView o) ->
  (forall m op, under (se_client s) n m -> In (SCall op) ops' -> ~ changes op m) ->
  se_run c fuel s ops' = Ok (s', rs') ->
  (cl_step (se_client s') (CView d n) = Ok (se_client s', AnView o) \/ cl_step (se_client s') (CView d n) = UB) /\
  ((forall op, In (SCall op) ops' -> ends_nothing op) -> cl_step (se_client s') (CView d n) = Ok (se_client s', AnView o)).
Proof.
  intros c fuel ops s rs ops' s' rs' d n o Hrun Hlen Hview Hunder Hrun'.
  assert (HU : forall m, under (se_client s) n m -> Forall (spares m) ops').
  { intros m Hm. apply Forall_forall. intros [op| | | |] Hin; cbn; auto. }
  split.
  - destruct (session_stable False c fuel ops s rs ops' s' rs' d n o Hrun Hlen Hview HU ltac:(contradiction) Hrun') as [H|[H _]]; auto.
  - intros HE. destruct (session_stable True c fuel ops s rs ops' s' rs' d n o Hrun Hlen Hview HU ltac:(auto) Hrun') as [H|[_ H]]; [exact H|now destruct H].
Qed.

(** ** Met *)
(** The map {"a": [7]} of C104; then: it is saved, loaded again into its own pool, copied
    and in place, the copy is edited and cleared, a pool is made, filled and destroyed, and
    the map's pool is merged into another one and destroyed. *)
Definition stable_rest : list scall :=
  [SSave 5 NORMAL 0%nat 0%nat 3%nat; SLoad 0 3 false; SLoad 0 3 true; SCall (CPool BpNew); SCall (CPool BpNew);
   SCall (CCont 2 KMap); SCall (CData 2 false (u32 9)); SCall (CInsert 11 (OwnKey [n2b 97]) (Some 12%nat)); SCall (CClear 5); SCall (CAssign 12 (u32 8));
   SCall (CPool (BpMerge 1 0)); SCall (CPool (BpDestroy 0)); SCall (CPool (BpDestroy 2))].
Definition stable_s : session := run_or sample_s stable_rest.

Example C105_met :
  (exists rs, se_run x86_release 100 session0 sample_session = Ok (sample_s, rs)) /\
  (exists rs, se_run x86_release 100 sample_s stable_rest = Ok (stable_s, rs)) /\ len (se_done stable_s) + 1 < W64 /\
  cl_step (se_client sample_s) (CView 5 0) = Ok (se_client sample_s, AnView (sample_tree 0)) /\
  (forall m op, under (se_client sample_s) 0 m -> In (SCall op) stable_rest -> ~ changes op m) /\
  under (se_client sample_s) 0 1 /\ under (se_client sample_s) 0 2 /\
  (* still there, and gone once its last pool goes *)
  cl_step (se_client stable_s) (CView 5 0) = Ok (se_client stable_s, AnView (sample_tree 0)) /\
  answers stable_s [SCall (CPool (BpDestroy 1))] = Some [SAns AnNone] /\
  se_run x86_release 100 stable_s [SCall (CPool (BpDestroy 1)); SCall (CView 5 0)] = UB.
Proof.
  split; [eexists; vm_compute; reflexivity|]. split; [eexists; vm_compute; reflexivity|]. split; [vm_compute; reflexivity|]. split; [vm_compute; reflexivity|].
  split.
  { intros m op Hm Hin. assert (Hlt : (m < 3)%nat).
    { destruct Hm as [|m l key a k _ _ _ Hk]; [lia|]. assert (k < length (k_vars (se_client sample_s)))%nat by (apply nth_error_Some; congruence). vm_compute in H. lia. }
    cbn in Hin. repeat (destruct Hin as [[= <-]|Hin]; [cbn; lia|]). repeat (destruct Hin as [Hin|Hin]; [discriminate Hin|]). 
    repeat (first [destruct Hin as [[= <-]|Hin]; [cbn; lia|] | destruct Hin as [Hin|Hin]; [discriminate Hin|] | contradiction]). }
  assert (U1 : under (se_client sample_s) 0 1) by (eapply (under_entry _ _ 0 [(OwnKey [n2b 97], Some (KArray, (0%nat, 0)))]); [constructor|vm_compute; reflexivity|left; reflexivity|vm_compute; reflexivity]).
  split; [exact U1|].
  split; [eapply (under_entry _ _ 1 [(OwnKey [], Some (KData, (0%nat, 0)))]); [exact U1|vm_compute; reflexivity|left; reflexivity|vm_compute; reflexivity]|].
  split; [vm_compute; reflexivity|]. split; vm_compute; reflexivity.
Qed.
