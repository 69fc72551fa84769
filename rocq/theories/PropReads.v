(** * Property C105, continued: what reading, dumping and serializing an object gives. *)
From Verif Require Import Base BaseLemmas ModelVarint ModelData ModelSecondary ModelObject ModelParse ModelWrapper ModelPool ModelStorage ModelFrames
  ModelAlloc ModelDump ModelClient ModelSession Spec SpecApi ParseLemmas ObjInd PropCanonical RoundTrip PropBuffer PropPool PropFrames ClientProofs PropClient SessionProofs PropSession PropStable Samples.
From Coq Require Import ZifyBool ZifyNat ZifyN.
Local Open Scope out_scope.

(** ** Two memories that agree where the object's views point *)
Section Agree.
  Variables mem mem' : memory.
  Definition agrees (v : view) : Prop := mem' (v_buf v) = mem (v_buf v).

  Lemma read_agrees v : agrees v -> read_view mem' v = read_view mem v.
  Proof using. unfold read_view, agrees. now intros ->. Qed.
  Lemma key_agrees o k : all_views agrees o -> w_key mem' o k = w_key mem o k.
  Proof using.
    intros H. destruct H as [| | | | |p n l HF]; try reflexivity. cbn [w_key]. induction HF as [|[v o] l [Hv _] _ IH]; [reflexivity|]. cbn [MapView_at fst] in *. rewrite (read_agrees v Hv). now rewrite IH.
  Qed.
  Lemma walk_agrees path : forall o, all_views agrees o -> api_walk mem' o path = api_walk mem o path.
  Proof using.
    induction path as [|s path IH]; intros o H; [reflexivity|]. destruct s as [k|n]; cbn [api_walk].
    - rewrite (key_agrees o k H). destruct (w_key mem o k) as [o1| | | |] eqn:E; cbn [obind]; try reflexivity. apply IH.
      apply (walk_views agrees mem [Key k] o o1 H). cbn [api_walk]. rewrite E. reflexivity.
    - destruct (w_idx o n) as [o1| | | |] eqn:E; cbn [obind]; try reflexivity. apply IH.
      apply (walk_views agrees mem [Idx n] o o1 H). cbn [api_walk]. rewrite E. reflexivity.
  Qed.
  Lemma scalar_agrees o : all_views agrees o -> api_scalar mem' o = api_scalar mem o.
  Proof using.
    intros H. unfold api_scalar. destruct (GetDataType o) as [dt| | | |]; cbn [obind]; try reflexivity. destruct (cty_of_dt dt) as [T|]; [|reflexivity].
    destruct (w_Get T o) as [[x|]| | | |]; cbn [obind]; try reflexivity. destruct (w_GetView T o) as [[[v|t m]|]| | | |] eqn:E; cbn [obind]; try reflexivity.
    rewrite (read_agrees v); [reflexivity|]. destruct H as [| |d st H| | |]; try discriminate E. cbn [w_GetView] in E. apply H.
    unfold DataView_Get in E. destruct T; repeat match type of E with
      | (if ?x then _ else _) = _ => destruct x; try discriminate E
      | obind ?x _ = _ => destruct x eqn:?; try discriminate E; cbn [obind] in E
      | (match ?x with _ => _ end) = _ => destruct x eqn:?; try discriminate E
      end; unfold get_view in *; destruct st; try discriminate; congruence.
  Qed.
  Lemma seen_agrees o path : all_views agrees o -> api_seen mem' o path = api_seen mem o path.
  Proof using.
    intros H. unfold api_seen. rewrite (walk_agrees path o H). destruct (api_walk mem o path) as [w| | | |] eqn:E; cbn [obind]; try reflexivity.
    rewrite (scalar_agrees w (walk_views agrees mem path o w H E)). reflexivity.
  Qed.

  Lemma container_same c {A} size (f g : A -> sstate -> outcome sstate) l st : (forall i, In i l -> forall st, f i st = g i st) ->
    container_valueSeri c size f l st = container_valueSeri c size g l st.
  Proof using.
    intros HF. unfold container_valueSeri. destruct (st_seriLength _ _ _) as [st1| | | |]; cbn [obind]; try reflexivity.
    destruct (seri_split_id c st1) as [[id st2]| | | |]; cbn [obind]; try reflexivity.
    rewrite (seri_items_ext c f g l l); [reflexivity|]. induction l as [|x l IH]; constructor; [apply HF; now left|apply IH; intros i Hi; apply HF; now right].
  Qed.
  Lemma child_same c o (f g : sstate -> outcome (sstate * bool)) st : (forall st, f st = g st) -> seri_child c o f st = seri_child c o g st.
  Proof using. intros H. unfold seri_child. destruct (GetType o); cbn [obind]; try reflexivity. now rewrite H. Qed.
  Lemma seri_agrees c o : all_views agrees o -> forall st, valueSeri c mem' o st = valueSeri c mem o st.
  Proof using.
    induction o as [|dt s|dt s|p n l IH|p n l IH|p n l IH] using obj_ind'; intros H st; cbn [valueSeri]; try reflexivity.
    - inversion H as [| |? ? Hv| | |]; subst. f_equal. unfold DataView_valueSeri, seriData_view.
      assert (HG : forall v, get_view s = Ok v -> read_view mem' v = read_view mem v) by (intros v Hg; apply read_agrees, Hv; destruct s; try discriminate Hg; cbn in Hg; congruence).
      destruct (get_view s) as [v| | | |]; cbn [obind]; try reflexivity. now rewrite (HG v eq_refl).
    - inversion H as [| | |? ? ? HF| |]; subst. rewrite Forall_forall in IH, HF. apply container_same. intros i Hi st1. apply child_same. intros st2. apply IH; auto.
    - inversion H as [| | | |? ? ? HF|]; subst. rewrite Forall_forall in IH, HF. apply container_same. intros [k i] Hi st1. destruct (seri_key c k st1); cbn [obind]; try reflexivity.
      apply child_same. intros st2. apply (IH _ Hi), (HF _ Hi).
    - inversion H as [| | | | |? ? ? HF]; subst. rewrite Forall_forall in IH, HF. apply container_same. intros [k i] Hi st1. destruct (HF _ Hi) as [Hk Hi']. rewrite (read_agrees k Hk).
      destruct (read_view mem k); cbn [obind]; try reflexivity. destruct (seri_key c _ st1); cbn [obind]; try reflexivity. apply child_same. intros st2. apply (IH _ Hi), Hi'.
  Qed.
  Lemma Serialize_agrees c ty p o : all_views agrees o -> Serialize c mem' ty p o = Serialize c mem ty p o.
  Proof using. intros H. unfold Serialize. rewrite (seri_agrees c (OMap p 1 [(root_key, o)])); [reflexivity|]. constructor. repeat constructor. exact H. Qed.

  Lemma dump_agrees o : all_views agrees o -> forall buf level, dump mem' o buf level = dump mem o buf level.
  Proof using.
    assert (HM : forall key_prefix (l : list (outcome bytes * (bytes -> Z -> outcome bytes))) l', Forall2 (fun a b => fst a = fst b /\ forall buf level, snd a buf level = snd b buf level) l l' ->
      forall buf level, dump_map key_prefix l buf level = dump_map key_prefix l' buf level).
    { intros kp l l' HF. induction HF as [|[k f] [k' f'] l l' [Hk Hf] _ IH]; intros buf level; [reflexivity|]. cbn [fst snd] in *. subst k'. cbn [dump_map]. destruct k; cbn [obind]; try reflexivity.
      destruct (int_add level 2); cbn [obind]; try reflexivity. rewrite Hf. destruct (f' _ _); cbn [obind]; auto. }
    induction o as [|dt s|dt s|p n l IH|p n l IH|p n l IH] using obj_ind'; intros H buf level; cbn [dump]; try reflexivity.
    - inversion H as [| | |? ? ? HF| |]; subst. destruct (dump_head TArray n buf level) as [b1| | | |]; cbn [obind]; try reflexivity. clear H. revert b1 IH. induction HF as [|x l Hx _ IHl]; intros b1 IH; [reflexivity|].
      inversion IH; subst. cbn [map dump_array]. destruct (int_add level 1); cbn [obind]; try reflexivity. rewrite (H1 Hx). destruct (dump mem x _ _); cbn [obind]; auto.
    - inversion H as [| | | |? ? ? HF|]; subst. destruct (dump_head TMap n buf level) as [b1| | | |]; cbn [obind]; try reflexivity. destruct (int_add level 1); cbn [obind]; try reflexivity.
      destruct (blanks _); cbn [obind]; try reflexivity. apply HM. clear - IH HF. induction HF as [|[k x] l Hx _ IHl]; [constructor|]. inversion IH; subst. constructor; auto. cbn [fst snd] in *. auto.
    - inversion H as [| | | | |? ? ? HF]; subst. destruct (dump_head TMap n buf level) as [b1| | | |]; cbn [obind]; try reflexivity. destruct (int_add level 1); cbn [obind]; try reflexivity.
      destruct (blanks _); cbn [obind]; try reflexivity. apply HM. clear - IH HF. induction HF as [|[k x] l [Hk Hx] _ IHl]; [constructor|]. inversion IH; subst. constructor; auto. cbn [fst snd] in *. split; [now apply read_agrees|auto].
  Qed.
End Agree.

(** C105.  If the program also leaves the buffers alone into which the object was parsed in
    place - those its views point into, if any - and ends no pool, then every read, dump
    and serialization of the object gives exactly what it gave before: the same values along
    every path, the same text, the same bytes.  An object without views (built by hand from
    Data, or parsed copying) needs no buffer at all. *)
Theorem C105_reads : forall c fuel ops s rs ops' s' rs' d n o,
  se_run c fuel session0 ops = Ok (s, rs) -> len (se_done s') + 1 < W64 ->
  cl_step (se_client s) (CView d n) = Ok (se_client s, AnView o) ->
  all_views (fun v => Forall (leaves (v_buf v)) ops') o ->
  (forall m op, under (se_client s) n m -> In (SCall op) ops' -> ~ changes op m) ->
  (forall op, In (SCall op) ops' -> ends_nothing op) ->
  se_run c fuel s ops' = Ok (s', rs') ->
  cl_step (se_client s') (CView d n) = Ok (se_client s', AnView o) /\
  (forall path, api_seen (se_mem s') o path = api_seen (se_mem s) o path) /\
  (forall buf level, dump (se_mem s') o buf level = dump (se_mem s) o buf level) /\
  (forall c' ty p, Serialize c' (se_mem s') ty p o = Serialize c' (se_mem s) ty p o).
Proof.
  intros c fuel ops s rs ops' s' rs' d n o Hrun Hlen Hview Hviews Hunder Hends Hrun'.
  split; [exact (proj2 (C105_session c fuel ops s rs ops' s' rs' d n o Hrun Hlen Hview Hunder Hrun') Hends)|].
  assert (HA : all_views (agrees (se_mem s) (se_mem s')) o).
  { eapply all_views_impl; [|exact Hviews]. cbn. intros v Hv. unfold agrees. eapply leaves_run; eauto. }
  split; [|split]; intros; [now apply seen_agrees|now apply dump_agrees|now apply Serialize_agrees].
Qed.

(** ** Met *)
(** The in-place tree of C104's session (variable 4, in pool 2, pointing into buffer 3); the
    program then loads buffer 3 again, overwrites buffer 4 and merges pool 2 away. *)
Definition reads_rest : list scall :=
  [SLoad 1 3 false; SBuffer 4 None; SCall (CClear 7); SSave 5 REPLACE 1%nat 4%nat 6%nat; SCall (CPool (BpMerge 1 2))].
Definition reads_s : session := run_or sample_s2 reads_rest.
Definition reads_tree : obj :=
  OMapView (PoolId 2) 1 [({| v_buf := 3; v_off := 21; v_len := 1 |}, OArray (PoolId 2) 1 [data_view_of_num U32 7])].
Example C105_reads_met :
  (exists rs, se_run x86_release 100 session0 (sample_session ++ SSave 5 NORMAL 0%nat 0%nat 3%nat :: sample_rest) = Ok (sample_s2, rs)) /\
  (exists rs, se_run x86_release 100 sample_s2 reads_rest = Ok (reads_s, rs)) /\ (len (se_done reads_s) + 1 < W64) /\
  cl_step (se_client sample_s2) (CView 5 4) = Ok (se_client sample_s2, AnView reads_tree) /\
  all_views (fun v => Forall (leaves (v_buf v)) reads_rest) reads_tree /\
  (forall m op, under (se_client sample_s2) 4 m -> In (SCall op) reads_rest -> ~ changes op m) /\
  (forall op, In (SCall op) reads_rest -> ends_nothing op) /\
  api_seen (se_mem sample_s2) reads_tree [Key [n2b 97]; Idx 0] = Ok (SeenScalar (VNum U32 7)).
Proof.
  split; [eexists; vm_compute; reflexivity|]. split; [eexists; vm_compute; reflexivity|]. split; [vm_compute; reflexivity|]. split; [vm_compute; reflexivity|].
  split. { repeat (first [apply av_map_view | apply av_array | apply av_data_view | apply Forall_cons | apply Forall_nil | split | discriminate | (cbn; lia) | exact I]). }
  split. { intros m op Hm Hin. assert (Hlt : (m < 7)%nat).
    { destruct Hm as [|m l key a k _ _ _ Hk]; [lia|]. assert (k < length (k_vars (se_client sample_s2)))%nat by (apply nth_error_Some; congruence). vm_compute in H. lia. }
    cbn in Hin. repeat (first [destruct Hin as [[= <-]|Hin]; [cbn; lia|] | destruct Hin as [Hin|Hin]; [discriminate Hin|] | contradiction]). }
  split. { intros op Hin. cbn in Hin. repeat (first [destruct Hin as [[= <-]|Hin]; [exact I|] | destruct Hin as [Hin|Hin]; [discriminate Hin|] | contradiction]). }
  vm_compute. reflexivity.
Qed.
