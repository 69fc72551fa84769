(** * Property C86 (and C42, C77 for every scheduler): reading in place follows
      copying, on arbitrary bytes and for both schedulers. *)
From Verif Require Import Base BaseLemmas ModelVarint ModelData ModelSecondary ModelObject
  ModelParse ModelWrapper Spec SpecApi VarintProofs Wire NumProofs SeriProofs SeriProofs2 DocProofs ObjInd ParseLemmas
  NormalProofs SecondaryProofs ValueProofs ParaProofs RoundTrip GeneralProofs ApiProofs Samples PropRoundTrip PropDocument PropHostile FrameProofs PropTamper
  PropContainers PropCanonical Lenient LenientPara LenientProofs LenientTables LenientRef TermProofs PropLenient LenientParaProofs PropInsitu PropPara
  InsituSim InsituBack.
From Coq Require Import ZifyBool ZifyNat ZifyN.

(** What is seen of two such trees. *)
Definition reflects (content : bytes) (buf : nat) (o' o : obj) : Prop := (o' = ONull /\ o = ONull) \/ echo content buf o' o.

Lemma echo_walk content buf mem (Hm : mem buf = Some content) path : forall o o', reflects content buf o' o ->
  exists r, (api_walk mem o path = Ok r /\ exists r', api_walk mem o' path = Ok r' /\ reflects content buf r' r).
Proof.
  assert (Hrv : forall v s, v_buf v = buf -> read_range content (v_off v) (v_len v) = Ok s -> read_view mem v = Ok s).
  { intros v s Hb Hr. unfold read_view. now rewrite Hb, Hm. }
  induction path as [|[k|n] path IH]; intros o o' H; cbn [api_walk].
  - exists o. split; [reflexivity|]. exists o'. auto.
  - destruct H as [[-> ->]|H]; [cbn [w_key obind]; apply IH; now left|].
    destruct H as [dt t n Hd|v s H1 H2|v s H1 H2|p n a b HF|p n a b HF]; cbn [w_key obind]; try (apply IH; now left).
    assert (G : exists r', MapView_at mem a k = Ok r' /\ reflects content buf r' (Map_at b k)).
    { clear IH. induction HF as [|[v x] [k' y] a b (H1 & H2 & H3) HF (r' & IH & Hr)]; cbn [MapView_at Map_at].
      - exists ONull. split; [reflexivity|now left].
      - cbn [fst snd] in *. rewrite (Hrv _ _ H1 H2). cbn [obind]. destruct (bytes_eqb k' k); [exists x; split; [reflexivity|now right]|]. exists r'. auto. }
    destruct G as (r' & -> & Hr). cbn [obind]. now apply IH.
  - destruct H as [[-> ->]|H]; [cbn [w_idx obind]; apply IH; now left|].
    destruct H as [dt t m Hd|v s H1 H2|v s H1 H2|p m a b HF|p m a b HF]; cbn [w_idx obind]; try (apply IH; now left).
    apply IH. unfold Array_at. destruct (m <=? n); [now left|]. generalize (N.to_nat (m - 1 - n)). clear IH.
    induction HF as [|x y a b Hxy HF IHF]; intros [|q]; cbn [walk]; [now left|now left|now right|apply IHF].
Qed.

Lemma reflects_seen content buf mem (Hm : mem buf = Some content) o o' path :
  (forall w, api_walk mem o path = Ok w -> w = ONull \/ well_formed (fun _ => True) false w) ->
  reflects content buf o' o -> api_seen mem o' path = api_seen mem o path.
Proof.
  intros Hwf H. destruct (echo_walk content buf mem Hm path o o' H) as (r & Hr & r' & Hr' & Hrr). specialize (Hwf r Hr).
  unfold api_seen. rewrite Hr, Hr'. cbn [obind]. destruct Hrr as [[-> ->]|He]; [reflexivity|].
  destruct r as [|dt s| | | |]; try (inversion He; subst; reflexivity).
  destruct Hwf as [Hwf|Hwf]; [discriminate|]. inversion Hwf as [? ? x Hx| | | |]; subst.
  assert (Hd : denotes mem (OData dt s) (VScalar x)) by (now constructor).
  pose proof (echo_denotes content buf mem Hm _ _ _ He Hd) as Hd'.
  pose proof (api_seen_ok mem _ _ [] Hd) as A. pose proof (api_seen_ok mem _ _ [] Hd') as B. unfold api_seen in A, B. cbn [api_walk obind] in A, B. congruence.
Qed.

(** Taking "root" out. *)
Lemma take_root_echo content buf o' o r : echo content buf o' o -> take_root content o = Ok r ->
  exists r', take_root content o' = Ok r' /\ reflects content buf r' r.
Proof.
  intros He H. destruct He as [dt t n Hd|v s H1 H2|v s H1 H2|p n a b HF|p n a b HF]; cbn [take_root] in H; try discriminate. injection H as <-. cbn [take_root].
  assert (G : exists x, MapView_take (fun _ => Some content) a root_key = Ok x /\ reflects content buf (fst x) (fst (Map_take b root_key))).
  { induction HF as [|[v x] [k' y] a b (H1 & H2 & H3) HF (r' & IH & Hr)]; cbn [MapView_take Map_take].
    - eexists. split; [reflexivity|now left].
    - cbn [fst snd] in *. unfold read_view at 1. rewrite H2. cbn [obind]. destruct (bytes_eqb k' root_key); [eexists; split; [reflexivity|now right]|].
      rewrite IH. cbn [obind]. destruct r' as [r1 l1]. destruct (Map_take b root_key) as [r2 l2]. eexists. split; [reflexivity|exact Hr]. }
  destruct G as (x & -> & Hr). cbn [obind]. eauto.
Qed.

Lemma take_root_back content buf o' o r' : echo content buf o' o -> take_root content o' = Ok r' ->
  exists r, take_root content o = Ok r /\ reflects content buf r' r.
Proof.
  intros He H. assert (G : exists r, take_root content o = Ok r).
  { destruct He as [dt t n Hd|v s H1 H2|v s H1 H2|p n a b HF|p n a b HF]; cbn [take_root] in *; try discriminate. eauto. }
  destruct G as (r & Hr). exists r. split; [exact Hr|]. destruct (take_root_echo _ _ _ _ _ He Hr) as (r2 & H2 & Hrr). congruence.
Qed.

(** The whole of Parse. *)
Lemma Parse_follows c fuel content buf p sch o : sane c -> Parse c fuel content buf p {| po_type := sch; po_ref := false |} = Ok o ->
  Parse c fuel content buf p {| po_type := sch; po_ref := true |} = Throw ERuntime \/
  exists o', Parse c fuel content buf p {| po_type := sch; po_ref := true |} = Ok o' /\ reflects content buf o' o.
Proof.
  intros Hsane H. unfold Parse in *. destruct (initFromContent c fuel content buf) as [sc| | | |] eqn:Hsc; try discriminate. cbn [obind] in *.
  assert (Hget : forall id v, getter c (sc_map sc) id = Ok v -> v_buf v = b_buf (doc_env c content buf sc)).
  { intros id v Hg. exact (proj1 (getter_view _ _ _ _ _ _ _ Hsane Hsc Hg)). }
  unfold Parse_prog in *. cbn [po_type po_ref] in *.
  assert (N : forall o, run (getter c (sc_map sc)) (NormalParse_prog (doc_env c content buf sc) fuel false p (sc_total sc)) = Ok o ->
     run (getter c (sc_map sc)) (NormalParse_prog (doc_env c content buf sc) fuel true p (sc_total sc)) = Throw ERuntime \/
     exists o', run (getter c (sc_map sc)) (NormalParse_prog (doc_env c content buf sc) fuel true p (sc_total sc)) = Ok o' /\ reflects content buf o' o).
  { clear o H. intros o H. unfold NormalParse_prog in *. rewrite run_bind in H |- *. apply obind_ok in H as ([root s] & Hv & H).
    destruct (values_sim (doc_env c content buf sc) (getter c (sc_map sc)) p Hget fuel) as (VS & _ & _). apply VS in Hv. destruct (custom_obj root).
    { left. now rewrite Hv. }
    destruct Hv as (root' & -> & He). cbn [obind]. destruct (negb (off s =? sc_total sc)); [discriminate|]. rewrite run_lift in H |- *. cbn [b_env doc_env root_env r_content] in *.
    destruct (take_root_echo _ _ _ _ _ He H) as (r' & -> & Hr). right. eauto. }
  destruct sch; [now apply N|]. destruct (sc_need_to_split sc); [|now apply N]. clear N.
  unfold CoroParse_prog in *. rewrite run_bind in H |- *. apply obind_ok in H as ([root s] & Hv & H).
  destruct (para_sim (doc_env c content buf sc) (sc_split sc) (getter c (sc_map sc)) Hget fuel) as (_ & VS & _). apply VS in Hv. destruct (custom_obj root).
  { left. now rewrite Hv. }
  destruct Hv as (root' & -> & He). cbn [obind]. rewrite run_lift in H |- *. cbn [b_env doc_env root_env r_content] in *.
  destruct (take_root_echo _ _ _ _ _ He H) as (r' & -> & Hr). right. eauto.
Qed.

Lemma Parse_follows_back c fuel content buf p sch o' : sane c -> fits c content -> short_varints content ->
  Parse c fuel content buf p {| po_type := sch; po_ref := true |} = Ok o' ->
  exists o, Parse c fuel content buf p {| po_type := sch; po_ref := false |} = Ok o /\ reflects content buf o' o.
Proof.
  intros Hsane HL Hshort H. unfold Parse in *. destruct (initFromContent c fuel content buf) as [sc| | | |] eqn:Hsc; try discriminate. cbn [obind] in *.
  assert (Hget : forall id v, getter c (sc_map sc) id = Ok v -> v_buf v = b_buf (doc_env c content buf sc) /\ exists s, read_local (b_env (doc_env c content buf sc)) v = Ok s).
  { intros id v Hg. exact (getter_view _ _ _ _ _ _ _ Hsane Hsc Hg). }
  destruct (init_header _ _ _ _ _ Hsc) as (size & t & f & rest0 & Hc & Hsz & _).
  assert (H10 : 10 <= len content) by (rewrite Hc; rewrite !len_app, Hsz, !len_cons, len_nil; lia).
  unfold Parse_prog in *. cbn [po_type po_ref] in *.
  assert (N : forall o', run (getter c (sc_map sc)) (NormalParse_prog (doc_env c content buf sc) fuel true p (sc_total sc)) = Ok o' ->
     exists o, run (getter c (sc_map sc)) (NormalParse_prog (doc_env c content buf sc) fuel false p (sc_total sc)) = Ok o /\ reflects content buf o' o).
  { clear o' H. intros o' H. unfold NormalParse_prog in *. rewrite run_bind in H |- *. apply obind_ok in H as ([root s] & Hv & H).
    destruct (values_back (doc_env c content buf sc) (getter c (sc_map sc)) p eq_refl eq_refl HL Hget (short_tame _ _ _ _ Hshort) fuel) as (VS & _ & _).
    change {| idx := meta_size; off := meta_size |} with (at_ 10) in *. apply VS in Hv as (o & j & Ho & He & -> & _); [|exact H10]. rewrite Ho. cbn [obind].
    destruct (negb (off (at_ j) =? sc_total sc)); [discriminate|]. rewrite run_lift in H |- *. cbn [b_env doc_env root_env r_content] in *.
    destruct (take_root_back _ _ _ _ _ He H) as (r' & -> & Hr). eauto. }
  destruct sch; [now apply N|]. destruct (sc_need_to_split sc); [|now apply N]. clear N.
  unfold CoroParse_prog in *. rewrite run_bind in H |- *. apply obind_ok in H as ([root s] & Hv & H).
  destruct (para_back (doc_env c content buf sc) (sc_split sc) (getter c (sc_map sc)) eq_refl eq_refl HL Hget (short_tame _ _ _ _ Hshort) fuel) as (_ & VS & _).
  apply VS in Hv as (o & Ho & He). rewrite Ho. cbn [obind]. rewrite run_lift in H |- *. cbn [b_env doc_env root_env r_content] in *.
  destruct (take_root_back _ _ _ _ _ He H) as (r' & -> & Hr). eauto.
Qed.

Lemma reflects_parsed c fuel content buf p sch o o' mem path : Parse c fuel content buf p {| po_type := sch; po_ref := false |} = Ok o ->
  reflects content buf o' o -> mem buf = Some content -> api_seen mem o' path = api_seen mem o path /\ exists s, api_seen mem o' path = Ok s.
Proof.
  intros HP Hr Hm. assert (Heq : api_seen mem o' path = api_seen mem o path).
  { eapply reflects_seen; [exact Hm| |exact Hr]. intros w Hw. eapply walk_well_formed; [|exact Hw]. apply C16_result_well_formed in HP. exact HP. }
  split; [exact Heq|]. rewrite Heq. eapply C16_reads_are_defined; eauto.
Qed.

(** C86.  For either scheduler and whatever the input is: if copying accepts it,
    reading in place either throws or accepts it too, and then shows the same
    content along every path while the buffer holds the document. *)
Theorem C86_insitu_follows_copy : forall c fuel content buf p sch o, sane c ->
  Parse c fuel content buf p {| po_type := sch; po_ref := false |} = Ok o ->
  Parse c fuel content buf p {| po_type := sch; po_ref := true |} = Throw ERuntime \/
  exists o', Parse c fuel content buf p {| po_type := sch; po_ref := true |} = Ok o' /\
    forall mem path, mem buf = Some content -> api_seen mem o' path = api_seen mem o path /\ exists s, api_seen mem o' path = Ok s.
Proof.
  intros c fuel content buf p sch o Hs H. destruct (Parse_follows c fuel content buf p sch o Hs H) as [HT|(o' & HP & Hr)]; [now left|right].
  exists o'. split; [exact HP|]. intros mem path Hm. eapply reflects_parsed; eauto.
Qed.

(** It throws if custom data is found anywhere in the copy ... *)
Theorem C86_custom_refused : forall c fuel content buf p sch o mem path s, sane c ->
  Parse c fuel content buf p {| po_type := sch; po_ref := false |} = Ok o ->
  api_seen mem o path = Ok (SeenScalar (VCustom s)) ->
  Parse c fuel content buf p {| po_type := sch; po_ref := true |} = Throw ERuntime.
Proof.
  intros c fuel content buf p sch o mem path s Hs HP Hseen. destruct (Parse_follows c fuel content buf p sch o Hs HP) as [HT|(o' & HP' & Hr)]; [exact HT|exfalso].
  set (m := fun _ : nat => Some content). assert (Hm : m buf = Some content) by reflexivity.
  destruct (echo_walk content buf m Hm path o o' Hr) as (r & Hw & r' & Hw' & Hrr).
  assert (Hwm : api_walk mem o path = Ok r).
  { apply C16_result_well_formed in HP. cbn [po_ref] in HP. clear - HP Hw. revert o HP Hw. induction path as [|[k|n] path IH]; intros o HP Hw; cbn [api_walk] in *; [exact Hw| |].
    - apply obind_ok in Hw as (w & Hk & Hw). assert (Hk' : w_key mem o k = Ok w).
      { destruct HP as [->|HP]; [exact Hk|]. inversion HP; subst; exact Hk. }
      rewrite Hk'. cbn [obind]. apply IH; [|exact Hw]. eapply (walk_well_formed _ _ m [Key k] o w); [exact HP|]. cbn. now rewrite Hk.
    - apply obind_ok in Hw as (w & Hk & Hw). rewrite Hk. cbn [obind]. apply IH; [|exact Hw]. eapply (walk_well_formed _ _ m [Idx n] o w); [exact HP|]. cbn. now rewrite Hk. }
  unfold api_seen in Hseen. rewrite Hwm in Hseen. cbn [obind] in Hseen. apply C16_result_well_formed in HP. cbn [po_ref] in HP.
  pose proof (walk_well_formed _ _ _ _ _ _ HP Hwm) as Hwf. destruct Hrr as [[-> ->]|He]; [discriminate|]. apply echo_no_custom in He.
  destruct Hwf as [->|Hwf]; [discriminate|]. inversion Hwf as [dt st x Hx| | | |]; subst; cbn [w_Empty w_GetType GetType w_Size obind] in Hseen; try discriminate.
  assert (x = VCustom s).
  { pose proof (api_seen_ok mem (OData dt st) (VScalar x) []) as A. unfold api_seen in A. cbn [api_walk obind w_Empty w_GetType GetType w_Size] in A.
    rewrite Hseen in A. assert (Hd : denotes mem (OData dt st) (VScalar x)) by (now constructor). specialize (A Hd). injection A as A. congruence. }
  subst x. inversion Hx; subst. discriminate.
Qed.

(** ... and for the parallel scheduler, as for the sequential one in C76, exactly
    if the positional grammar (C82) finds custom data in the input. *)
Lemma custom_tree p v : custom_obj (tree_of p v) = has_custom v.
Proof.
  induction v as [x|l IH|l IH] using value_ind'; cbn [tree_of custom_obj has_custom].
  - destruct x as [| | |t n]; cbn; try reflexivity. destruct t; reflexivity.
  - rewrite existsb_rev. induction IH as [|v l Hv HF IHF]; cbn; [reflexivity|]. now rewrite Hv, IHF.
  - induction IH as [|[k v] l Hv HF IHF]; cbn; [reflexivity|]. cbn in Hv. now rewrite Hv, IHF.
Qed.

Theorem C86_parallel_insitu_exactly : forall c fuel content buf p o, sane c -> fits c content -> announced content ->
  b2n (nth 9 content x00) = 10 ->
  Parse c fuel content buf p parallel = Ok o ->
  exists ty D blocks main rest entries j,
    content = main ++ rest /\ len main = big_endian (firstn 8 content) /\
    b2n (nth 8 content x00) = SeriTypeToChar ty /\ ptables false ty D blocks rest /\
    pmap content (negb (ndebug c)) D blocks 10 entries j /\ o = pmeaning entries /\
    (~ no_custom (VMap entries) -> Parse c fuel content buf p {| po_type := Coroutine; po_ref := true |} = Throw ERuntime) /\
    (no_custom (VMap entries) -> exists o', Parse c fuel content buf p {| po_type := Coroutine; po_ref := true |} = Ok o' /\
       forall mem path, mem buf = Some content -> api_seen mem o' path = api_seen mem o path /\ exists s, api_seen mem o' path = Ok s).
Proof.
  intros c fuel content buf p o Hsane HL Han H9 HP. pose proof HP as H. unfold Parse in H. apply obind_ok in H as (sc & Hsc & H).
  unfold Parse_prog in H. cbn [po_type po_ref] in H. rewrite (init_flag _ _ _ _ _ Hsc), H9 in H. cbn [N.eqb Pos.eqb] in H.
  destruct (init_header _ _ _ _ _ Hsc) as (size & t & f & rest0 & Hc & Hsz & Htot & Hlt & Hf & Hm).
  assert (H8 : firstn 8 content = size /\ nth 8 content x00 = t).
  { rewrite Hc. unfold len in *. split.
    - rewrite firstn_app, firstn_all2 by lia. replace (8 - length size)%nat with 0%nat by lia. now rewrite firstn_O, app_nil_r.
    - rewrite app_nth2 by lia. replace (8 - length size)%nat with 0%nat by lia. reflexivity. }
  destruct H8 as [H8 H8t].
  set (main := firstn (N.to_nat (sc_total sc)) content). set (rest := skipn (N.to_nat (sc_total sc)) content).
  assert (Hmr : content = main ++ rest) by (symmetry; apply firstn_skipn).
  assert (Hlm : len main = sc_total sc) by (unfold main, len in *; rewrite firstn_length; lia).
  destruct (init_ptables c fuel content buf sc Hsane HL Han Hsc main rest Hmr Hlm) as (ty & Hty & HT).
  destruct (ptables_bounds _ _ _ _ _ HT) as [_ HB].
  set (E := doc_env c content buf sc) in *. set (D := known_option c content (sc_map sc)) in *.
  assert (Hmap : ModelParse.b_map E = match D with Some _ => true | None => false end) by (unfold D; cbn; now destruct (sc_map sc)).
  assert (Hget : forall d id v s, D = Some d -> getter c (sc_map sc) id = Ok v -> read_local (b_env E) v = Ok s -> d id = Some s).
  { intros d id v s0 Hd Hg Hr. unfold D, known_option in Hd. destruct (sc_map sc) as [m|]; [|discriminate]. injection Hd as <-.
    unfold known_strings. rewrite Hg. change (b_env E) with (root_env c content) in Hr. rewrite Hr. reflexivity. }
  unfold CoroParse_prog, meta_size in H. rewrite run_bind in H. apply obind_ok in H as ([root j] & Hv & H).
  destruct (para_sim E (sc_split sc) (getter c (sc_map sc))) with (fuel := fuel) as (_ & PS & _).
  { intros id v Hg. exact (proj1 (getter_view _ _ _ _ _ _ _ Hsane Hsc Hg)). }
  pose proof (PS _ _ _ Hv) as HS. clear PS.
  destruct (para_sound E (sc_split sc) (getter c (sc_map sc)) D eq_refl eq_refl HL Hmap Hget) with (fuel := fuel) as (_ & PM & _).
  { intros id l Hin. destruct (HB id l Hin) as [B1 B2]. split; [exact B1|]. cbn. rewrite Hmr, len_app. lia. }
  apply PM in Hv as (es & Hes & -> & _). pose proof H as Htr. cbn [tree_of take_root] in H. rewrite run_lift, take_root_first in H. injection H as <-.
  exists ty, D, (si_info (sc_split sc)), main, rest, es, j. split; [exact Hmr|]. split; [rewrite Hlm, Htot, H8; reflexivity|].
  split. { rewrite H8t. destruct Hm as [[-> Hmm]|[-> (m & Hmm)]]; rewrite Hmm in Hty; destruct ty; try reflexivity; exfalso; destruct Hty as [Y1 Y2]; [now specialize (Y2 eq_refl)|now specialize (Y1 eq_refl)]. }
  split; [exact HT|]. split; [exact Hes|]. split; [reflexivity|].
  assert (HPr : Parse c fuel content buf p {| po_type := Coroutine; po_ref := true |} =
    run (getter c (sc_map sc)) (CoroParse_prog E (sc_split sc) fuel true)).
  { unfold Parse. rewrite Hsc. cbn [obind]. unfold Parse_prog. cbn [po_type po_ref]. rewrite (init_flag _ _ _ _ _ Hsc), H9. reflexivity. }
  rewrite HPr. unfold CoroParse_prog, meta_size. rewrite run_bind. rewrite custom_tree in HS. destruct (has_custom (VMap es)) eqn:Hcu.
  - split; [intros _; now rewrite HS|]. intros Hn. apply has_custom_no in Hn. congruence.
  - split; [intros Hn; exfalso; apply Hn; now apply has_custom_no|]. intros _. destruct HS as (root' & -> & He). cbn [obind]. rewrite run_lift in Htr |- *. cbn [b_env doc_env E root_env r_content] in *.
    destruct (take_root_echo _ _ _ _ _ He Htr) as (r' & -> & Hr). exists r'. split; [reflexivity|]. intros mem path Hm'. eapply reflects_parsed; [exact HP|exact Hr|exact Hm'].
Qed.

(** C77, for either scheduler (the huge length field remains the exception). *)
Theorem C77_views_inside_all_schedulers_partial : forall c fuel content buf p sch o', sane c -> fits c content ->
  (forall i, exists j, (j < 9)%nat /\ b2n (nth (i + j) content x00) < 128) ->
  Parse c fuel content buf p {| po_type := sch; po_ref := true |} = Ok o' ->
  exists o, Parse c fuel content buf p {| po_type := sch; po_ref := false |} = Ok o /\
    forall mem path, mem buf = Some content -> api_seen mem o' path = api_seen mem o path /\ exists s, api_seen mem o' path = Ok s.
Proof.
  intros c fuel content buf p sch o' Hsane HL Hshort HP. destruct (Parse_follows_back c fuel content buf p sch o' Hsane HL Hshort HP) as (o & HPo & Hr).
  exists o. split; [exact HPo|]. intros mem path Hm. eapply reflects_parsed; eauto.
Qed.

(** C42, exactly, for either scheduler. *)
Lemma has_custom_same v w : same_content v w -> has_custom v = has_custom w.
Proof.
  revert w. induction v as [x|l IH|l IH] using value_ind'; intros w H; inversion H as [|? l' HF|? l1 l' HP HF]; subst; cbn [has_custom].
  - reflexivity.
  - clear H. induction HF as [|a b l l' Hab HF IHF]; cbn; [reflexivity|]. inversion IH; subst. now rewrite (H1 _ Hab), (IHF H2).
  - assert (IH' : Forall (fun e => forall w, same_content (snd e) w -> has_custom (snd e) = has_custom w) l1) by (eapply Permutation_Forall; eauto).
    transitivity (existsb (fun e => has_custom (snd e)) l1).
    + apply eq_true_iff_eq. rewrite !existsb_exists. split; intros (y & Hy & Hc); exists y; (split; [|exact Hc]); [eapply Permutation_in; [exact HP|exact Hy]|eapply Permutation_in; [symmetry; exact HP|exact Hy]].
    + clear - IH' HF. induction HF as [|a b l1 l' [_ Hab] HF IHF]; cbn; [reflexivity|]. inversion IH'; subst. now rewrite (H1 _ Hab), (IHF H2).
Qed.

Lemma denotes_custom mem o v : denotes mem o v -> owning o -> custom_obj o = has_custom v.
Proof.
  revert v. induction o as [|dt s|dt s|p n items IH|p n items IH|p n items IH] using obj_ind'; intros v Hd Ho; inversion Hd; subst; inversion Ho; subst; cbn [custom_obj has_custom].
  - match goal with H : data_denotes _ _ _ |- _ => inversion H; subst end; try reflexivity. destruct t; reflexivity.
  - match goal with H : view_denotes _ _ _ _ |- _ => inversion H; subst end; reflexivity.
  - rewrite <- (existsb_rev has_custom). match goal with H : Forall2 (denotes _) _ _ |- _ => rename H into HF end.
    match goal with H : Forall (all_views _) _ |- _ => rename H into HO end. clear - HF HO IH. revert HO IH. induction HF as [|a b items w Hab HF IHF]; intros HO IH; cbn; [reflexivity|].
    inversion HO; subst. inversion IH; subst. now rewrite (H3 _ Hab H1), (IHF H2 H4).
  - match goal with H : Forall2 _ _ _ |- _ => rename H into HF end.
    match goal with H : Forall (fun e => all_views _ (snd e)) _ |- _ => rename H into HO end. clear - HF HO IH. revert HO IH. induction HF as [|a b items w [_ Hab] HF IHF]; intros HO IH; cbn; [reflexivity|].
    inversion HO; subst. inversion IH; subst. now rewrite (H3 _ Hab H1), (IHF H2 H4).
  - match goal with H : Forall2 _ _ _ |- _ => inversion H; subst; [reflexivity|] end.
    match goal with H : Forall (fun e => _ /\ _) (_ :: _) |- _ => inversion H; subst end; tauto.
Qed.

Theorem C42_insitu_exactly_all_schedulers_partial : forall cs cp mem ty p o v content buf fuel p' sch,
  sane cs -> sane cp -> denotes mem o v ->
  Serialize cs mem ty p o = Ok content -> fits cp content -> (length content <= fuel)%nat ->
  (no_custom v -> exists o', Parse cp fuel content buf p' {| po_type := sch; po_ref := true |} = Ok o' /\ o' <> ONull) /\
  (~ no_custom v -> Parse cp fuel content buf p' {| po_type := sch; po_ref := true |} = Throw ERuntime).
Proof.
  intros cs cp mem ty p o v content buf fuel p' sch Hcs Hcp Hd Hs Hf Hfuel. split.
  - intros Hn. exact (C42_insitu_accepts_partial cs cp mem ty p o v content buf fuel p' sch Hcs Hcp Hd Hn Hs Hf Hfuel).
  - intros Hn.
    pose proof (transport cs cp mem ty p o v content [] buf fuel p' {| po_type := sch; po_ref := false |}) as H.
    rewrite app_nil_r in H. destruct H as (o' & v' & HP & Hsc & _ & Hr & _); auto; [discriminate|]. cbn in Hr.
    assert (Hden : denotes no_mem o' v') by (apply Hr; discriminate).
    destruct (Parse_follows cp fuel content buf p' sch o' Hcp HP) as [HT|(o2 & _ & Hrf)]; [exact HT|exfalso].
    destruct Hrf as [[_ ->]|He]; [inversion Hden|]. apply echo_no_custom in He.
    apply C16_result_well_formed in HP as [->|HP]; [inversion Hden|]. cbn [po_ref] in HP. apply well_formed_owning in HP.
    rewrite (denotes_custom _ _ _ Hden HP), <- (has_custom_same _ _ Hsc) in He. apply Hn. now apply has_custom_no.
Qed.

(** ** The hypotheses are met: a split document and one with custom data. *)
Definition split_plain : bytes := two_main [] ++ section (split_bytes [(0, [16]); (1, [4; 4])]).
Definition custom_main : bytes :=
  let body := str [1] ++ str [0] ++ (str [4] ++ root_key) ++ str [130; 2; 1] ++ str [0; 0; 1; 97] ++ str [0; 12; 1; 98] in
  be_bytes 8 (10 + len body) ++ [n2b 0] ++ [n2b 10] ++ body.
Definition custom_doc : bytes := custom_main ++ section (split_bytes [(0, [16]); (1, [4; 4])]).

Example C86_met :
  (exists o o', Parse x86_release 200 split_plain 7 p1 parallel = Ok o /\
     Parse x86_release 200 split_plain 7 p1 {| po_type := Coroutine; po_ref := true |} = Ok o' /\ o <> o' /\
     api_seen (mem1 7 split_plain) o' [Idx 1] = Ok (SeenScalar (VBytes (str [97]))) /\ b2n (nth 9 split_plain x00) = 10 /\
     (forall i, exists j, (j < 9)%nat /\ b2n (nth (i + j) split_plain x00) < 128)) /\
  (exists o, Parse x86_release 200 custom_doc 7 p1 parallel = Ok o /\ api_seen no_mem o [Idx 0] = Ok (SeenScalar (VCustom (str [98]))) /\
     Parse x86_release 200 custom_doc 7 p1 {| po_type := Coroutine; po_ref := true |} = Throw ERuntime).
Proof.
  split.
  - do 2 eexists. split; [vm_compute; reflexivity|]. split; [vm_compute; reflexivity|]. split; [discriminate|]. split; [vm_compute; reflexivity|]. split; [reflexivity|].
    intros i. destruct (le_lt_dec (length split_plain) i) as [Hi|Hi].
    + exists 0%nat. split; [lia|]. rewrite nth_overflow by lia. vm_compute. reflexivity.
    + assert (G : forallb (fun i => existsb (fun j => b2n (nth (i + j) split_plain x00) <? 128) [0; 1; 2; 3; 4; 5; 6; 7; 8]%nat) (seq 0 (length split_plain)) = true) by (vm_compute; reflexivity).
      rewrite forallb_forall in G. specialize (G i). rewrite in_seq in G. specialize (G ltac:(lia)). apply existsb_exists in G as (j & Hj & H).
      exists j. split; [cbn in Hj; lia|]. apply N.ltb_lt. exact H.
  - eexists. split; [vm_compute; reflexivity|]. split; vm_compute; reflexivity.
Qed.
