(** * Property C85: the life of the input buffer after an in-place parse. *)
From Verif Require Import Base BaseLemmas ModelVarint ModelData ModelSecondary ModelObject
  ModelParse ModelWrapper Spec SpecApi VarintProofs Wire NumProofs SeriProofs SeriProofs2 DocProofs ObjInd ParseLemmas
  NormalProofs SecondaryProofs ValueProofs ParaProofs RoundTrip GeneralProofs ApiProofs Samples PropRoundTrip PropDocument PropHostile.
From Coq Require Import ZifyBool ZifyNat ZifyN.

(** Equal but for the characters of strings, byte strings and keys. *)
Inductive same_shape : value -> value -> Prop :=
| ss_num t n : same_shape (VScalar (VNum t n)) (VScalar (VNum t n))
| ss_str s s' : len s = len s' -> same_shape (VScalar (VStr s)) (VScalar (VStr s'))
| ss_bytes s s' : len s = len s' -> same_shape (VScalar (VBytes s)) (VScalar (VBytes s'))
| ss_arr l l' : Forall2 same_shape l l' -> same_shape (VArr l) (VArr l')
| ss_map l l' : Forall2 (fun e e' => len (fst e) = len (fst e') /\ same_shape (snd e) (snd e')) l l' -> same_shape (VMap l) (VMap l').

Lemma Forall2_rev_iff {A B} (P : A -> B -> Prop) l l' : Forall2 P l (rev l') -> Forall2 P (rev l) l'.
Proof. intros H. apply Forall2_rev in H. now rewrite rev_involutive in H. Qed.

(** Reading the same objects with another content of the buffer. *)
Lemma reread mem mem' (P : view -> Prop) : (forall w s, P w -> read_view mem w = Ok s -> exists s', read_view mem' w = Ok s' /\ len s = len s') ->
  forall o v, all_views P o -> well_formed (fun _ => True) true o -> denotes mem o v -> exists v', denotes mem' o v' /\ same_shape v v'.
Proof.
  intros HP. induction o as [|dt s|dt s|q n l IH|q n l IH|q n l IH] using obj_ind'; intros v Hv Hw Hd; inversion Hw; subst; inversion Hd; subst; inversion Hv; subst.
  - match goal with H : view_denotes _ _ _ _ |- _ => inversion H as [w s0 Hr|w s0 Hr|t n0 Hn]; subst end.
    + destruct (HP w s0) as (s' & Hs' & Hl); auto. exists (VScalar (VStr s')). split; [constructor; now constructor|now constructor].
    + destruct (HP w s0) as (s' & Hs' & Hl); auto. exists (VScalar (VBytes s')). split; [constructor; now constructor|now constructor].
    + exists (VScalar (VNum t n0)). split; [constructor; now constructor|constructor].
  - match goal with H : Forall2 (denotes mem) l (rev ?w) |- _ => rename H into HF; rename w into vs end.
    assert (G : exists ws, Forall2 (denotes mem') l ws /\ Forall2 same_shape (rev vs) ws).
    { match goal with A : Forall (well_formed _ _) l, B : Forall (all_views P) l |- _ => revert A B end. clear - IH HF. induction HF as [|a b l w Hab HF IHF]; intros HW HV.
      - exists []. split; constructor.
      - inversion IH; inversion HW; inversion HV; subst. destruct IHF as (ws & W1 & W2); auto.
        match goal with H : forall v, _ -> _ -> denotes mem a v -> _ |- _ => destruct (H b) as (b' & B1 & B2); auto end.
        exists (b' :: ws). split; constructor; auto. }
    destruct G as (ws & W1 & W2). exists (VArr (rev ws)). split; [constructor; [assumption|now rewrite rev_involutive]|].
    constructor. apply Forall2_rev in W2. now rewrite rev_involutive in W2.
  - match goal with H : Forall2 _ l ?w |- _ => rename H into HF; rename w into vs end.
    assert (G : exists ws, Forall2 (fun i e => read_view mem' (fst i) = Ok (fst e) /\ denotes mem' (snd i) (snd e)) l ws /\
                           Forall2 (fun e e' => len (fst e) = len (fst e') /\ same_shape (snd e) (snd e')) vs ws).
    { match goal with A : Forall (fun e => well_formed _ _ _) l, B : Forall (fun e => P _ /\ all_views P _) l |- _ => revert A B end.
      clear - IH HF HP. induction HF as [|a b l w [Hk Hab] HF IHF]; intros HW HV.
      - exists []. split; constructor.
      - inversion IH; inversion HW; inversion HV as [|? ? [V1 V2] V3]; subst. destruct IHF as (ws & W1 & W2); auto.
        match goal with H : forall v, _ -> _ -> denotes mem (snd a) v -> _ |- _ => destruct (H (snd b)) as (b' & B1 & B2); auto end.
        destruct (HP _ _ V1 Hk) as (k' & K1 & K2). exists ((k', b') :: ws). split; constructor; auto. }
    destruct G as (ws & W1 & W2). exists (VMap ws). split; constructor; auto.
Qed.

(** C85, overwritten buffer: the result of an in-place parse keeps its structure,
    its numbers and the lengths of all texts, and every read stays defined, whatever
    the program writes over the buffer, as long as the buffer does not become
    shorter. *)
Theorem C85_buffer_overwritten : forall cs cp mem ty p o v content buf fuel p' sch,
  sane cs -> sane cp -> denotes mem o v -> no_custom v ->
  Serialize cs mem ty p o = Ok content -> fits cp content -> (length content <= fuel)%nat ->
  exists o' v1, Parse cp fuel content buf p' {| po_type := sch; po_ref := true |} = Ok o' /\ same_content v v1 /\
    (forall mem1 path, mem1 buf = Some content -> api_seen mem1 o' path = Ok (seen_at v1 path)) /\
    forall mem2 content2, mem2 buf = Some content2 -> len content <= len content2 ->
      exists v2, same_shape v1 v2 /\ forall path, api_seen mem2 o' path = Ok (seen_at v2 path).
Proof.
  intros cs cp mem ty p o v content buf fuel p' sch Hcs Hcp Hd Hnc Hs Hf Hfuel.
  pose proof (transport cs cp mem ty p o v content [] buf fuel p' {| po_type := sch; po_ref := true |}) as H.
  rewrite app_nil_r in H. destruct H as (o' & v' & HP & Hsc & _ & Hr & Hv); auto. cbn [po_ref] in *.
  exists o', v'. split; [exact HP|]. split; [exact Hsc|]. split; [intros mem1 path Hm; apply api_seen_ok; now apply Hr|].
  intros mem2 content2 Hm2 Hl.
  set (mem1 := fun b => if Nat.eqb b buf then Some content else None).
  assert (Hm1 : mem1 buf = Some content) by (unfold mem1; now rewrite Nat.eqb_refl).
  specialize (Hr mem1 (fun _ => Hm1)). apply C16_result_well_formed in HP as [->|HW]; [inversion Hr|]. cbn [po_ref] in HW.
  destruct (reread mem1 mem2 (inside buf (len content))) with (o := o') (v := v') as (v2 & D2 & S2); auto.
  - intros w s Hw Hs1. destruct (inside_readable mem1 buf content w Hm1 Hw) as (s1 & R1 & L1). rewrite R1 in Hs1. injection Hs1 as ->.
    destruct (inside_readable mem2 buf content2 w Hm2) as (s2 & R2 & L2); [destruct Hw; split; [assumption|lia]|].
    exists s2. split; [exact R2|lia].
  - eapply all_views_impl; [|exact Hv]. cbn. tauto.
  - exists v2. split; [exact S2|]. intros path. now apply api_seen_ok.
Qed.

(** C85, buffer gone: what is reached by indexes, types, sizes and numbers is still
    there, in every memory; reading a text that is not empty is undefined. *)
Definition only_indexes (path : list step) : Prop := Forall (fun s => match s with Idx _ => True | Key _ => False end) path.

Lemma walk_indexes mem mem' path : only_indexes path -> forall o, api_walk mem o path = api_walk mem' o path.
Proof.
  induction 1 as [|[k|n] path Hs Hp IH]; intros o; [reflexivity|contradiction|]. cbn. destruct (w_idx o n); cbn; auto.
Qed.

Lemma walk_views (P : view -> Prop) mem path : forall o w, all_views P o -> api_walk mem o path = Ok w -> all_views P w.
Proof.
  induction path as [|[k|n] path IH]; intros o w Ho H; cbn in H; [injection H as <-; exact Ho| |]; apply obind_ok in H as (o1 & H1 & H); apply (IH o1 w); auto; clear IH H.
  - destruct o as [| | | |q m l|q m l]; cbn in H1; try (injection H1 as <-; constructor).
    + injection H1 as <-. inversion Ho as [| | | |? ? ? HF|]; subst. clear Ho. induction HF as [|[k' x] l Hx HF IHF]; cbn; [constructor|]. destruct (bytes_eqb k' k); auto.
    + inversion Ho as [| | | | |? ? ? HF]; subst. clear Ho. induction HF as [|[k' x] l Hx HF IHF]; cbn in H1; [injection H1 as <-; constructor|].
      apply obind_ok in H1 as (s & _ & H1). destruct (bytes_eqb s k); [injection H1 as <-; apply Hx|auto].
  - destruct o as [| | |q m l| |]; cbn in H1; try (injection H1 as <-; constructor). injection H1 as <-. inversion Ho as [| | |? ? ? HF| |]; subst.
    unfold Array_at. destruct (_ <=? _); [constructor|]. rewrite ValueProofs.walk_nth. destruct (nth_error l _) eqn:E; [|constructor].
    rewrite Forall_forall in HF. apply HF. eapply nth_error_In; eauto.
Qed.

Theorem C85_buffer_gone : forall cs cp mem ty p o v content buf fuel p' sch,
  sane cs -> sane cp -> denotes mem o v -> no_custom v ->
  Serialize cs mem ty p o = Ok content -> fits cp content -> (length content <= fuel)%nat ->
  exists o' v1, Parse cp fuel content buf p' {| po_type := sch; po_ref := true |} = Ok o' /\ same_content v v1 /\
    (forall mem1 path, only_indexes path ->
       match seen_at v1 path with
       | SeenScalar (VStr _) | SeenScalar (VBytes _) => True
       | s => api_seen mem1 o' path = Ok s
       end) /\
    forall mem2 path t, only_indexes path -> mem2 buf = None -> t <> [] ->
      seen_at v1 path = SeenScalar (VStr t) \/ seen_at v1 path = SeenScalar (VBytes t) -> api_seen mem2 o' path = UB.
Proof.
  intros cs cp mem ty p o v content buf fuel p' sch Hcs Hcp Hd Hnc Hs Hf Hfuel.
  pose proof (transport cs cp mem ty p o v content [] buf fuel p' {| po_type := sch; po_ref := true |}) as H.
  rewrite app_nil_r in H. destruct H as (o' & v' & HP & Hsc & _ & Hr & Hv); auto. cbn [po_ref] in *.
  exists o', v'. split; [exact HP|]. split; [exact Hsc|].
  set (mem0 := fun b => if Nat.eqb b buf then Some content else None).
  assert (Hm0 : mem0 buf = Some content) by (unfold mem0; now rewrite Nat.eqb_refl).
  specialize (Hr mem0 (fun _ => Hm0)). apply C16_result_well_formed in HP as HW. destruct HW as [->|HW]; [inversion Hr|]. cbn [po_ref] in HW.
  assert (Hv' : all_views (fun w => v_buf w = buf) o') by (eapply all_views_impl; [|exact Hv]; cbn; intros w [_ [Hw _]]; exact Hw).
  assert (G : forall mem1 path, only_indexes path ->
     exists w, api_walk mem1 o' path = Ok w /\ denotes_opt mem0 w (find v' path) /\ all_views (fun w => v_buf w = buf) w /\
               (w = ONull \/ well_formed (fun _ => True) true w)).
  { intros mem1 path Hp. destruct (api_walk_ok mem0 o' v' path Hr) as (w & W1 & W2). exists w. split; [now rewrite (walk_indexes mem1 mem0)|]. split; [exact W2|].
    split; [eapply walk_views; eauto|eapply walk_well_formed; eauto]. }
  split.
  - intros mem1 path Hp. destruct (G mem1 path Hp) as (w & W1 & W2 & _ & W3). unfold seen_at, api_seen. rewrite W1. cbn [obind].
    destruct (find v' path) as [x|]; [|cbn in W2; subst w; reflexivity]. cbn in W2.
    destruct W2 as [dt s x Hx|dt s x Hx|q n l vs -> HF|q n l vs -> HF|q n l vs -> HF].
    + destruct W3 as [|W3]; [discriminate|inversion W3].
    + destruct Hx as [w t Ht|w t Ht|t n Hn]; cbn [top]; auto. now destruct t.
    + cbn. rewrite (len_Forall2 _ _ _ HF), len_rev. reflexivity.
    + destruct W3 as [|W3]; [discriminate|inversion W3].
    + cbn. rewrite (len_Forall2 _ _ _ HF). reflexivity.
  - intros mem2 path t Hp Hm2 Ht Hseen. destruct (G mem2 path Hp) as (w & W1 & W2 & W4 & W3). unfold api_seen. rewrite W1. cbn [obind]. unfold seen_at in Hseen.
    destruct (find v' path) as [x|]; [|destruct Hseen; discriminate]. cbn in W2.
    destruct W2 as [dt s x Hx|dt s x Hx|q n l vs -> HF|q n l vs -> HF|q n l vs -> HF]; try (destruct Hseen; discriminate).
    + destruct W3 as [|W3]; [discriminate|inversion W3].
    + inversion W4 as [| |? ? Hb| | |]; subst. destruct Hx as [w y Hy|w y Hy|t' n Hn]; [| |destruct Hseen; discriminate];
        cbn; unfold read_view; rewrite (Hb w eq_refl), Hm2; reflexivity.
Qed.

Example C85_met : exists o', Parse tiny 200 (sample_doc tiny NORMAL) 7 p1 {| po_type := Coroutine; po_ref := true |} = Ok o' /\
  api_seen (fun _ => None) o' [] = Ok (SeenMap 3) /\
  api_seen (fun b => if Nat.eqb b 7 then Some (sample_doc tiny NORMAL) else None) o' [Key k_id] = Ok (SeenScalar (VNum I32 4294967295)) /\
  api_seen (fun b => if Nat.eqb b 7 then Some (repeat x00 (length (sample_doc tiny NORMAL))) else None) o' [Key (str [0; 0])] = Ok (SeenScalar (VNum I32 4294967295)).
Proof. eexists. split; [vm_compute; reflexivity|]. vm_compute. auto. Qed.
