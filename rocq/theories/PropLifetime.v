(** * Property C108: how long a parsed document lives. *)
From Verif Require Import Base BaseLemmas ModelVarint ModelData ModelSecondary ModelObject ModelParse ModelWrapper ModelPool ModelStorage ModelFrames
  ModelAlloc ModelParaAlloc ModelClient ModelSession Spec SpecApi SpecClient ParseLemmas Samples PropPool PropFrames ClientProofs PropClient SessionProofs ParaSessionProofs ParaSessionProofs2
  PropSession PropStable PropParaSession.
From Coq Require Import ZifyBool ZifyNat ZifyN.
Local Open Scope out_scope.

(** ** Where the content of a pool goes *)
(** [made]: how many pools were made so far; a pool made by moving gets that number. *)
Definition content_goes (made : nat) (op : bp_op) (x : nat) : option nat :=
  match op with
  | BpMerge i j => Some (if Nat.eqb x j then i else x)                            (* p_i.Merge(std::move(p_j)) *)
  | BpMove j => Some (if Nat.eqb x j then made else x)                            (* BridgePool p(std::move(p_j)) *)
  | BpAssign i j => if Nat.eqb x i then None else Some (if Nat.eqb x j then i else x)  (* p_i = std::move(p_j) *)
  | BpClear i | BpDestroy i => if Nat.eqb x i then None else Some x
  | BpNew | BpAlloc _ _ _ => Some x
  end.
Definition pools_made (s : session) : nat := length (w_pools (k_pools (se_client s) KData)).
(** The pool in which the content of pool [x] is after the calls [ops], if any. *)
Fixpoint now_in (c : cfg) (fuel : nat) (s : session) (ops : list scall) (x : nat) : option nat :=
  match ops with
  | [] => Some x
  | op :: ops' =>
      match se_step c fuel s op, (match op with SCall (CPool p) => content_goes (pools_made s) p x | _ => Some x end) with
      | Ok (s', _), Some y => now_in c fuel s' ops' y
      | _, _ => None
      end
  end.

(** ** Objects that are all at home in one place *)
(** Object [m] is as it was in [st0], and it and its entries are at home at [h]. *)
Definition at_home (st0 st : sstate) (h : option nat) (m : nat) : Prop :=
  forall o, nth_error (st_objs st0) m = Some o -> exists o', nth_error (st_objs st) m = Some o' /\
    so_cls o' = so_cls o /\ so_made o' = so_made o /\ so_home o' = h /\
    match so_content o, so_content o' with
    | SData x, SData x' => x' = x
    | SCont l, SCont l' => Forall2 (fun e e' => en_key e' = en_key e /\ en_val e' = en_val e /\ en_home e' = h) l l'
    | _, _ => False
    end.
Lemma home_kept st0 st st' h m : (forall o, nth_error (st_objs st) m = Some o -> nth_error (st_objs st') m = Some o) -> at_home st0 st h m -> at_home st0 st' h m.
Proof. intros HK H o Ho. destruct (H o Ho) as (o' & H1 & H2). exists o'. split; [now apply HK|exact H2]. Qed.
Lemma home_moves st0 st al f h m : at_home st0 st h m -> at_home st0 {| st_alive := al; st_objs := rehome_all f (st_objs st) |} (ohome f h) m.
Proof.
  intros H o Ho. destruct (H o Ho) as (o' & H1 & H2 & H3 & H4 & H5). exists (fo f o'). cbn [st_objs]. unfold rehome_all. rewrite nth_error_map, H1. split; [reflexivity|].
  cbn [fo so_cls so_made so_home so_content]. rewrite H4. repeat (split; [assumption || reflexivity|]). destruct (so_content o) as [x|l], (so_content o') as [x'|l']; try contradiction; [exact H5|].
  clear - H5. induction H5 as [|e e' l l' (A & B & C) _ IH]; cbn [map]; constructor; [|exact IH]. cbn [fe en_key en_val en_home]. rewrite C. auto.
Qed.
Lemma home_step st0 st op st' a h m : spec_step st op = Ok (st', a) -> ~ changes op m -> at_home st0 st h m ->
  at_home st0 st' (match op with CPool p => ohome (content_goes (length (st_alive st)) p) h | _ => h end) m.
Proof.
  intros E Hc H.
  assert (Hlook : looks op -> st' = st) by (intros Hl; eapply spec_looks_same; eauto).
  assert (Hmake : forall i k c st1, make st i k c = Ok st1 -> at_home st0 st1 h m).
  { intros i k c st1 Em. unfold make, only in Em. destruct (exists_pool st i); [|discriminate Em]. inversion Em; subst. eapply home_kept; [|exact H]. intros o Ho.
    cbn [st_objs]. rewrite nth_error_app1; [exact Ho|]. apply nth_error_Some. congruence. }
  assert (Hset : forall n ob c, the_obj st n = Ok ob -> n <> m -> at_home st0 (set_obj n (with_content c ob) st) h m).
  { intros n ob c Hob Hn. apply the_obj_some in Hob as [Hob _]. eapply home_kept; [|exact H]. intros o Ho. unfold set_obj. cbn [st_objs]. assert (n < length (st_objs st))%nat by (apply nth_error_Some; congruence).
    rewrite put_spec by assumption. rewrite nth_error_put by assumption. destruct (Nat.eqb_spec m n); [congruence|exact Ho]. }
  assert (Hid : forall f, (forall x, f x = Some x) -> ohome f h = h) by (intros f Hf; destruct h; [apply Hf|reflexivity]).
  destruct op; cbn [spec_step changes] in E, Hc; try (rewrite (Hlook I); exact H).
  - apply obind_ok in E as (st1 & Ep & E). inversion E; subst. destruct op as [|i k th|i j|i|j|i j|i]; cbn [pool_call content_goes] in Ep |- *; unfold only in Ep; try discriminate Ep.
    + inversion Ep; subst. rewrite Hid by reflexivity. exact H.
    + destruct (_ && _); [|discriminate Ep]. inversion Ep; subst. now apply home_moves.
    + destruct (exists_pool st i); [|discriminate Ep]. inversion Ep; subst. now apply home_moves.
    + destruct (exists_pool st j); [|discriminate Ep]. inversion Ep; subst. now apply home_moves.
    + destruct (_ && _); [|discriminate Ep]. inversion Ep; subst. now apply home_moves.
    + destruct (exists_pool st i); [|discriminate Ep]. inversion Ep; subst. now apply home_moves.
  - apply obind_ok in E as (st1 & Em & E). inversion E; subst. eapply Hmake; exact Em.
  - assert (E' : st'' <- make st i k (SCont []) ;; Ok (st'', SaNone) = Ok (st', a)) by (destruct k; try discriminate E; exact E).
    apply obind_ok in E' as (st1 & Em & E'). inversion E'; subst. eapply Hmake; exact Em.
  - unfold only in E. destruct (exists_pool st i); [|discriminate E]. inversion E; subst. exact H.
  - apply obind_ok in E as (o & Eo & E). apply obind_ok in E as (l & El & E). destruct (_ && _); [|discriminate E]. inversion E; subst. now apply Hset.
  - apply obind_ok in E as (o & Eo & E). apply obind_ok in E as (l & El & E). destruct (_ && _); [|discriminate E]. apply obind_ok in E as (ys & _ & E). destruct (exists_pool _ _); [|discriminate E].
    inversion E; subst. now apply Hset.
  - apply obind_ok in E as (o & Eo & E). apply obind_ok in E as (l & El & E). inversion E; subst. now apply Hset.
  - apply obind_ok in E as (o & Eo & E). apply obind_ok in E as (l & El & E). destruct (is_map o); [|discriminate E]. apply obind_ok in E as ([v l'] & _ & E). inversion E; subst. now apply Hset.
  - apply obind_ok in E as (o & Eo & E). apply obind_ok in E as (l & El & E). inversion E; subst. now apply Hset.
Qed.

(** Ended: looking is undefined. *)
Lemma home_gone st0 st n d : (n < length (st_objs st0))%nat -> at_home st0 st None n -> (0 < d)%nat -> see_tree d st n = UB.
Proof.
  intros Hn H Hd. destruct d as [|d]; [lia|]. destruct (nth_error (st_objs st0) n) as [o|] eqn:Eo; [|apply nth_error_None in Eo; lia].
  destruct (H o Eo) as (o' & H1 & _ & _ & H4 & _). cbn [see_tree]. unfold the_obj. rewrite H1, H4. reflexivity.
Qed.

(** The objects below [n]. *)
Inductive reach (st : sstate) (n : nat) : nat -> Prop :=
| reach_self : reach st n n
| reach_entry m ob l ys key k : reach st n m -> the_obj st m = Ok ob -> so_content ob = SCont l -> see_all l = Ok ys -> In (key, Some k) ys -> reach st n k.

Lemma home_same st0 st x n : (forall m, reach st0 n m -> at_home st0 st (Some x) m) -> forall d m o, reach st0 n m -> see_tree d st0 m = Ok o -> see_tree d st m = Ok o.
Proof.
  intros H. induction d as [|d IH]; intros m o Hm Hv; cbn [see_tree] in *; [discriminate Hv|]. apply obind_ok in Hv as (ob & Hob & Hv).
  pose proof Hob as Hob'. apply the_obj_some in Hob' as [Hnth _]. destruct (H m Hm ob Hnth) as (ob' & H1 & H2 & H3 & H4 & H5).
  unfold the_obj. rewrite H1, H4. cbn [present obind]. destruct (so_content ob) as [y|l] eqn:Ec, (so_content ob') as [y'|l']; try contradiction; [subst; rewrite H2; exact Hv|].
  apply obind_ok in Hv as (ys & Hys & Hv). apply obind_ok in Hv as (ts & Hts & Hv). inversion Hv; subst.
  assert (see_all l' = Ok ys) as ->.
  { clear - H5 Hys. revert ys Hys. induction H5 as [|e e' l l' (A & B & C) _ IHl]; intros ys Hys; cbn [see_all] in *; [exact Hys|]. destruct (present (en_home e)); [|discriminate Hys].
    apply obind_ok in Hys as (r & Hr & Hys). rewrite C. cbn [present]. rewrite (IHl r Hr). cbn [obind]. rewrite A, B. exact Hys. }
  cbn [obind].
  assert (see_children (see_tree d st) ys = Ok ts) as ->.
  { assert (HT : forall key k, In (key, Some k) ys -> reach st0 n k) by (intros key k Hin; eapply reach_entry; eauto). clear - HT Hts IH. revert ts Hts.
    induction ys as [|[key [k|]] ys IHy]; intros ts Ht; cbn [see_children] in *; [exact Ht| |].
    - apply obind_ok in Ht as (t & Hk & Ht). apply obind_ok in Ht as (r & Hr & Ht). rewrite (IH k t (HT key k (or_introl eq_refl)) Hk). cbn [obind].
      rewrite (IHy (fun key' k' H' => HT key' k' (or_intror H')) r Hr). exact Ht.
    - cbn [obind] in *. apply obind_ok in Ht as (r & Hr & Ht). rewrite (IHy (fun key' k' H' => HT key' k' (or_intror H')) r Hr). exact Ht. }
  cbn [obind]. rewrite H2, H3. apply len_Forall2 in H5. rewrite H5. reflexivity.
Qed.

(** A tree as the parsers leave it. *)
Lemma from_home i lo d st n o : see_from (Nat.eqb i) lo d st n = Ok o -> forall m, reach st n m -> at_home st st (Some i) m.
Proof.
  intros Hv. assert (HS : forall m, reach st n m -> exists d o, see_from (Nat.eqb i) lo d st m = Ok o).
  { intros m Hm. induction Hm as [|m ob l ys key k Hm IH Hob Hc Hys Hin]; [eauto|]. destruct IH as (d1 & o1 & H1). destruct d1 as [|d1]; [discriminate H1|]. cbn [see_from] in H1.
    destruct (m <? lo)%nat; [discriminate H1|]. rewrite Hob in H1. cbn [obind] in H1. destruct (negb _); [discriminate H1|]. rewrite Hc in H1. apply obind_ok in H1 as (ts & Hts & _). exists d1.
    clear - Hts Hys Hin. revert ys ts Hys Hts Hin. induction l as [|e l IHl]; intros ys ts Hys Hts Hin; cbn [see_all kids] in *; [inversion Hys; subst; destruct Hin|].
    destruct (home_in (Nat.eqb i) (en_home e)); [|discriminate Hts]. destruct (present (en_home e)); [|discriminate Hys]. apply obind_ok in Hys as (r & Hr & Hys). apply obind_ok in Hts as (t & Ht & Hts). apply obind_ok in Hts as (r2 & Hr2 & _).
    inversion Hys; subst. destruct Hin as [Hin|Hin]; [|eapply IHl; eauto]. inversion Hin as [[Hk Hvl]]. rewrite Hvl in Ht. eauto. }
  intros m Hm. destruct (HS m Hm) as (d1 & o1 & H1). destruct d1 as [|d1]; [discriminate H1|]. cbn [see_from] in H1. destruct (m <? lo)%nat; [discriminate H1|].
  apply obind_ok in H1 as (ob & Hob & H1). apply the_obj_some in Hob as [Hob _]. intros o0 Ho0. assert (o0 = ob) by congruence. subst o0. exists ob. split; [exact Ho0|]. split; [reflexivity|]. split; [reflexivity|].
  assert (HH : forall h, home_in (Nat.eqb i) h = true -> h = Some i) by (intros [h|] Hh; [cbn in Hh; apply Nat.eqb_eq in Hh; congruence|discriminate Hh]).
  destruct (home_in (Nat.eqb i) (so_home ob)) eqn:Eh; [|discriminate H1]. cbn [negb] in H1. split; [now apply HH|]. destruct (so_content ob) as [y|l]; [reflexivity|].
  apply obind_ok in H1 as (ts & Hts & _). clear - Hts HH. revert ts Hts. induction l as [|e l IHl]; intros ts Hts; [constructor|]. cbn [kids] in Hts. destruct (home_in (Nat.eqb i) (en_home e)) eqn:Ee; [|discriminate Hts].
  apply obind_ok in Hts as (t & _ & Hts). apply obind_ok in Hts as (r & Hr & _). constructor; [|eauto]. repeat split. now apply HH.
Qed.

(** ** Sessions *)
Lemma step_home c fuel s op s' a st owns G t st0 : sane c -> rel (se_client s) st owns G t -> below st -> t <= len (se_done s) -> len (se_done s') < W64 -> se_step c fuel s op = Ok (s', a) ->
  exists st' owns' G' t', rel (se_client s') st' owns' G' t' /\ below st' /\ t' <= len (se_done s') /\ (exists e, k_vars (se_client s') = k_vars (se_client s) ++ e) /\
    forall m h, (m < length (st_objs st0))%nat -> (length (st_objs st0) <= length (st_objs st))%nat -> spares m op -> at_home st0 st h m ->
      at_home st0 st' (match op with SCall (CPool p) => ohome (content_goes (pools_made s) p) h | _ => h end) m.
Proof.
  intros Hs R Hb Ht Hlen H.
  assert (HD : forall ops s1 r, se_do s ops = Ok (s1, r) -> len (se_done s1) < W64 -> exists st' owns' G' t' r', rel (se_client s1) st' owns' G' t' /\ below st' /\ t' <= len (se_done s1) /\
     (exists e, k_vars (se_client s1) = k_vars (se_client s) ++ e) /\ spec_run st ops = Ok (st', r')).
  { intros ops q1 r Hd Hl. unfold se_do in Hd. apply obind_ok in Hd as ([w x] & H1 & Hd). inversion Hd; subst. cbn [se_client se_done] in *. rewrite len_app in *.
    destruct (run_up ops _ _ _ _ _ _ _ R ltac:(lia) H1) as (st1 & r1 & owns1 & G1 & t1 & S1 & R1 & Ht1 & _ & He).
    exists st1, owns1, G1, t1, r1. split; [exact R1|]. split; [eapply below_run; eauto|]. split; [lia|]. auto. }
  assert (HL : forall calls check, se_load s calls check = Ok (s', a) -> (len calls < W64 -> forall st1 r, spec_run st calls = Ok (st1, r) -> kept st st1) ->
     exists st' owns' G' t', rel (se_client s') st' owns' G' t' /\ below st' /\ t' <= len (se_done s') /\ (exists e, k_vars (se_client s') = k_vars (se_client s) ++ e) /\ kept st st').
  { intros calls check HLd HK. destruct (load_runs s calls check s' a st owns G t R Ht Hlen HLd) as (st1 & owns1 & G1 & t1 & R1 & Ht1 & He & Hc & st' & r' & S1 & Hst).
    exists st1, owns1, G1, t1. split; [exact R1|]. pose proof (below_run _ _ _ _ Hb S1) as Hb1. split; [destruct Hst as [[-> _]|(y & y' & Hy & _)]; [exact Hb1|eapply below_step; eauto]|]. split; [exact Ht1|]. split; [exact He|].
    pose proof (HK ltac:(lia) _ _ S1) as K1. destruct Hst as [[-> _]|(y & y' & Hy & _)]; [exact K1|]. eapply take_kept; eauto. }
  destruct op as [op|b x|depth ty i n b|i b pr|i b pr]; cbn [se_step] in H.
  - apply obind_ok in H as ([s1 rs] & H1 & H). destruct rs as [|? []]; try discriminate H. inversion H; subst. destruct (HD _ _ _ H1 Hlen) as (st1 & owns1 & G1 & t1 & r1 & R1 & Hb1 & Ht1 & He & S1).
    exists st1, owns1, G1, t1. repeat (split; [assumption|]). intros m h Hm Hle Hsp Hh. cbn [spares] in Hsp. cbn [spec_run] in S1. apply obind_ok in S1 as ([st2 a2] & S1 & S2). inversion S2; subst.
    unfold pools_made. rewrite (pools_len _ _ _ _ _ R). assert (Hc : ~ changes (with_memory (se_mem s) op) m) by (destruct op; exact Hsp).
    pose proof (home_step st0 st _ st1 a2 h m S1 Hc Hh) as HH. destruct op; exact HH.
  - inversion H; subst. cbn [se_client se_done] in *. exists st, owns, G, t. split; [exact R|]. split; [exact Hb|]. split; [exact Ht|]. split; [exists []; now rewrite app_nil_r|]. auto.
  - apply obind_ok in H as ([s1 rs] & H1 & H).
    assert (se_done s' = se_done s1 /\ se_client s' = se_client s1) as [Ed Ecl] by (destruct rs as [|? [|[] []]]; try discriminate H; destruct (Serialize _ _ _ _ _); try discriminate H; inversion H; subst; auto).
    rewrite Ed in *. rewrite Ecl. destruct (HD _ _ _ H1 Hlen) as (st1 & owns1 & G1 & t1 & r1 & R1 & Hb1 & Ht1 & He & S1).
    exists st1, owns1, G1, t1. repeat (split; [assumption|]). intros m h Hm _ _ Hh. cbn [spec_run] in S1. apply obind_ok in S1 as ([st2 a2] & Q2 & S1). apply obind_ok in S1 as ([st3 a3] & Q3 & S1). apply obind_ok in Q3 as ([st4 a4] & Q4 & Q3). inversion Q3; subst. inversion S1; subst.
    apply (home_step st0 st2 (CView depth n) st1 a4 h m Q4); [intros Hx; exact Hx|]. exact (home_step st0 st (CScratch i KMapItem) st2 a2 h m Q2 (fun Hx => Hx) Hh).
  - destruct (se_mem s b) as [content|]; [|discriminate H]. rewrite (r_len _ _ _ _ _ R) in H. destruct (HL _ _ H) as (st1 & owns1 & G1 & t1 & H1 & H2 & H3 & H4 & H5); [intros _ st1 r; now apply parse_kept|].
    exists st1, owns1, G1, t1. repeat (split; [assumption|]). intros m h Hm _ _. apply home_kept. exact (H5 m).
  - destruct (se_mem s b) as [content|]; [|discriminate H]. rewrite (r_len _ _ _ _ _ R), (pools_len _ _ _ _ _ R) in H. destruct (HL _ _ H) as (st1 & owns1 & G1 & t1 & H1 & H2 & H3 & H4 & H5).
    { intros Hc st1 r. now apply para_kept. }
    exists st1, owns1, G1, t1. repeat (split; [assumption|]). intros m h Hm _ _. apply home_kept. exact (H5 m).
Qed.

Lemma run_gone c fuel ops : forall s s' rs st owns G t st0, sane c -> rel (se_client s) st owns G t -> below st -> t <= len (se_done s) -> len (se_done s') < W64 -> se_run c fuel s ops = Ok (s', rs) ->
  (length (st_objs st0) <= length (st_objs st))%nat ->
  exists st' owns' G' t', rel (se_client s') st' owns' G' t' /\ t' <= len (se_done s') /\ (exists e, k_vars (se_client s') = k_vars (se_client s) ++ e) /\
    forall m h, (m < length (st_objs st0))%nat -> Forall (spares m) ops -> at_home st0 st h m -> at_home st0 st' (match h with Some x => now_in c fuel s ops x | None => None end) m.
Proof.
  induction ops as [|op ops IH]; intros s s' rs st owns G t st0 Hs R Hb Ht Hlen H Hle; cbn [se_run] in H.
  - inversion H; subst. exists st, owns, G, t. split; [exact R|]. split; [exact Ht|]. split; [exists []; now rewrite app_nil_r|]. intros m h _ _ Hh. destruct h; exact Hh.
  - apply obind_ok in H as ([s1 a] & H1 & H). apply obind_ok in H as ([s2 r] & H2 & H). inversion H; subst. pose proof (grows_run _ _ _ _ _ _ H2) as Hg.
    destruct (step_home c fuel s op s1 a st owns G t st0 Hs R Hb Ht ltac:(lia) H1) as (st1 & owns1 & G1 & t1 & R1 & Hb1 & Ht1 & (e & He) & HS1).
    assert (Hle1 : (length (st_objs st) <= length (st_objs st1))%nat) by (rewrite <- (r_len _ _ _ _ _ R1), <- (r_len _ _ _ _ _ R), He, app_length; lia).
    destruct (IH s1 s' r st1 owns1 G1 t1 st0 Hs R1 Hb1 Ht1 Hlen H2 ltac:(lia)) as (st2 & owns2 & G2 & t2 & R2 & Ht2 & (e2 & He2) & HS2).
    exists st2, owns2, G2, t2. split; [exact R2|]. split; [exact Ht2|]. split; [exists (e ++ e2); rewrite He2, He, app_assoc; reflexivity|].
    intros m h Hm HF Hh. inversion HF as [|? ? Hsp HF']; subst. pose proof (HS2 m _ Hm HF' (HS1 m h Hm Hle Hsp Hh)) as HH. cbn [now_in]. rewrite H1.
    destruct h as [x|]; [|destruct op as [[]| | | |]; exact HH]. destruct op as [[]| | | |]; exact HH.
Qed.

(** The pointer a load returns leads to objects that are all at home in the pool. *)
Lemma loaded c fuel ops s rs i b pr content op s1 p : sane c -> fits c content -> se_run c fuel session0 ops = Ok (s, rs) ->
  defined (cl_step (se_client s) (CPool (BpClear i))) -> se_mem s b = Some content -> op = SLoad i b pr \/ op = SLoadPara i b pr ->
  se_step c fuel s op = Ok (s1, SAns (AnPtr (Some p))) -> len (se_done s1) + 1 < W64 ->
  exists st owns G t n d o lo, rel (se_client s1) st owns G t /\ below st /\ t <= len (se_done s1) /\ nth_error (k_vars (se_client s1)) n = Some p /\ see_from (Nat.eqb i) lo d st n = Ok o.
Proof.
  intros Hs Hfit Hrun Hdef Hmem Hop Hstep Hlen. destruct (C104_sessions_are_programs c fuel ops s rs Hrun) as (rs0 & Hcl). pose proof (done_grows _ _ _ _ _ _ Hstep) as Hg.
  destruct (after (se_done s) _ _ ltac:(lia) Hcl) as (st & srs & owns & G & t & Sp & R & Ht).
  assert (Hi : exists_pool st i = true) by (eapply pool_there; [exact R|lia|exact Hdef]).
  pose proof (below_run _ _ _ _ below_start Sp) as Hb. destruct Hop as [-> | ->]; cbn [se_step] in Hstep; rewrite Hmem in Hstep.
  - rewrite (r_len _ _ _ _ _ R) in Hstep.
    destruct (load_runs s _ _ s1 _ st owns G t R Ht ltac:(lia) Hstep) as (st1 & owns1 & G1 & t1 & R1 & Ht1 & _ & Hc & st2 & r2 & S2 & [(_ & e & He & _)|(sa & a & Q & Ha & Hsa & Hck)]); [discriminate He|].
    destruct (load_spec c fuel content b i pr st (se_mem s) Hs Hi Hmem) as (st2' & r & H1 & _ & _ & H4). cbn zeta in *. assert (st2' = st2) by congruence. subst st2'. rewrite Hck in H4.
    destruct (Parse c fuel content b (PoolId i) _) as [o| | | |]; try contradiction H4; [|congruence].
    destruct H4 as (st3 & v & Q' & _ & _ & Hv). rewrite Q in Q'. inversion Q'; subst st3 sa. inversion Ha; subst a. cbn [same_answer] in Hsa. destruct v as [k|]; cbn [same_ptr] in Hsa; [|discriminate Hsa].
    destruct Hsa as [_ Hk]. destruct Hv as (d & Hv). exists st1, owns1, G1, t1, k, d, o, (S (length (st_objs st))). split; [exact R1|]. split; [eapply below_step; [|exact Q]; eapply below_run; eauto|]. split; [exact Ht1|]. split; [now symmetry|exact Hv].
  - rewrite (r_len _ _ _ _ _ R), (pools_len _ _ _ _ _ R) in Hstep.
    destruct (load_runs s _ _ s1 _ st owns G t R Ht ltac:(lia) Hstep) as (st1 & owns1 & G1 & t1 & R1 & Ht1 & _ & Hc & st2 & r2 & S2 & [(_ & e & He & _)|(sa & a & Q & Ha & Hsa & Hck)]); [discriminate He|].
    destruct (para_load_spec c fuel content b i pr st (se_mem s) Hs Hfit Hi Hb Hmem) as (st2' & r & H1 & _ & _ & H4); [lia|]. cbn zeta in *. assert (st2' = st2) by congruence. subst st2'. rewrite Hck in H4.
    destruct (Parse c fuel content b (PoolId i) _) as [o| | | |]; try contradiction H4; [|congruence].
    destruct H4 as (st3 & v & Q' & _ & _ & Hv). rewrite Q in Q'. inversion Q'; subst st3 sa. inversion Ha; subst a. cbn [same_answer] in Hsa. destruct v as [k|]; cbn [same_ptr] in Hsa; [|discriminate Hsa].
    destruct Hsa as [_ Hk]. destruct Hv as (d & o' & Hv & _). exists st1, owns1, G1, t1, k, d, o', (S (length (st_objs st))). split; [exact R1|]. split; [eapply below_step; [|exact Q]; eapply below_run; eauto|]. split; [exact Ht1|]. split; [now symmetry|exact Hv].
Qed.

(** C108.  The document a parse - by either scheduler, copying or in place - returned lives
    exactly as long as the content of the pool it was parsed into.  Follow that content
    through whatever the program does afterwards (merging it away, moving it, assigning,
    clearing and destroying pools, more parses), as long as the program does not change the
    document itself: if the content is still in some pool, the whole document is there and
    shows what it showed at first; if it was cleared, overwritten or destroyed, looking at
    the document is undefined.  Nothing else has any influence: not the other pools, not
    those the coroutines used. *)
Theorem C108_lifetime : forall c fuel ops s rs i b pr content load s1 p ops' s2 rs', sane c -> fits c content ->
  se_run c fuel session0 ops = Ok (s, rs) ->
  defined (cl_step (se_client s) (CPool (BpClear i))) -> se_mem s b = Some content -> load = SLoad i b pr \/ load = SLoadPara i b pr ->
  se_step c fuel s load = Ok (s1, SAns (AnPtr (Some p))) ->
  se_run c fuel s1 ops' = Ok (s2, rs') -> len (se_done s2) + 1 < W64 ->
  exists n d o, nth_error (k_vars (se_client s1)) n = Some p /\
    (forall d', (d <= d')%nat -> cl_step (se_client s1) (CView d' n) = Ok (se_client s1, AnView o)) /\
    ((forall m op, under (se_client s1) n m -> In (SCall op) ops' -> ~ changes op m) ->
     forall d', (d <= d')%nat ->
       cl_step (se_client s2) (CView d' n) = match now_in c fuel s1 ops' i with Some _ => Ok (se_client s2, AnView o) | None => UB end).
Proof.
  intros c fuel ops s rs i b pr content load s1 p ops' s2 rs' Hs Hfit Hrun Hdef Hmem Hop Hload Hrun' Hlen. pose proof (grows_run _ _ _ _ _ _ Hrun') as Hg.
  destruct (loaded c fuel ops s rs i b pr content load s1 p Hs Hfit Hrun Hdef Hmem Hop Hload ltac:(lia)) as (st & owns & G & t & n & d & o & lo & R & Hb & Ht & Hn & Hv).
  exists n, d, o. split; [exact Hn|].
  assert (Hshow : forall w st owns G t, rel w st owns G t -> nth_error (k_vars w) n = Some p -> forall d' r, match r with Ok _ | UB => True | _ => False end -> see_tree d' st n = r ->
             cl_step w (CView d' n) = match r with Ok o => Ok (w, AnView o) | _ => UB end).
  { intros w st' owns' G' t' R' Hn' d' r Hr Hsee. pose proof (view_ok w st' owns' G' t' R' d' n p Hn') as V. cbn [cl_step]. unfold var. rewrite Hn'. cbn [obind]. rewrite Hsee in V.
    destruct r; try contradiction; inversion V as [x y -> Q1 Q2| |]; reflexivity. }
  split.
  - intros d' Hd'. exact (Hshow _ _ _ _ _ R Hn d' (Ok o) I (see_tree_more _ _ _ _ _ _ _ Hv Hd')).
  - intros Hunder d' Hd'. assert (Hpos : (0 < d')%nat) by (destruct d; [discriminate Hv|lia]).
    destruct (run_gone c fuel ops' s1 s2 rs' st owns G t st Hs R Hb Ht ltac:(lia) Hrun' (Nat.le_refl _)) as (st2 & owns2 & G2 & t2 & R2 & Ht2 & (e & He) & HH).
    assert (Hn2 : nth_error (k_vars (se_client s2)) n = Some p) by (rewrite He, nth_error_app1; [exact Hn|apply nth_error_Some; congruence]).
    assert (Hreach : forall m, reach st n m -> under (se_client s1) n m).
    { intros m Hm. induction Hm as [|m ob l ys key k Hm IH Hob Hc Hys Hin]; [constructor|]. eapply (under_closed (se_client s1) st owns G t n R ltac:(lia)); eauto. }
    assert (Hin : forall m, reach st n m -> (m < length (st_objs st))%nat).
    { intros m Hm. apply Hreach in Hm. rewrite <- (r_len _ _ _ _ _ R). destruct Hm as [|m l key a k _ _ _ Hk]; apply nth_error_Some; congruence. }
    assert (Hall : forall m, reach st n m -> at_home st st2 (now_in c fuel s1 ops' i) m).
    { intros m Hm. apply (HH m (Some i) (Hin m Hm)); [|exact (from_home _ _ _ _ _ _ Hv m Hm)]. apply Forall_forall. intros [op| | | |] Hop'; cbn [spares]; auto. }
    destruct (now_in c fuel s1 ops' i) as [x|].
    + apply (Hshow _ _ _ _ _ R2 Hn2 d' (Ok o) I). eapply home_same; [exact Hall|apply reach_self|]. exact (see_tree_more _ _ _ _ _ _ _ Hv Hd').
    + apply (Hshow _ _ _ _ _ R2 Hn2 d' UB I). eapply home_gone; [apply Hin, reach_self|apply Hall, reach_self|exact Hpos].
Qed.

(** ** Met *)
(** The session of C107 loads its document into pool 1, in parallel; that pool is merged
    into a new one and destroyed; another pool is made from that by moving, and it goes; a
    further document is loaded and a third pool comes and goes. *)
Definition life_s : session := run_tiny para_s2 [SLoadPara 1%nat 3%nat false].
Definition life_rest : list scall :=
  [SCall (CPool BpNew); SCall (CPool (BpMerge 30 1)); SCall (CPool (BpDestroy 1)); SCall (CPool (BpMove 30)); SCall (CPool (BpDestroy 30));
   SCall (CPool BpNew); SLoad 32 3 true; SLoadPara 32 3 true; SCall (CPool (BpDestroy 32))].
Definition life_s2 : session := run_tiny life_s life_rest.

Example C108_met :
  fits tiny para_content /\ (exists rs, se_run tiny 200 session0 (para_session ++ SSave 5 REPLACE 0%nat 0%nat 3%nat :: para_rest) = Ok (para_s2, rs)) /\
  defined (cl_step (se_client para_s2) (CPool (BpClear 1))) /\ se_mem para_s2 3%nat = Some para_content /\
  se_step tiny 200 para_s2 (SLoadPara 1%nat 3%nat false) = Ok (life_s, SAns (AnPtr (Some (KMap, (2%nat, 0))))) /\
  (exists rs, se_run tiny 200 life_s life_rest = Ok (life_s2, rs)) /\ len (se_done life_s2) + 1 < W64 /\
  nth_error (k_vars (se_client life_s)) 12 = Some (KMap, (2%nat, 0)) /\
  (forall m op, under (se_client life_s) 12 m -> In (SCall op) life_rest -> ~ changes op m) /\
  (* the content of pool 1 is in pool 31 now; it ends with that pool *)
  now_in tiny 200 life_s life_rest 1 = Some 31%nat /\
  (exists o, cl_step (se_client life_s) (CView 5 12) = Ok (se_client life_s, AnView o) /\ cl_step (se_client life_s2) (CView 5 12) = Ok (se_client life_s2, AnView o)) /\
  now_in tiny 200 life_s (life_rest ++ [SCall (CPool (BpDestroy 31))]) 1 = None /\
  se_run tiny 200 life_s2 [SCall (CPool (BpDestroy 31)); SCall (CView 5 12)] = UB.
Proof.
  split; [vm_compute; reflexivity|]. split; [eexists; vm_compute; reflexivity|]. split; [eexists; vm_compute; reflexivity|]. split; [vm_compute; reflexivity|]. split; [vm_compute; reflexivity|].
  split; [eexists; vm_compute; reflexivity|]. split; [vm_compute; reflexivity|]. split; [vm_compute; reflexivity|].
  split; [intros m op _ Hin; cbn in Hin; repeat (destruct Hin as [Hin|Hin]; [first [discriminate Hin | (inversion Hin; subst; intros Hx; exact Hx)]|]); destruct Hin|].
  split; [vm_compute; reflexivity|]. split; [eexists; split; vm_compute; reflexivity|]. split; vm_compute; reflexivity.
Qed.
