(** * Facts about values: mirror, equality up to map order, access paths, and what
    the wrapper API shows of an object that denotes a value. *)
From Verif Require Import Base BaseLemmas ModelData ModelSecondary ModelObject ModelWrapper Spec ObjInd SeriProofs.
From Coq Require Import ZifyBool ZifyNat ZifyN.

(** ** mirror *)
Lemma mirror_involutive v : mirror (mirror v) = v.
Proof.
  induction v as [x|l IH|l IH] using value_ind'; cbn [mirror]; [reflexivity| |].
  - f_equal. rewrite map_map. rewrite <- (map_id l) at 2. apply map_ext_in.
    intros a Ha. rewrite Forall_forall in IH. now apply IH.
  - f_equal. rewrite map_rev, rev_involutive, map_map. rewrite <- (map_id l) at 2. apply map_ext_in.
    intros [k a] Ha. cbn. rewrite Forall_forall in IH. specialize (IH _ Ha). cbn in IH. now rewrite IH.
Qed.

Lemma same_content_refl v : same_content v v.
Proof.
  induction v as [x|l IH|l IH] using value_ind'.
  - constructor.
  - constructor. apply Forall2_refl. rewrite Forall_forall in IH. exact IH.
  - apply (same_map l l l (Permutation_refl l)). apply Forall2_refl.
    rewrite Forall_forall in IH. intros a Ha. split; [reflexivity|now apply IH].
Qed.

Lemma mirror_same v : same_content v (mirror v).
Proof.
  induction v as [x|l IH|l IH] using value_ind'; cbn [mirror].
  - constructor.
  - constructor. rewrite Forall2_map_r. apply Forall2_refl. rewrite Forall_forall in IH. exact IH.
  - apply same_map with (l1 := rev l); [apply Permutation_rev|].
    rewrite <- map_rev, Forall2_map_r. apply Forall2_refl. cbn.
    rewrite Forall_forall in IH. intros a Ha. split; [reflexivity|]. apply IH. now apply in_rev.
Qed.

Lemma Permutation_Forall2_r {A B} (R : A -> B -> Prop) l l1 l' :
  Forall2 R l l' -> Permutation l l1 -> exists l1', Permutation l' l1' /\ Forall2 R l1 l1'.
Proof.
  intros HF HP. revert l' HF.
  induction HP as [|x l l1 HP IH|x y l|l l1 l2 HP1 IH1 HP2 IH2]; intros l' HF.
  - inversion HF; subst. exists []. auto.
  - inversion HF as [|? y ? r Hxy Hr]; subst. destruct (IH _ Hr) as (r1 & P1 & F1).
    exists (y :: r1). auto.
  - inversion HF as [|? a ? r Hxa Hr]; subst. inversion Hr as [|? b ? r2 Hxb Hr2]; subst.
    exists (b :: a :: r2). split; [apply perm_swap|auto].
  - destruct (IH1 _ HF) as (l1' & P1 & F1). destruct (IH2 _ F1) as (l2' & P2 & F2).
    exists l2'. split; [now transitivity l1'|exact F2].
Qed.

Lemma Forall2_trans_strong {A B C} (R : A -> B -> Prop) (S : B -> C -> Prop) (T : A -> C -> Prop) a b c :
  (forall x y z, In x a -> R x y -> S y z -> T x z) -> Forall2 R a b -> Forall2 S b c -> Forall2 T a c.
Proof.
  intros H HR. revert c. induction HR as [|x y a b Hxy HR IH]; intros c HS; inversion HS; subst; constructor.
  - eapply H; eauto; now left.
  - apply IH; auto. intros; eapply H; eauto; now right.
Qed.

Lemma same_content_trans a b c : same_content a b -> same_content b c -> same_content a c.
Proof.
  revert b c. induction a as [x|l IH|l IH] using value_ind'; intros b c H1 H2; inversion H1; subst; inversion H2; subst.
  - constructor.
  - constructor. eapply Forall2_trans_strong; [|eassumption|eassumption].
    rewrite Forall_forall in IH. intros; eapply IH; eauto.
  - match goal with Ha : Permutation l ?m1, Hf : Forall2 _ ?m1 ?m2, Hb : Permutation ?m2 ?m3, Hg : Forall2 _ ?m3 ?m4 |- _ =>
      rename Ha into P1; rename Hf into F1; rename Hb into P2; rename Hg into F2 end.
    apply Forall2_flip in F1.
    destruct (Permutation_Forall2_r _ _ _ _ F1 P2) as (m9 & P3 & F3).
    apply Forall2_flip in F3.
    eapply same_map; [exact (Permutation_trans P1 P3)|].
    eapply Forall2_trans_strong; [|exact F3|exact F2]. cbn.
    rewrite Forall_forall in IH. intros x y z Hin [K1 C1] [K2 C2]. split; [congruence|].
    eapply IH; eauto. eapply Permutation_in; [|exact Hin]. symmetry. now transitivity l1.
Qed.

Lemma same_content_sym a b : same_content a b -> same_content b a.
Proof.
  revert b. induction a as [x|l IH|l IH] using value_ind'; intros b H1; inversion H1; subst.
  - constructor.
  - constructor. apply Forall2_flip. eapply Forall2_impl; [|eassumption].
    rewrite Forall_forall in IH. cbn. intros a b Ha _ Hab. now apply IH.
  - match goal with Ha : Permutation l ?m1, Hf : Forall2 _ ?m1 ?m2 |- _ => rename Ha into P1; rename Hf into F1 end.
    destruct (Permutation_Forall2_r _ _ _ _ F1 (Permutation_sym P1)) as (l2 & P3 & F3).
    eapply same_map; [exact P3|]. apply Forall2_flip. eapply Forall2_impl; [|exact F3].
    rewrite Forall_forall in IH. cbn. intros a b Ha _ [K C]. split; [congruence|]. now apply IH.
Qed.

(** ** Lookup *)
Lemma lookup_In k l v : lookup k l = Some v -> In (k, v) l.
Proof.
  induction l as [|[k' v'] l IH]; cbn; [discriminate|].
  destruct (bytes_eqb_spec k' k); [intros [= ->]; left; congruence|right; auto].
Qed.

Lemma lookup_None k l : lookup k l = None <-> ~ In k (map fst l).
Proof.
  induction l as [|[k' v'] l IH]; cbn; [split; [auto|reflexivity]|].
  destruct (bytes_eqb_spec k' k) as [->|Hn].
  - split; [discriminate|intros H; exfalso; apply H; now left].
  - rewrite IH. tauto.
Qed.

Lemma lookup_NoDup k v l : NoDup (map fst l) -> In (k, v) l -> lookup k l = Some v.
Proof.
  induction l as [|[k' v'] l IH]; cbn; [tauto|]. intros HN. inversion HN as [|? ? Hni HN']; subst.
  intros [[= -> ->]|Hin]; [now rewrite bytes_eqb_refl|].
  destruct (bytes_eqb_spec k' k) as [->|Hn]; [|auto].
  exfalso. apply Hni. now apply (in_map fst) in Hin.
Qed.

Lemma lookup_perm k l l' : NoDup (map fst l) -> Permutation l l' -> lookup k l = lookup k l'.
Proof.
  intros HN HP. assert (HN' : NoDup (map fst l')) by (eapply Permutation_NoDup; [apply Permutation_map, HP|exact HN]).
  destruct (lookup k l) as [v|] eqn:E.
  - symmetry. apply lookup_NoDup; auto. eapply Permutation_in; [exact HP|]. now apply lookup_In.
  - symmetry. apply lookup_None. apply lookup_None in E. intros H; apply E.
    eapply Permutation_in; [apply Permutation_map; symmetry; exact HP|exact H].
Qed.

Lemma lookup_Forall2 (Q : value -> value -> Prop) k l l' :
  Forall2 (fun a b => fst a = fst b /\ Q (snd a) (snd b)) l l' ->
  match lookup k l, lookup k l' with
  | Some v, Some v' => In (k, v) l /\ Q v v'
  | None, None => True
  | _, _ => False
  end.
Proof.
  intros HF. induction HF as [|[k1 v1] [k2 v2] l l' [Hk Hv] HF IH]; cbn in *; [exact I|]. subst k2.
  destruct (bytes_eqb_spec k1 k) as [->|Hn]; [split; [now left|exact Hv]|].
  destruct (lookup k l), (lookup k l'); auto. destruct IH. split; [now right|auto].
Qed.

(** Maps with distinct keys: order does not matter to lookups. *)
Lemma same_content_distinct v v' : same_content v v' -> distinct_keys v -> distinct_keys v'.
Proof.
  revert v'. induction v as [x|l IH|l IH] using value_ind'; intros v' HS HD; inversion HS; subst; inversion HD; subst.
  - constructor.
  - constructor. rewrite Forall_forall in *.
    match goal with H : Forall2 _ _ _ |- _ => apply Forall2_flip in H; rename H into HF end.
    intros y Hy. apply In_nth_error in Hy as (n & Hn).
    destruct (Forall2_nth _ _ _ _ _ HF Hn) as (x & Hx & Hxy). apply nth_error_In in Hx. eapply IH; eauto.
  - match goal with H : Forall2 _ _ _ |- _ => rename H into HF end.
    constructor.
    + assert (map fst l' = map fst l1) as ->.
      { clear -HF. induction HF as [|a b l1 l' [Hk _] HF IH]; cbn; congruence. }
      eapply Permutation_NoDup; [apply Permutation_map; eassumption|assumption].
    + rewrite Forall_forall in *. apply Forall2_flip in HF.
      intros y Hy. apply In_nth_error in Hy as (n & Hn).
      destruct (Forall2_nth _ _ _ _ _ HF Hn) as (x & Hx & Hk & Hxy). apply nth_error_In in Hx.
      assert (In x l) by (eapply Permutation_in; [symmetry; eassumption|exact Hx]).
      eapply IH; eauto.
Qed.

Lemma same_content_top v v' : same_content v v' -> top v = top v'.
Proof.
  intros H; inversion H; subst; cbn; f_equal.
  - now apply len_Forall2 with (R := same_content).
  - etransitivity; [apply len_perm; eassumption|]. eapply len_Forall2; eassumption.
Qed.

Lemma same_content_sub v v' s : same_content v v' -> distinct_keys v ->
  match sub v s, sub v' s with
  | Some a, Some b => same_content a b /\ distinct_keys a
  | None, None => True
  | _, _ => False
  end.
Proof.
  intros HS HD; destruct s as [k|n]; inversion HS; subst; cbn; auto.
  - inversion HD as [| |? HN HDl]; subst.
    rewrite (lookup_perm k l l1) by assumption.
    match goal with H : Forall2 _ _ _ |- _ => pose proof (lookup_Forall2 _ k _ _ H) as HL end.
    destruct (lookup k l1), (lookup k l'); auto. destruct HL as [Hin Hs]. split; [exact Hs|].
    rewrite Forall_forall in HDl. apply (HDl (k, v)). eapply Permutation_in; [symmetry; eassumption|exact Hin].
  - inversion HD as [|? HDl|]; subst.
    match goal with H : Forall2 _ _ _ |- _ => rename H into HF end.
    destruct (nth_error l (N.to_nat n)) as [a|] eqn:E.
    + destruct (Forall2_nth _ _ _ _ _ HF E) as (b & Hb & Hab). rewrite Hb. split; [exact Hab|].
      rewrite Forall_forall in HDl. apply HDl. now apply nth_error_In in E.
    + assert (nth_error l' (N.to_nat n) = None) as ->; [|exact I].
      apply nth_error_None in E. apply nth_error_None.
      pose proof (len_Forall2 _ _ _ HF). unfold len in *; lia.
Qed.

Theorem same_content_seen v v' p : same_content v v' -> distinct_keys v -> seen_at v p = seen_at v' p.
Proof.
  unfold seen_at. revert v v'. induction p as [|s p IH]; intros v v' HS HD; cbn.
  - now apply same_content_top.
  - pose proof (same_content_sub v v' s HS HD) as H.
    destruct (sub v s), (sub v' s); try tauto. destruct H. now apply IH.
Qed.

(** ** The wrapper API shows exactly what an object denotes *)
Lemma walk_nth n l : walk n l = match nth_error l n with Some o => o | None => ONull end.
Proof. revert n; induction l as [|x l IH]; intros [|n]; cbn; auto. Qed.

Definition denotes_opt (mem : memory) (o : obj) (v : option value) : Prop :=
  match v with Some v => denotes mem o v | None => o = ONull end.

Lemma denotes_not_null mem o v : denotes mem o v -> o <> ONull.
Proof. intros H ->; inversion H. Qed.

Lemma Array_at_ok mem items l n :
  Forall2 (denotes mem) items (rev l) ->
  denotes_opt mem (Array_at (len items) items n) (nth_error l (N.to_nat n)).
Proof.
  intros HF. pose proof (len_Forall2 _ _ _ HF) as HL. rewrite len_rev in HL.
  unfold Array_at. destruct (N.leb_spec (len items) n) as [Hle|Hlt].
  - assert (nth_error l (N.to_nat n) = None) as ->; [|reflexivity].
    apply nth_error_None. unfold len in *. lia.
  - rewrite walk_nth.
    assert (Hn : nth_error l (N.to_nat n) = nth_error (rev l) (N.to_nat (len items - 1 - n))).
    { rewrite nth_error_rev. 2: unfold len in *; lia. f_equal. unfold len in *. lia. }
    rewrite Hn. destruct (nth_error (rev l) _) as [v|] eqn:E.
    + apply Forall2_flip in HF. destruct (Forall2_nth _ _ _ _ _ HF E) as (o & -> & Ho). exact Ho.
    + exfalso. apply nth_error_None in E. rewrite rev_length in E. unfold len in *. lia.
Qed.

Lemma Map_at_ok mem items l k :
  Forall2 (fun i e => fst i = fst e /\ denotes mem (snd i) (snd e)) items l ->
  denotes_opt mem (Map_at items k) (lookup k l).
Proof.
  intros HF; induction HF as [|[k1 o] [k2 v] items l [Hk Hd] HF IH]; cbn in *; [reflexivity|]. subst k2.
  destruct (bytes_eqb k1 k); auto.
Qed.

Lemma MapView_at_ok mem items l k :
  Forall2 (fun i e => read_view mem (fst i) = Ok (fst e) /\ denotes mem (snd i) (snd e)) items l ->
  exists o, MapView_at mem items k = Ok o /\ denotes_opt mem o (lookup k l).
Proof.
  intros HF; induction HF as [|[k1 o] [k2 v] items l [Hk Hd] HF IH]; cbn in *; [now exists ONull|].
  rewrite Hk. cbn. destruct (bytes_eqb k2 k); eauto.
Qed.

Lemma api_walk_null mem p : api_walk mem ONull p = Ok ONull.
Proof. induction p as [|[k|n] p IH]; cbn; auto. Qed.

Lemma api_walk_ok mem o v p : denotes mem o v ->
  exists w, api_walk mem o p = Ok w /\ denotes_opt mem w (find v p).
Proof.
  revert o v; induction p as [|s p IH]; intros o v HD; cbn [api_walk find]; [eauto|].
  assert (Hs : exists w, (match s with Key k => w_key mem o k | Idx n => w_idx o n end) = Ok w /\
                         denotes_opt mem w (sub v s)).
  { destruct HD as [dt st x Hx|dt st x Hx|pl size items l -> HF|pl size items l -> HF|pl size items l -> HF];
      destruct s as [k|n]; cbn [w_key w_idx sub]; try (eexists; split; [reflexivity|]; try reflexivity).
    - now apply Array_at_ok.
    - now apply Map_at_ok.
    - now apply MapView_at_ok. }
  destruct Hs as (w & Hw & Hd).
  assert (E : api_walk mem o (s :: p) = api_walk mem w p).
  { cbn [api_walk]. destruct s; rewrite Hw; reflexivity. }
  cbn [api_walk] in E. rewrite E. destruct (sub v s) as [v'|]; cbn in Hd.
  - now apply IH.
  - subst w. rewrite api_walk_null. exists ONull. split; reflexivity.
Qed.

Lemma cty_of_num t : cty_of_dt (dt_of_num t) = Some (CNum t).
Proof. now destruct t. Qed.

Lemma api_scalar_own mem dt s x : data_denotes dt s x -> api_scalar mem (OData dt s) = Ok (SeenScalar x).
Proof.
  intros []; try reflexivity. now destruct t.
Qed.

Lemma api_scalar_view mem dt s x : view_denotes mem dt s x -> api_scalar mem (ODataView dt s) = Ok (SeenScalar x).
Proof.
  intros [v b H|v b H|t n H].
  - unfold api_scalar; cbn. now rewrite H.
  - unfold api_scalar; cbn. now rewrite H.
  - now destruct t.
Qed.

Theorem api_seen_ok mem o v p : denotes mem o v -> api_seen mem o p = Ok (seen_at v p).
Proof.
  intros HD. unfold api_seen, seen_at. destruct (api_walk_ok mem o v p HD) as (w & -> & Hw). cbn [obind].
  destruct (find v p) as [v'|]; cbn in Hw; [|now subst w].
  destruct Hw as [dt st x Hx|dt st x Hx|pl size items l Hs HF|pl size items l Hs HF|pl size items l Hs HF]; cbn [w_Empty w_GetType GetType obind w_Size top].
  - now apply api_scalar_own.
  - now apply api_scalar_view.
  - subst size. rewrite (len_Forall2 _ _ _ HF). now rewrite len_rev.
  - subst size. now rewrite (len_Forall2 _ _ _ HF).
  - subst size. now rewrite (len_Forall2 _ _ _ HF).
Qed.
