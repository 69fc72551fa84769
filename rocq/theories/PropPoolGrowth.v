(** * C96: how much memory an object pool asks for. *)
From Verif Require Import Base BaseLemmas ModelPool PropPool.
From Coq Require Import ZifyBool ZifyNat ZifyN.

(** The capacity of the k-th buffer of a pool, and of the first k together. *)
Definition growth (k : nat) : N := nth k [2; 16; 128; 1024; 4096] 10240.
Fixpoint reserved (k : nat) : N := match k with O => 0 | S j => reserved j + growth j end.

(** The buffers requested in a history, in order. *)
Definition requested (t : list event) : list N :=
  flat_map (fun e => match e with EvBuffer _ c => [c] | _ => [] end) t.
Definition is_free (e : event) : bool := match e with EvFree _ => true | _ => false end.

Lemma growth_next k : next_capacity k = growth k.
Proof. do 6 (destruct k as [|k]; [reflexivity|]). unfold next_capacity, growth. cbn. now destruct k. Qed.
Lemma growth_pos k : 2 <= growth k.
Proof. do 5 (destruct k as [|k]; [cbn; lia|]). unfold growth. cbn. destruct k; lia. Qed.
Lemma growth_max k : growth k <= 10240.
Proof. do 5 (destruct k as [|k]; [cbn; lia|]). unfold growth. cbn. destruct k; lia. Qed.

Lemma requested_app a b : requested (a ++ b) = requested a ++ requested b.
Proof. apply flat_map_app. Qed.

(** The pool after some allocations: full buffers, and one in use. *)
Inductive grown (n : N) : list block -> Prop :=
| gr_none : n = 0 -> grown n []
| gr_some full b k : length full = k -> Forall (fun b => b_buf b <> None) full ->
    b_cap b = growth k -> 1 <= b_top b -> b_top b <= growth k -> b_buf b <> None ->
    n = reserved k + b_top b -> grown n (full ++ [b]).

Lemma relocate_none rd l : Forall (fun b => b_buf b <> None) l ->
  relocate rd l = (l, []) .
Proof.
  unfold relocate. intros HF. f_equal.
  - clear. induction l as [|[] l IH]; cbn; [reflexivity|]. unfold Block_move. cbn. f_equal. exact IH.
  - clear. induction l as [|[] l IH]; cbn; [reflexivity|]. exact IH.
Qed.

Lemma alloc_grown rd fresh v n : grown n (v_elems v) ->
  exists r v' evs, Pool_Alloc rd false fresh v = Ok (Some r, v', evs, false) /\ grown (n + 1) (v_elems v') /\
    forallb (fun e => negb (is_free e)) evs = true /\
    requested evs = (if (length (v_elems v) =? length (v_elems v'))%nat then [] else [growth (length (v_elems v))]) /\
    (length (v_elems v') = length (v_elems v) \/ (length (v_elems v') = S (length (v_elems v)) /\ n = reserved (length (v_elems v)))).
Proof.
  intros HG. unfold Pool_Alloc.
  assert (HNew : last_full v = true -> n = reserved (length (v_elems v)) -> Forall (fun b => b_buf b <> None) (v_elems v) ->
    exists r v' evs, (let (v1, evs0) := let (tmp, evs1) := Block_new fresh (next_capacity (length (v_elems v))) in
        let '(v1, tmp', evs2) := emplace_back rd v tmp in (v1, evs1 ++ evs2 ++ Block_dtor rd tmp') in
      match rev (v_elems v1) with
      | [] => UB
      | b :: before => obind (Block_Alloc false b) (fun '(r0, b', evs', e) => Ok (r0, {| v_elems := rev (b' :: before); v_capacity := v_capacity v1 |}, evs0 ++ evs', e))
      end) = Ok (Some r, v', evs, false) /\ grown (n + 1) (v_elems v') /\
    forallb (fun e => negb (is_free e)) evs = true /\
    requested evs = (if (length (v_elems v) =? length (v_elems v'))%nat then [] else [growth (length (v_elems v))]) /\
    (length (v_elems v') = length (v_elems v) \/ (length (v_elems v') = S (length (v_elems v)) /\ n = reserved (length (v_elems v))))).
  { intros Hf Hn HF. rewrite growth_next. unfold Block_new. pose proof (growth_pos (length (v_elems v))) as Hp. pose proof (growth_max (length (v_elems v))) as Hm.
    replace (0 <? growth (length (v_elems v))) with true by lia. unfold emplace_back, Block_move. cbn [b_buf b_top b_cap].
    rewrite relocate_none by exact HF.
    set (nb := {| b_buf := Some fresh; b_top := 0; b_cap := growth (length (v_elems v)) |}).
    assert (HA : Block_Alloc false nb = Ok (Some (fresh, 0), {| b_buf := Some fresh; b_top := 1; b_cap := growth (length (v_elems v)) |}, [EvConstruct (fresh, 0)], false)).
    { unfold Block_Alloc, Full. cbn [nb b_top b_cap b_buf]. replace (0 =? growth (length (v_elems v))) with false by lia. replace (0 <? growth (length (v_elems v))) with true by lia. reflexivity. }
    destruct (_ <? _)%nat; cbn [v_elems v_capacity fst snd app Block_dtor b_buf]; rewrite rev_app_distr; cbn [rev app]; rewrite HA; cbn [obind];
      rewrite rev_involutive; (eexists; eexists; eexists; split; [reflexivity|]; cbn [v_elems]); rewrite app_length; cbn [length]; rewrite Nat.add_1_r;
      (split; [|split; [reflexivity|split; [replace (_ =? _)%nat with false by (symmetry; apply Nat.eqb_neq; lia); reflexivity|right; auto]]]);
      (eapply gr_some; [reflexivity|exact HF|reflexivity|cbn [b_top]; lia|cbn [b_top]; lia|discriminate|cbn [b_top]; lia]). }
  inversion HG as [Hn E|full b k Hk HF Hc Ht1 Ht2 Hb Hn E].
  - assert (HL : last_full v = true) by (unfold last_full; rewrite <- E; reflexivity). rewrite HL. rewrite <- E in HNew. apply HNew; [exact HL|subst n; reflexivity|constructor].
  - destruct (last_full v) eqn:HL.
    + rewrite <- E in HNew. apply HNew; [reflexivity| |apply Forall_app; auto]. unfold last_full in HL. rewrite <- E, rev_app_distr in HL. cbn in HL.
      unfold Full in HL. rewrite app_length. cbn [length]. rewrite Nat.add_1_r. cbn [reserved]. rewrite Hk. lia.
    + rewrite <- E. rewrite rev_app_distr. cbn [rev app]. unfold last_full in HL. rewrite <- E, rev_app_distr in HL. cbn in HL.
      unfold Block_Alloc. rewrite HL. unfold Full in HL. destruct (b_buf b) as [buf|] eqn:Eb; [|congruence].
      replace (b_top b <? b_cap b) with true by lia. cbn [obind]. eexists. eexists. eexists. split; [reflexivity|]. cbn [v_elems rev].
      rewrite rev_involutive. rewrite !app_length. cbn [length]. rewrite Nat.eqb_refl. split; [|auto].
      pose proof (growth_max k). assert (Hu : u64 (b_top b + 1) = b_top b + 1) by (apply N.mod_small; rewrite W64_val; lia).
      eapply gr_some; [exact Hk|exact HF|exact Hc|cbn [b_top]; lia|cbn [b_top]; lia|discriminate|cbn [b_top]; lia].
Qed.

Lemma reserved_mono j k : (j <= k)%nat -> reserved j <= reserved k.
Proof. induction 1; cbn [reserved]; lia. Qed.

Lemma allocs_grown rd n : forall v fresh t m, grown m (v_elems v) -> requested t = map growth (seq 0 (length (v_elems v))) -> forallb (fun e => negb (is_free e)) t = true ->
  exists w rs v', pool_run rd {| w_pools := [Some v]; w_fresh := fresh; w_trace := t |} (repeat (OpAlloc 0 false) n) = Ok (w, rs) /\
    w_pools w = [Some v'] /\ Forall (fun r => exists s, r = RSlot s) rs /\
    grown (m + N.of_nat n) (v_elems v') /\ requested (w_trace w) = map growth (seq 0 (length (v_elems v'))) /\ forallb (fun e => negb (is_free e)) (w_trace w) = true.
Proof.
  induction n as [|n IH]; intros v fresh t m HG HR HF.
  - eexists. eexists. exists v. cbn [repeat pool_run]. split; [reflexivity|]. split; [reflexivity|]. split; [constructor|]. cbn. rewrite N.add_0_r. auto.
  - cbn [repeat pool_run pool_step get_pool w_pools nth_error obind w_fresh w_trace].
    destruct (alloc_grown rd fresh v m HG) as (r & v1 & evs & HA & HG1 & HF1 & HR1 & HL). rewrite HA. cbn [obind put].
    destruct (IH v1 (S fresh) (t ++ evs) (m + 1) HG1) as (w & rs & v' & Hw & Hp & Hrs & HGw & HRw & HFw).
    + rewrite requested_app, HR, HR1. destruct HL as [HL|[HL _]].
      * rewrite HL, Nat.eqb_refl, app_nil_r. reflexivity.
      * rewrite HL. replace (_ =? _)%nat with false by (symmetry; apply Nat.eqb_neq; lia). rewrite seq_S, map_app. reflexivity.
    + rewrite forallb_app, HF. exact HF1.
    + rewrite Hw. cbn [obind]. eexists. eexists. exists v'. split; [reflexivity|]. split; [exact Hp|]. split; [constructor; eauto|].
      replace (m + N.of_nat (S n)) with (m + 1 + N.of_nat n) by lia. auto.
Qed.

(** C96.  A pool that serves n allocations asks for buffers of 2, 16, 128, 1024, 4096,
    10240, 10240, ... slots, each only when all earlier ones are used up, and returns
    none of them. *)
Theorem C96_growth : forall rd n, exists w rs k,
  pool_run rd pworld0 (OpNew :: repeat (OpAlloc 0 false) n) = Ok (w, RNone :: rs) /\
  length rs = n /\ Forall (fun r => exists s, r = RSlot s) rs /\
  requested (w_trace w) = map growth (seq 0 k) /\
  N.of_nat n <= reserved k /\ (forall j, (j < k)%nat -> reserved j < N.of_nat n) /\
  (forall b, ~ In (EvFree b) (w_trace w)).
Proof.
  intros rd n. cbn [pool_run pool_step obind].
  destruct (allocs_grown rd n Pool_new 0 [] 0) as (w & rs & v' & Hw & Hp & Hrs & HG & HR & HF); [now constructor|reflexivity|reflexivity|].
  unfold pworld0. cbn [w_pools w_fresh w_trace app]. rewrite Hw. cbn [obind].
  exists w, rs, (length (v_elems v')). split; [reflexivity|]. split.
  { clear - Hw. revert Hw. generalize {| w_pools := [Some Pool_new]; w_fresh := 0; w_trace := [] |}. intros w0 Hw. revert w0 rs Hw. induction n as [|n IH]; intros w0 rs Hw; cbn [repeat pool_run] in Hw.
    - now injection Hw as <- <-.
    - destruct (pool_step _ _ _) as [[w1 r]| | | |]; try discriminate. cbn [obind] in Hw. destruct (pool_run _ _ _) as [[w2 rs']| | | |] eqn:E; try discriminate.
      cbn [obind] in Hw. injection Hw as <- <-. cbn [length]. f_equal. eapply IH. exact E. }
  split; [exact Hrs|]. split; [exact HR|]. rewrite N.add_0_l in HG. split; [|split].
  - inversion HG as [Hn E|full b k Hk HF' Hc Ht1 Ht2 Hb Hn E]; [rewrite Hn; lia|]. rewrite app_length. cbn [length]. rewrite Nat.add_1_r. cbn [reserved]. rewrite Hk. lia.
  - intros j Hj. inversion HG as [Hn E|full b k Hk HF' Hc Ht1 Ht2 Hb Hn E]; [rewrite <- E in Hj; cbn in Hj; lia|]. rewrite <- E, app_length in Hj. cbn [length] in Hj.
    pose proof (reserved_mono j k ltac:(lia)). lia.
  - intros b Hin. rewrite forallb_forall in HF. specialize (HF _ Hin). discriminate.
Qed.

(** So at most 10240 slots are unused, and the number of requests grows by one per 10240
    allocations. *)
Theorem C96_overhead : forall n k, (forall j, (j < k)%nat -> reserved j < N.of_nat n) ->
  reserved k <= N.of_nat n + 10239 /\ N.of_nat k <= 6 + N.of_nat n / 10240.
Proof.
  intros n k H. destruct k as [|k]; [cbn; split; lia|]. specialize (H k ltac:(lia)). split.
  - cbn [reserved]. pose proof (growth_max k). lia.
  - destruct (Nat.le_gt_cases k 5) as [|Hk]; [lia|].
    assert (reserved k = 5266 + 10240 * (N.of_nat k - 5)).
    { clear H. induction k as [|k IH]; [lia|]. cbn [reserved]. destruct (Nat.eq_dec k 5) as [->|]; [reflexivity|]. rewrite IH by lia.
      assert (growth k = 10240) as -> by (do 5 (destruct k as [|k]; [lia|]); destruct k; reflexivity). lia. }
    lia.
Qed.

(** ** Any history *)

(** Slots and objects of the pools that exist. *)
Definition sum (l : list N) : N := fold_right N.add 0 l.
Definition pool_slots (v : option blocks) : N := match v with Some v => sum (map b_cap (v_elems v)) | None => 0 end.
Definition pool_objects (v : option blocks) : N := match v with Some v => sum (map b_top (v_elems v)) | None => 0 end.
Definition pool_alive (v : option blocks) : N := match v with Some _ => 1 | None => 0 end.
Definition all_pools (f : option blocks -> N) (w : pworld) : N := sum (map f (w_pools w)).
Definition is_merge (op : pool_op) : bool := match op with OpMerge _ _ => true | _ => false end.

Lemma sum_app a b : sum (a ++ b) = sum a + sum b.
Proof. induction a as [|x a IH]; cbn; [reflexivity|]. fold (sum (a ++ b)) (sum a). rewrite IH. lia. Qed.
Lemma sum_map_cons {A} (f : A -> N) x l : sum (map f (x :: l)) = f x + sum (map f l).
Proof. reflexivity. Qed.
Lemma sum_put {A} (f : A -> N) l : forall i x y, nth_error l i = Some y -> sum (map f (put i x l)) + f y = sum (map f l) + f x.
Proof.
  induction l as [|z l IH]; intros [|i] x y H; try discriminate; cbn in *.
  - injection H as ->. lia.
  - specialize (IH i x y H). fold (sum (map f (put i x l))) (sum (map f l)). lia.
Qed.

Definition nonfull (l : list block) : N := sum (map (fun b => if Full b then 0 else 1) l).
Definition loose (v : option blocks) : N := match v with Some v => nonfull (removelast (v_elems v)) | None => 0 end.
Definition sound (v : option blocks) : Prop :=
  match v with Some v => Forall (fun b => b_top b <= b_cap b <= 10240) (v_elems v) | None => True end.

Lemma nonfull_app a b : nonfull (a ++ b) = nonfull a + nonfull b.
Proof. unfold nonfull. rewrite map_app. apply sum_app. Qed.
Lemma nonfull_last l b : nonfull (l ++ [b]) <= nonfull l + 1.
Proof. rewrite nonfull_app. unfold nonfull at 2. cbn. destruct (Full b); lia. Qed.
Lemma nonfull_removelast l : nonfull l <= nonfull (removelast l) + 1.
Proof. destruct l as [|x l _] using rev_ind; [cbn; lia|]. rewrite removelast_last. apply nonfull_last. Qed.

Lemma loose_bound v : sound (Some v) -> pool_slots (Some v) <= pool_objects (Some v) + 10240 * (loose (Some v) + 1).
Proof.
  cbn. intros HF. assert (H : sum (map b_cap (v_elems v)) <= sum (map b_top (v_elems v)) + 10240 * nonfull (v_elems v)).
  { unfold nonfull. induction HF as [|b l Hb HF IH]; [reflexivity|]. rewrite !sum_map_cons. unfold Full at 1. destruct (N.eqb_spec (b_top b) (b_cap b)); lia. }
  pose proof (nonfull_removelast (v_elems v)). lia.
Qed.

Lemma alloc_loose rd throws fresh v r v' evs e : sound (Some v) -> Pool_Alloc rd throws fresh v = Ok (r, v', evs, e) ->
  sound (Some v') /\ loose (Some v') <= loose (Some v).
Proof.
  cbn [sound loose]. intros HF H. unfold Pool_Alloc in H.
  assert (HB : forall before b x cap ev, rev x = b :: before -> Forall (fun b => b_top b <= b_cap b <= 10240) x ->
    obind (Block_Alloc throws b) (fun '(r0, b', evs', e0) => Ok (r0, {| v_elems := rev (b' :: before); v_capacity := cap |}, ev ++ evs', e0)) = Ok (r, v', evs, e) ->
    Forall (fun b => b_top b <= b_cap b <= 10240) (v_elems v') /\ removelast (v_elems v') = removelast x).
  { intros before b x cap ev Hx HFx H'. apply (f_equal (@rev block)) in Hx. rewrite rev_involutive in Hx. cbn [rev] in Hx. subst x.
    apply Forall_app in HFx as [HF1 HF2]. inversion HF2 as [|? ? Hb _]; subst.
    apply obind_ok in H' as ([[[r1 b'] evs'] e1] & HA & H'). injection H' as <- <- <- <-. cbn [v_elems rev]. rewrite !removelast_last. split; [|reflexivity].
    apply Forall_app. split; [exact HF1|]. constructor; [|constructor]. unfold Block_Alloc in HA. destruct (Full b); [injection HA as <- <- <- <-; exact Hb|].
    destruct (b_buf b); [|discriminate]. destruct (N.ltb_spec (b_top b) (b_cap b)); [|discriminate]. destruct throws; injection HA as <- <- <- <-; [exact Hb|].
    cbn [b_top b_cap]. pose proof (N.mod_le (b_top b + 1) W64). unfold u64. rewrite W64_val in *. lia. }
  destruct (last_full v) eqn:HL.
  - rewrite growth_next in H. pose proof (growth_max (length (v_elems v))). pose proof (growth_pos (length (v_elems v))).
    unfold Block_new in H. replace (0 <? growth (length (v_elems v))) with true in H by lia.
    set (nb := {| b_buf := Some fresh; b_top := 0; b_cap := growth (length (v_elems v)) |}) in H.
    destruct (emplace_back_ok rd v nb) as (cap & HE). rewrite HE in H. cbn [v_elems v_capacity] in H.
    destruct (rev (v_elems v ++ [nb])) as [|b before] eqn:Hr; [discriminate|].
    apply HB with (x := v_elems v ++ [nb]) in H as [G1 G2]; [| exact Hr|].
    + split; [exact G1|]. rewrite G2, removelast_last. unfold last_full in HL. destruct (v_elems v) as [|x l _] using rev_ind; [cbn; lia|].
      rewrite rev_app_distr in HL. cbn in HL. rewrite removelast_last, nonfull_app. unfold nonfull at 2. cbn. rewrite HL. lia.
    + apply Forall_app. split; [exact HF|]. constructor; [|constructor]. cbn [nb b_top b_cap]. lia.
  - destruct (rev (v_elems v)) as [|b before] eqn:Hr; [discriminate|]. apply HB with (x := v_elems v) in H as [H1 H2]; auto. split; [exact H1|]. rewrite H2. lia.
Qed.

Lemma merge_loose a b c : sound (Some a) -> sound (Some b) -> v_elems c = v_elems a ++ v_elems b ->
  sound (Some c) /\ loose (Some c) <= loose (Some a) + loose (Some b) + 1.
Proof.
  cbn [sound loose]. intros Ha Hb ->. split; [now apply Forall_app|]. pose proof (nonfull_removelast (v_elems a)).
  destruct (v_elems b) as [|x l _] using rev_ind.
  - rewrite app_nil_r. lia.
  - rewrite app_assoc, !removelast_last, nonfull_app. lia.
Qed.

Lemma get_pool_nth w i v : get_pool w i = Ok v -> nth_error (w_pools w) i = Some (Some v).
Proof. unfold get_pool. destruct (nth_error _ _) as [[]|]; congruence. Qed.
Lemma put_other {A} i j (x : A) l : i <> j -> nth_error (put i x l) j = nth_error l j.
Proof. revert i j. induction l as [|y l IH]; intros [|i] [|j] H; cbn; auto; congruence. Qed.
Lemma Forall_put {A} (P : A -> Prop) i x l : Forall P l -> P x -> Forall P (put i x l).
Proof. intros HF Hx. revert i. induction HF; intros [|i]; cbn; auto. Qed.
Lemma Forall_nth {A} (P : A -> Prop) l i x : Forall P l -> nth_error l i = Some x -> P x.
Proof. intros HF Hi. rewrite Forall_forall in HF. apply HF. eapply nth_error_In. exact Hi. Qed.

Lemma step_loose rd w op w' r : Forall sound (w_pools w) -> pool_step rd w op = Ok (w', r) ->
  Forall sound (w_pools w') /\ all_pools loose w' <= all_pools loose w + (if is_merge op then 1 else 0).
Proof.
  intros HF H. unfold all_pools. destruct op as [|i throws|i j|i|j|i j|i]; cbn [pool_step] in H.
  - injection H as <- <-. cbn [w_pools is_merge]. rewrite map_app, sum_app. split; [|cbn; lia]. apply Forall_app. split; [exact HF|]. repeat constructor.
  - apply obind_ok in H as (v & Hv & H). apply get_pool_nth in Hv. apply obind_ok in H as ([[[r1 v'] evs] e] & HA & H). injection H as <- <-. cbn [w_pools is_merge].
    apply alloc_loose in HA as [H1 H2]; [|eapply Forall_nth; eassumption]. split; [now apply Forall_put|].
    pose proof (sum_put loose _ _ (Some v') _ Hv). lia.
  - apply obind_ok in H as (v & Hv & H). apply get_pool_nth in Hv. apply obind_ok in H as (o & Ho & H). apply get_pool_nth in Ho.
    destruct (Nat.eqb_spec i j) as [|Hij]; [discriminate|]. destruct (merge_ok rd v o) as (cap & HM). rewrite HM in H. injection H as <- <-. cbn [w_pools is_merge].
    set (v' := {| v_elems := v_elems v ++ v_elems o; v_capacity := cap |}).
    destruct (merge_loose v o v') as [H1 H2]; [eapply Forall_nth; eassumption|eapply Forall_nth; eassumption|reflexivity|].
    split; [apply Forall_put; [now apply Forall_put|constructor]|].
    pose proof (sum_put loose _ _ (Some v') _ Hv) as E1. rewrite <- (put_other i j (Some v')) in Ho by exact Hij.
    pose proof (sum_put loose _ _ (Some {| v_elems := []; v_capacity := v_capacity o |}) _ Ho) as E2.
    change (loose (Some {| v_elems := []; v_capacity := v_capacity o |})) with 0 in E2. lia.
  - apply obind_ok in H as (v & Hv & H). apply get_pool_nth in Hv. unfold Pool_Clear in H. injection H as <- <-. cbn [w_pools is_merge].
    split; [apply Forall_put; [exact HF|constructor]|]. pose proof (sum_put loose _ _ (Some {| v_elems := []; v_capacity := v_capacity v |}) _ Hv) as E.
    change (loose (Some {| v_elems := []; v_capacity := v_capacity v |})) with 0 in E. lia.
  - apply obind_ok in H as (v & Hv & H). apply get_pool_nth in Hv. injection H as <- <-. cbn [w_pools is_merge]. rewrite map_app, sum_app. split.
    + apply Forall_app. split; [apply Forall_put; [exact HF|constructor]|]. constructor; [eapply Forall_nth; eassumption|constructor].
    + pose proof (sum_put loose _ _ (Some {| v_elems := []; v_capacity := 0 |}) _ Hv) as E.
      change (loose (Some {| v_elems := []; v_capacity := 0 |})) with 0 in E. cbn [map sum fold_right]. lia.
  - apply obind_ok in H as (v & Hv & H). apply get_pool_nth in Hv. apply obind_ok in H as (o & Ho & H). apply get_pool_nth in Ho.
    destruct (Nat.eqb_spec i j) as [|Hij]; [discriminate|]. injection H as <- <-. cbn [w_pools is_merge]. split.
    + apply Forall_put; [apply Forall_put; [exact HF|eapply Forall_nth; eassumption]|constructor].
    + pose proof (sum_put loose _ _ (Some o) _ Hv) as E1. rewrite <- (put_other i j (Some o)) in Ho by exact Hij.
      pose proof (sum_put loose _ _ (Some {| v_elems := []; v_capacity := 0 |}) _ Ho) as E2.
      change (loose (Some {| v_elems := []; v_capacity := 0 |})) with 0 in E2. lia.
  - apply obind_ok in H as (v & Hv & H). apply get_pool_nth in Hv. injection H as <- <-. cbn [w_pools is_merge].
    split; [apply Forall_put; [exact HF|constructor]|]. pose proof (sum_put loose _ _ None _ Hv) as E. change (loose None) with 0 in E. lia.
Qed.

Lemma run_loose rd ops : forall w w' rs, Forall sound (w_pools w) -> pool_run rd w ops = Ok (w', rs) ->
  Forall sound (w_pools w') /\ all_pools loose w' <= all_pools loose w + len (filter is_merge ops).
Proof.
  induction ops as [|op ops IH]; intros w w' rs HF H; cbn [pool_run filter] in *.
  - injection H as <- <-. split; [exact HF|]. lia.
  - apply obind_ok in H as ([w1 r] & H1 & H). apply obind_ok in H as ([w2 rs2] & H2 & H). injection H as <- <-.
    apply step_loose in H1 as [G1 G2]; [|exact HF]. apply IH in H2 as [G3 G4]; [|exact G1]. split; [exact G3|].
    destruct (is_merge op); rewrite ?len_cons; lia.
Qed.

(** Whatever is done with any number of pools (exceptions, moves, merges, clears): the
    slots they hold exceed the objects in them by at most 10240 for every pool that exists
    and every merge so far. *)
Theorem C96_any_history : forall rd ops w rs, pool_run rd pworld0 ops = Ok (w, rs) ->
  all_pools pool_slots w <= all_pools pool_objects w + 10240 * (all_pools pool_alive w + len (filter is_merge ops)).
Proof.
  intros rd ops w rs H. apply run_loose in H as [HF HL]; [|constructor]. change (all_pools loose pworld0) with 0 in HL.
  assert (H : all_pools pool_slots w <= all_pools pool_objects w + 10240 * (all_pools pool_alive w + all_pools loose w)).
  { unfold all_pools. clear HL. induction HF as [|[v|] l Hv HF IH]; [cbn; lia| |]; rewrite !sum_map_cons.
    - apply loose_bound in Hv. change (pool_alive (Some v)) with 1. lia.
    - cbn [pool_slots pool_objects pool_alive loose]. lia. }
  lia.
Qed.

(** Every merge can cost that much: after six merges of pools with one object each, the
    next object takes a buffer of 10240 slots. *)
Definition merge_ops : list pool_op :=
  OpNew :: OpAlloc 0 false :: concat (map (fun i => [OpNew; OpAlloc i false; OpMerge 0 i]) (seq 1 6)) ++ [OpAlloc 0 false; OpAlloc 0 false].
Example C96_met : exists w rs, pool_run true pworld0 merge_ops = Ok (w, rs) /\
  all_pools pool_objects w = 9 /\ all_pools pool_slots w = 10254 /\ requested (w_trace w) = [2; 2; 2; 2; 2; 2; 2; 10240].
Proof. eexists. eexists. split; [vm_compute; reflexivity|]. vm_compute. auto. Qed.

Example C96_growth_met : exists w rs, pool_run true pworld0 (OpNew :: repeat (OpAlloc 0 false) 150) = Ok (w, rs) /\
  requested (w_trace w) = [2; 16; 128; 1024].
Proof. eexists. eexists. split; [vm_compute; reflexivity|]. vm_compute. auto. Qed.
