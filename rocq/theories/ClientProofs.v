(** * Proofs about programs using pools and containers together. *)
From Verif Require Import Base BaseLemmas ModelObject ModelPool ModelStorage ModelFrames ModelClient SpecClient PropPool PropFrames.
From Coq Require Import ZifyBool ZifyNat ZifyN.
Local Open Scope out_scope.

Lemma cls_eqb_spec a b : reflect (a = b) (cls_eqb a b).
Proof. destruct a, b; cbn; constructor; congruence. Qed.

(** ** Liveness *)
Lemma live_fold rd s tr : forall h h', heap_run rd h tr = Some h' -> fold_left (live_step s) tr (h_live h s) = h_live h' s.
Proof.
  induction tr as [|e tr IH]; intros h h' H; cbn in H |- *; [now inversion H|].
  destruct (heap_step rd h e) as [h1|] eqn:E; [|discriminate]. rewrite <- (IH h1 h' H). f_equal.
  destruct e as [b c|s'|s'|b]; cbn in E |- *.
  - destruct (h_buf h b); [discriminate|]. now inversion E.
  - destruct (h_buf h (fst s')); [|discriminate]. destruct (_ && _); inversion E. reflexivity.
  - destruct (h_live h s'); inversion E. reflexivity.
  - destruct (h_buf h b); [|discriminate]. destruct (rd && _); inversion E. reflexivity.
Qed.

(** Every class: the invariant of its pools, and a legal history. *)
Definition PI (ps : cls -> pworld) (alive : list bool) (owns : cls -> owners) : Prop :=
  forall k, exists h, inv (ps k) alive (owns k) h /\ heap_run (require_destruct k) heap0 (w_trace (ps k)) = Some h.

Lemma PI_live w alive owns a : PI (k_pools w) alive owns -> (touchable w a = true <-> owns (fst a) (snd a) <> None).
Proof.
  intros P. destruct (P (fst a)) as (h & I & Hr). unfold touchable.
  rewrite (live_fold _ (snd a) _ _ _ Hr : fold_left _ _ false = _). apply (owned_live _ _ _ _ _ I).
Qed.
Lemma PI_live_b w alive owns a : PI (k_pools w) alive owns -> touchable w a = present (owns (fst a) (snd a)).
Proof.
  intros P. pose proof (PI_live w alive owns a P) as H. destruct (touchable w a), (owns (fst a) (snd a)); cbn; try reflexivity.
  - exfalso. now apply (proj1 H).
  - apply H. discriminate.
Qed.

(** ** Pool calls *)
Definition pool_of (op : bp_op) : pool_op :=
  match op with
  | BpNew => OpNew | BpAlloc i _ t => OpAlloc i t | BpMerge i j => OpMerge i j | BpClear i => OpClear i
  | BpMove j => OpMoveNew j | BpAssign i j => OpMoveAssign i j | BpDestroy i => OpDestroy i
  end.
Definition is_alloc (op : bp_op) : bool := match op with BpAlloc _ _ _ => true | _ => false end.

Lemma member_one k op : is_alloc op = false -> member_ops k op = [pool_of op].
Proof. rewrite member_ops_eq. now destruct op. Qed.

Lemma pool_run_one rd w op : pool_run rd w [op] = ('(w1, r) <- pool_step rd w op ;; Ok (w1, [r])).
Proof. cbn. destruct (pool_step rd w op) as [[w1 r]| | | |]; reflexivity. Qed.

Lemma members_ok op ks : NoDup ks -> forall ps (f : cls -> pworld) (r : cls -> list pool_result),
  (forall k, In k ks -> pool_run (require_destruct k) (ps k) (member_ops k op) = Ok (f k, r k)) ->
  exists ps', bp_members ks op ps = Ok (ps', flat_map r ks) /\
    (forall k, In k ks -> ps' k = f k) /\ (forall k, ~ In k ks -> ps' k = ps k).
Proof.
  induction 1 as [|k ks Hk HN IH]; intros ps f r H.
  - exists ps. repeat split; cbn; tauto.
  - cbn [bp_members]. rewrite (H k (or_introl eq_refl)). cbn [obind].
    destruct (IH (set_pool k (f k) ps) f r) as (ps' & Hb & H1 & H2).
    { intros k' Hin. unfold set_pool. destruct (cls_eqb_spec k' k) as [->|_]; [contradiction|]. apply H. now right. }
    rewrite Hb. cbn [obind]. exists ps'. split; [reflexivity|]. split.
    + intros k' [->|Hin]; [|now apply H1]. rewrite (H2 k' Hk). unfold set_pool. destruct (cls_eqb_spec k' k'); congruence.
    + intros k' Hn. rewrite H2 by (intros Hx; apply Hn; now right). unfold set_pool.
      destruct (cls_eqb_spec k' k) as [->|_]; [|reflexivity]. exfalso. apply Hn. now left.
Qed.

Lemma members_nodup : NoDup members.
Proof. repeat constructor; cbn; intuition discriminate. Qed.
Lemma members_all k : In k members.
Proof. destruct k; cbn; tauto. Qed.

Lemma legal_dec alive op : legal alive op \/ ~ legal alive op.
Proof.
  assert (D : forall i, nth_error alive i = Some true \/ nth_error alive i <> Some true)
    by (intros i; destruct (nth_error alive i) as [[]|]; auto; right; discriminate).
  destruct op as [|i t|i j|i|j|i j|i]; cbn; auto; destruct (D i) as [Hi|Hi]; try tauto; destruct (D j) as [Hj|Hj]; try tauto;
    destruct (Nat.eq_dec i j); tauto.
Qed.

Lemma illegal_UB rd w alive own h op : inv w alive own h -> ~ legal alive op -> pool_step rd w op = UB.
Proof.
  intros I HL.
  assert (G : forall i, get_pool w i = UB \/ exists v, get_pool w i = Ok v /\ nth_error alive i = Some true).
  { intros i. unfold get_pool. destruct (nth_error (w_pools w) i) as [[v|]|] eqn:E; auto. right. exists v. split; [reflexivity|].
    apply (i_alive _ _ _ _ I). eauto. }
  destruct op as [|i t|i j|i|j|i j|i]; cbn [pool_step legal] in *.
  - tauto.
  - destruct (G i) as [->|(v & -> & ?)]; [reflexivity|tauto].
  - destruct (G i) as [->|(v & -> & ?)]; [reflexivity|]. destruct (G j) as [->|(v' & -> & ?)]; [reflexivity|]. cbn.
    destruct (Nat.eqb_spec i j); [reflexivity|tauto].
  - destruct (G i) as [->|(v & -> & ?)]; [reflexivity|tauto].
  - destruct (G j) as [->|(v & -> & ?)]; [reflexivity|tauto].
  - destruct (G i) as [->|(v & -> & ?)]; [reflexivity|]. destruct (G j) as [->|(v' & -> & ?)]; [reflexivity|]. cbn.
    destruct (Nat.eqb_spec i j); [reflexivity|tauto].
  - destruct (G i) as [->|(v & -> & ?)]; [reflexivity|tauto].
Qed.

Definition grows (ps ps' : cls -> pworld) : Prop := forall k, exists evs, w_trace (ps' k) = w_trace (ps k) ++ evs.

Lemma bp_do_ok w alive owns op : PI (k_pools w) alive owns -> is_alloc op = false -> legal alive (pool_of op) ->
  exists ps rs, bp_do w op = Ok ({| k_pools := ps; k_mem := k_mem w; k_vars := k_vars w |}, rs) /\
    PI ps (alive_after alive (pool_of op)) (fun k => own_step (length alive) (pool_of op) RNone (owns k)) /\ grows (k_pools w) ps.
Proof.
  intros P Ha HL.
  assert (Hall : exists (f : cls -> pworld) (r : cls -> list pool_result), forall k,
     pool_run (require_destruct k) (k_pools w k) (member_ops k op) = Ok (f k, r k) /\
     (exists h, inv (f k) (alive_after alive (pool_of op)) (own_step (length alive) (pool_of op) RNone (owns k)) h /\
        heap_run (require_destruct k) heap0 (w_trace (f k)) = Some h) /\
     exists evs, w_trace (f k) = w_trace (k_pools w k) ++ evs).
  { assert (H1 : forall k, exists p : pworld * list pool_result,
     pool_run (require_destruct k) (k_pools w k) (member_ops k op) = Ok (fst p, snd p) /\
     (exists h, inv (fst p) (alive_after alive (pool_of op)) (own_step (length alive) (pool_of op) RNone (owns k)) h /\
        heap_run (require_destruct k) heap0 (w_trace (fst p)) = Some h) /\
     exists evs, w_trace (fst p) = w_trace (k_pools w k) ++ evs).
    { intros k. destruct (P k) as (h & I & Hr). destruct (step_ok (require_destruct k) _ _ _ _ _ I HL)
        as (w' & r & h' & evs & Hs & Ht & Hh & Hg & _ & _ & I').
      assert (Er : r = RNone) by (destruct op; cbn in Ha, Hg; congruence). subst r.
      exists (w', [RNone]). rewrite (member_one k op Ha), pool_run_one, Hs. split; [reflexivity|]. split; [|exists evs; exact Ht].
      exists h'. split; [exact I'|]. cbn [fst]. rewrite Ht, heap_run_app, Hr. exact Hh. }
    destruct (H1 KData) as (p1 & ?), (H1 KDataView) as (p2 & ?), (H1 KArray) as (p3 & ?), (H1 KArrayItem) as (p4 & ?),
      (H1 KMap) as (p5 & ?), (H1 KMapItem) as (p6 & ?), (H1 KMapView) as (p7 & ?), (H1 KMapViewItem) as (p8 & ?).
    pose (p := fun k => match k with KData => p1 | KDataView => p2 | KArray => p3 | KArrayItem => p4 | KMap => p5
                        | KMapItem => p6 | KMapView => p7 | KMapViewItem => p8 end).
    exists (fun k => fst (p k)), (fun k => snd (p k)). intros []; assumption. }
  destruct Hall as (f & r & Hall).
  destruct (members_ok op members members_nodup (k_pools w) f r) as (ps & Hb & H1 & _); [intros k _; apply Hall|].
  exists ps, (flat_map r members). unfold bp_do. rewrite Hb. split; [reflexivity|].
  split; intros k; rewrite (H1 k (members_all k)); apply Hall.
Qed.

Lemma bp_do_UB w alive owns op : PI (k_pools w) alive owns -> is_alloc op = false -> ~ legal alive (pool_of op) ->
  bp_do w op = UB.
Proof.
  intros P Ha HL. unfold bp_do, members. cbn [bp_members]. rewrite (member_one KData op Ha), pool_run_one.
  destruct (P KData) as (h & I & _). now rewrite (illegal_UB _ _ _ _ _ _ I HL).
Qed.

Definition add_owner (a : addr) (i : nat) (owns : cls -> owners) : cls -> owners :=
  fun k s => if cls_eqb k (fst a) && slot_eqb s (snd a) then Some i else owns k s.

Lemma alloc_ok w alive owns i k c : PI (k_pools w) alive owns -> nth_error alive i = Some true ->
  exists ps s, alloc w i k c = Ok ({| k_pools := ps; k_mem := set_mem (k, s) c (k_mem w); k_vars := k_vars w |}, s) /\
    PI ps alive (add_owner (k, s) i owns) /\ grows (k_pools w) ps /\
    ~ In (EvConstruct s) (w_trace (k_pools w k)) /\ In (EvConstruct s) (w_trace (ps k)) /\ owns k s = None.
Proof.
  intros P Hi. destruct (P k) as (h & I & Hr).
  assert (HL : legal alive (OpAlloc i false)) by exact Hi.
  destruct (step_ok (require_destruct k) _ _ _ _ _ I HL) as (w' & r & h' & evs & Hs & Ht & Hh & Hg & Hslot & _ & I').
  destruct Hg as (s & ->). destruct (Hslot s eq_refl) as (Ho & Hn & evs0 & Hevs & _).
  destruct (members_ok (BpAlloc i k false) members members_nodup (k_pools w)
     (fun k' => if cls_eqb k' k then w' else k_pools w k') (fun k' => if cls_eqb k' k then [RSlot s] else [])) as (ps & Hb & H1 & _).
  { intros k' _. rewrite member_ops_eq. destruct (cls_eqb_spec k' k) as [->|_]; [|reflexivity]. now rewrite pool_run_one, Hs. }
  exists ps, s. unfold alloc, bp_do. rewrite Hb. cbn [obind k_mem k_vars k_pools].
  replace (flat_map (fun k' => if cls_eqb k' k then [RSlot s] else []) members) with [RSlot s] by (destruct k; reflexivity).
  split; [reflexivity|]. split.
  - intros k'. rewrite (H1 k' (members_all k')). unfold add_owner. cbn [fst snd]. destruct (cls_eqb_spec k' k) as [->|_].
    + exists h'. split; [exact I'|]. rewrite Ht, heap_run_app, Hr. exact Hh.
    + cbn. apply P.
  - split; [|split; [exact Hn|split; [|exact Ho]]].
    + intros k'. rewrite (H1 k' (members_all k')). destruct (cls_eqb_spec k' k) as [->|_]; [eauto|]. exists []. now rewrite app_nil_r.
    + rewrite (H1 k (members_all k)). destruct (cls_eqb_spec k k); [|congruence]. rewrite Ht, Hevs. apply in_or_app. right. apply in_or_app. right. now left.
Qed.

Lemma alloc_UB w alive owns i k c : PI (k_pools w) alive owns -> nth_error alive i <> Some true -> alloc w i k c = UB.
Proof.
  intros P Hi. unfold alloc, bp_do.
  assert (H : forall ks ps, In k ks -> ps k = k_pools w k -> bp_members ks (BpAlloc i k false) ps = UB).
  { induction ks as [|k' ks IH]; intros ps Hin Hps; [destruct Hin|]. cbn [bp_members]. rewrite member_ops_eq.
    destruct (cls_eqb_spec k' k) as [->|Hne].
    - rewrite pool_run_one, Hps. destruct (P k) as (h & I & _). now rewrite (illegal_UB _ _ _ _ _ (OpAlloc i false) I Hi).
    - cbn [pool_run obind]. rewrite (IH (set_pool k' (ps k') ps)); [reflexivity|destruct Hin; congruence|].
      unfold set_pool. destruct (cls_eqb_spec k k'); congruence. }
  now rewrite (H members (k_pools w) (members_all k) eq_refl).
Qed.

(** ** The relation between a program's memory and the specification *)
Lemma addr_dec (a b : addr) : {a = b} + {a <> b}.
Proof. repeat decide equality. Qed.

Lemma set_mem_same a c m : set_mem a c m (fst a) (snd a) = Some c.
Proof. unfold set_mem. destruct (cls_eqb_spec (fst a) (fst a)); [|congruence]. now rewrite Nat.eqb_refl, N.eqb_refl. Qed.
Lemma set_mem_other a c m k s : (k, s) <> a -> set_mem a c m k s = m k s.
Proof.
  intros H. unfold set_mem. destruct a as [k' [b i]]; cbn. destruct (cls_eqb_spec k k') as [->|]; [|reflexivity].
  destruct s as [b' i']; cbn. destruct (Nat.eqb_spec b' b) as [->|]; [|reflexivity]. destruct (N.eqb_spec i' i) as [->|]; [|reflexivity]. congruence.
Qed.

Fixpoint chain (mem : slot_id -> option cell) (own : owners) (vars : list addr)
    (last : option slot_id) (l : list entry) (g : list slot_id) : Prop :=
  match l, g with
  | [], [] => last = None
  | e :: l', s :: g' => last = Some s /\ own s = en_home e /\
      exists v next, mem s = Some (CellItem (en_key e) v next) /\ same_ptr vars v (en_val e) /\ chain mem own vars next l' g'
  | _, _ => False
  end.

Lemma same_ptr_more vars vars' a v : same_ptr vars a v -> same_ptr (vars ++ vars') a v.
Proof.
  destruct v as [n|]; cbn; [|auto]. intros [H1 H2]. split; [exact H1|]. rewrite H2. rewrite nth_error_app1; [reflexivity|].
  apply nth_error_Some. congruence.
Qed.

Lemma chain_ext mem mem' own own' vars vars' l : forall last g, chain mem own vars last l g ->
  (forall s, In s g -> mem' s = mem s) -> (forall s, In s g -> own' s = own s) -> (exists e, vars' = vars ++ e) ->
  chain mem' own' vars' last l g.
Proof.
  induction l as [|e l IH]; intros last [|s g] H Hm Ho Hv; cbn in *; auto.
  destruct H as (-> & Hown & v & next & Hc & Hp & H). split; [reflexivity|]. rewrite (Ho s (or_introl eq_refl)). split; [exact Hown|].
  exists v, next. rewrite (Hm s (or_introl eq_refl)). split; [exact Hc|]. split.
  - destruct Hv as (ex & ->). now apply same_ptr_more.
  - apply IH; auto.
Qed.
Lemma chain_length mem own vars l : forall last g, chain mem own vars last l g -> length l = length g.
Proof. induction l as [|e l IH]; intros last [|s g] H; cbn in *; try tauto. destruct H as (_ & _ & v & next & _ & _ & H). f_equal. eauto. Qed.

Definition made (ps : cls -> pworld) (k : cls) (s : slot_id) : Prop := In (EvConstruct s) (w_trace (ps k)).

Definition obj_ok (w : client) (owns : cls -> owners) (t : N) (a : addr) (o : sobj) (g : list slot_id) : Prop :=
  fst a = so_cls o /\ owns (fst a) (snd a) = so_home o /\
  match so_content o with
  | SData x => (fst a = KData \/ fst a = KDataView) /\ g = [] /\ k_mem w (fst a) (snd a) = Some (CellData x)
  | SCont l => exists ik last, item_cls (fst a) = Some ik /\
      k_mem w (fst a) (snd a) = Some (CellCont (so_made o) last (len l)) /\
      chain (k_mem w ik) (owns ik) (k_vars w) last l g /\ NoDup g /\ (forall s, In s g -> made (k_pools w) ik s) /\ len l <= t
  end.

Record rel (w : client) (st : sstate) (owns : cls -> owners) (G : list (list slot_id)) (t : N) : Prop := {
  r_pools : PI (k_pools w) (st_alive st) owns;
  r_len : length (k_vars w) = length (st_objs st);
  r_lenG : length (k_vars w) = length G;
  r_vars : NoDup (k_vars w);
  r_made : forall a, In a (k_vars w) -> made (k_pools w) (fst a) (snd a);
  r_obj : forall n a o g, nth_error (k_vars w) n = Some a -> nth_error (st_objs st) n = Some o -> nth_error G n = Some g ->
    obj_ok w owns t a o g;
  r_disj : forall n m a b g g' s, n <> m -> nth_error (k_vars w) n = Some a -> nth_error (k_vars w) m = Some b -> fst a = fst b ->
    nth_error G n = Some g -> nth_error G m = Some g' -> In s g -> In s g' -> False
}.

Lemma item_cls_inj k k' ik : item_cls k = Some ik -> item_cls k' = Some ik -> k = k'.
Proof. destruct k, k'; cbn; congruence. Qed.
Lemma item_item k ik : item_cls k = Some ik -> item_cls ik = None.
Proof. destruct k; cbn; intros H; inversion H; reflexivity. Qed.
Lemma item_not_obj k k' ik : item_cls k = Some ik -> (item_cls k' <> None \/ k' = KData \/ k' = KDataView) -> ik <> k'.
Proof. destruct k, k'; cbn; intuition congruence. Qed.

Lemma put_spec {A} n (x : A) l : (n < length l)%nat -> firstn n l ++ x :: skipn (S n) l = put n x l.
Proof. revert n. induction l as [|y l IH]; intros [|n] H; cbn in *; try lia; [reflexivity|]. f_equal. apply IH. lia. Qed.

(** Objects are of the classes a program can make. *)
Definition obj_cls (k : cls) : Prop := item_cls k <> None \/ k = KData \/ k = KDataView.

Lemma rel_change w st owns G t n a o g ps' owns' mem' o' g' t' :
  rel w st owns G t -> nth_error (k_vars w) n = Some a -> nth_error (st_objs st) n = Some o -> nth_error G n = Some g ->
  PI ps' (st_alive st) owns' -> grows (k_pools w) ps' -> t <= t' ->
  (forall k s, made (k_pools w) k s -> owns' k s = owns k s) ->
  (forall m b, m <> n -> nth_error (k_vars w) m = Some b -> mem' (fst b) (snd b) = k_mem w (fst b) (snd b)) ->
  (forall m b gb ik s, m <> n -> nth_error (k_vars w) m = Some b -> nth_error G m = Some gb -> item_cls (fst b) = Some ik -> In s gb ->
     mem' ik s = k_mem w ik s) ->
  obj_ok {| k_pools := ps'; k_mem := mem'; k_vars := k_vars w |} owns' t' a o' g' ->
  (forall s ik, In s g' -> item_cls (fst a) = Some ik -> In s g \/ ~ made (k_pools w) ik s) ->
  rel {| k_pools := ps'; k_mem := mem'; k_vars := k_vars w |} (set_obj n o' st) owns' (put n g' G) t'.
Proof.
  intros R Ha Ho Hg P' Hgr Ht Hown Hobj Hit Hok Hnew.
  assert (Hn : (n < length (st_objs st))%nat) by (apply nth_error_Some; congruence).
  assert (HnG : (n < length G)%nat) by (apply nth_error_Some; congruence).
  assert (Hmade : forall k s, made (k_pools w) k s -> made ps' k s).
  { intros k s H. unfold made in *. destruct (Hgr k) as (evs & ->). apply in_or_app. now left. }
  destruct R as [RP RL RG RV RM RO RD]. unfold set_obj. rewrite (put_spec n o' (st_objs st) Hn). split; cbn.
  - exact P'.
  - now rewrite put_length.
  - now rewrite put_length.
  - exact RV.
  - intros b Hb. apply Hmade. now apply RM.
  - intros m b ob gb Hb. rewrite (nth_error_put n o' (st_objs st) m Hn), (nth_error_put n g' G m HnG).
    destruct (Nat.eqb_spec m n) as [->|Hne].
    + intros E1 E2. assert (b = a) by congruence. assert (ob = o') by congruence. assert (gb = g') by congruence. subst. exact Hok.
    + intros E1 E2. destruct (RO m b ob gb Hb E1 E2) as (H1 & H2 & H3).
      assert (Hm : made (k_pools w) (fst b) (snd b)) by (apply RM; eapply nth_error_In; exact Hb).
      split; [exact H1|]. split; [rewrite Hown by exact Hm; exact H2|]. cbn [k_mem k_vars k_pools].
      rewrite (Hobj m b Hne Hb).
      destruct (so_content ob) as [x|l].
      * exact H3.
      * destruct H3 as (ik & last & Hik & Hc & Hch & HN & Hmd & Hl). exists ik, last. split; [exact Hik|]. split; [exact Hc|].
        split; [|split; [exact HN|split; [auto|lia]]].
        eapply chain_ext; [exact Hch| | |exists []; now rewrite app_nil_r].
        { intros s Hs. eapply Hit; eauto. }
        { intros s Hs. apply Hown. auto. }
  - intros m1 m2 b1 b2 g1 g2 s Hne Hb1 Hb2 Hcl. rewrite !(nth_error_put n g' G _ HnG).
    assert (Hcase : forall m b gb, m <> n -> nth_error (k_vars w) m = Some b -> fst a = fst b -> nth_error G m = Some gb -> In s g' -> In s gb -> False).
    { intros m b gb Hm Hb Hcl' Hgb Hs' Hs.
      assert (Hex : exists ob, nth_error (st_objs st) m = Some ob).
      { destruct (nth_error (st_objs st) m) eqn:E; [eauto|]. apply nth_error_None in E. assert (m < length (k_vars w))%nat by (apply nth_error_Some; congruence). lia. }
      destruct Hex as (ob & Hob). destruct (RO m b ob gb Hb Hob Hgb) as (_ & _ & H3).
      destruct (so_content ob) as [x|l].
      - destruct H3 as (_ & -> & _). destruct Hs.
      - destruct H3 as (ik & last & Hik & _ & _ & _ & Hmd & _). rewrite <- Hcl' in Hik. destruct (Hnew s ik Hs' Hik) as [Hold|Hfresh].
        + eapply (RD n m); eauto.
        + apply Hfresh. auto. }
    destruct (Nat.eqb_spec m1 n) as [->|H1n], (Nat.eqb_spec m2 n) as [->|H2n]; intros E1 E2 Hs1 Hs2.
    + congruence.
    + assert (b1 = a) by congruence. assert (g1 = g') by congruence. subst. eapply (Hcase m2); eauto.
    + assert (b2 = a) by congruence. assert (g2 = g') by congruence. subst. eapply (Hcase m1); eauto.
    + eapply (RD m1 m2); eauto.
Qed.

(** ** Pool calls keep the relation *)
Definition ohome (f : nat -> option nat) (h : option nat) : option nat := match h with Some i => f i | None => None end.

Lemma chain_rehome mem own vars f l : forall last g, chain mem own vars last l g ->
  chain mem (fun s => ohome f (own s)) vars last
    (map (fun e => {| en_key := en_key e; en_val := en_val e; en_home := ohome f (en_home e) |}) l) g.
Proof.
  induction l as [|e l IH]; intros last [|s g] H; cbn in *; auto.
  destruct H as (-> & Hown & v & next & Hc & Hp & H). split; [reflexivity|]. split; [now rewrite Hown|]. exists v, next. auto.
Qed.

Lemma chain_own mem own own' vars l last g : chain mem own vars last l g -> (forall s, own' s = own s) -> chain mem own' vars last l g.
Proof. intros H He. eapply chain_ext; [exact H|auto|auto|exists []; now rewrite app_nil_r]. Qed.

Lemma rel_rehome w st owns G t ps alive' owns' f : rel w st owns G t ->
  PI ps alive' owns' -> grows (k_pools w) ps -> (forall k s, owns' k s = ohome f (owns k s)) ->
  rel {| k_pools := ps; k_mem := k_mem w; k_vars := k_vars w |}
      {| st_alive := alive'; st_objs := rehome_all f (st_objs st) |} owns' G t.
Proof.
  intros [RP RL RG RV RM RO RD] P' Hgr Hf.
  assert (Hmade : forall k s, made (k_pools w) k s -> made ps k s).
  { intros k s H. unfold made in *. destruct (Hgr k) as (evs & ->). apply in_or_app. now left. }
  split; cbn; auto.
  - unfold rehome_all. now rewrite map_length.
  - intros n a o g Ha Ho Hg. unfold rehome_all in Ho. rewrite nth_error_map in Ho.
    destruct (nth_error (st_objs st) n) as [o0|] eqn:E; [|discriminate]. cbn in Ho. inversion Ho; subst o. clear Ho.
    destruct (RO n a o0 g Ha E Hg) as (H1 & H2 & H3). split; [exact H1|]. split; [cbn; rewrite Hf, H2; reflexivity|]. cbn.
    destruct (so_content o0) as [x|l]; [exact H3|]. destruct H3 as (ik & last & Hik & Hc & Hch & HN & Hmd & Hl).
    exists ik, last. unfold len in *. rewrite map_length. repeat split; auto.
    exact (chain_own _ _ (owns' ik) _ _ _ _ (chain_rehome _ _ _ f _ _ _ Hch) (fun s => Hf ik s)).
Qed.

Lemma rehome_same f l : (forall h, f h = Some h) -> rehome_all f l = l.
Proof.
  intros H. unfold rehome_all. rewrite <- (map_id l) at 2. apply map_ext. intros [k m h c]. cbn.
  assert (Hh : forall x, match x with Some i => f i | None => None end = x) by (intros [x|]; auto).
  rewrite Hh. f_equal. destruct c as [x|es]; [reflexivity|]. f_equal. rewrite <- (map_id es) at 2. apply map_ext. intros [key v h']. cbn. now rewrite Hh.
Qed.

Lemma exists_pool_spec st i : exists_pool st i = true <-> nth_error (st_alive st) i = Some true.
Proof. unfold exists_pool. destruct (nth_error (st_alive st) i) as [[]|]; intuition congruence. Qed.

Inductive ores {A B} (R : A -> B -> Prop) : outcome A -> outcome B -> Prop :=
| or_ok a b : R a b -> ores R (Ok a) (Ok b)
| or_ub : ores R UB UB
| or_fuel : ores R Fuel Fuel.

(** A step of the program and one of the specification. *)
Definition agree (w : client) (t' : N) : client * canswer -> sstate * sanswer -> Prop :=
  fun x y => exists owns G, rel (fst x) (fst y) owns G t' /\ same_answer (k_vars (fst x)) (snd x) (snd y) /\
    exists e, k_vars (fst x) = k_vars w ++ e.

Lemma rel_t w st owns G t t' : rel w st owns G t -> t <= t' -> rel w st owns G t'.
Proof.
  intros [RP RL RG RV RM RO RD] Ht. split; auto. intros n a o g Ha Ho Hg. destruct (RO n a o g Ha Ho Hg) as (H1 & H2 & H3).
  split; [exact H1|]. split; [exact H2|]. destruct (so_content o); [exact H3|]. destruct H3 as (ik & last & ? & ? & ? & ? & ? & ?). exists ik, last.
  repeat split; auto. lia.
Qed.

Lemma agree_same w st owns G t t' a sa : rel w st owns G t -> t <= t' -> same_answer (k_vars w) a sa -> agree w t' (w, a) (st, sa).
Proof. intros R Ht H. exists owns, G. split; [eapply rel_t; eauto|]. split; [exact H|]. exists []. now rewrite app_nil_r. Qed.

Lemma step_pool w st owns G t op : rel w st owns G t ->
  ores (agree w (t + 1)) (cl_step w (CPool op)) (spec_step st (CPool op)).
Proof.
  intros R. destruct (is_alloc op) eqn:Ea; [destruct op; try discriminate Ea; constructor|].
  pose proof (r_pools _ _ _ _ _ R) as P.
  assert (Hcl : cl_step w (CPool op) = ('(w', _) <- bp_do w op ;; Ok (w', AnNone))) by (destruct op; try reflexivity; discriminate Ea).
  rewrite Hcl. cbn [spec_step].
  assert (Hspec : exists f, pool_call st op = (if match op with BpNew => true | BpAlloc _ _ _ => false | BpMerge i j | BpAssign i j => exists_pool st i && exists_pool st j && negb (Nat.eqb i j)
       | BpClear i | BpMove i | BpDestroy i => exists_pool st i end
     then Ok {| st_alive := alive_after (st_alive st) (pool_of op); st_objs := rehome_all f (st_objs st) |} else UB) /\
     forall own s, own_step (length (st_alive st)) (pool_of op) RNone own s = ohome f (own s)).
  { destruct op as [|i k th|i j|i|j|i j|i]; try discriminate Ea; cbn [pool_call pool_of own_step].
    - exists Some. split; [|intros own s; now destruct (own s)]. cbn. now rewrite (rehome_same Some) by reflexivity.
    - eexists. split; [reflexivity|]. intros own s. unfold hand_over. destruct (own s); reflexivity.
    - eexists. split; [reflexivity|]. intros own s. unfold drop. destruct (own s); reflexivity.
    - eexists. split; [reflexivity|]. intros own s. unfold hand_over. destruct (own s); reflexivity.
    - eexists. split; [reflexivity|]. intros own s. unfold hand_over, drop. destruct (own s) as [h|]; [|reflexivity]. cbn. destruct (Nat.eqb h i); reflexivity.
    - eexists. split.
      + unfold only. destruct (exists_pool st i) eqn:E; [|reflexivity]. cbn [alive_after]. rewrite put_spec; [reflexivity|].
        apply exists_pool_spec in E. apply nth_error_Some. congruence.
      + intros own s. unfold drop. destruct (own s); reflexivity. }
  destruct Hspec as (f & -> & Hf).
  match goal with |- context [if ?c then _ else _] => destruct c eqn:Ec end.
  - assert (HL : legal (st_alive st) (pool_of op)).
    { destruct op as [|i k th|i j|i|j|i j|i]; try discriminate Ea; cbn; auto; rewrite ?andb_true_iff, ?exists_pool_spec, ?negb_true_iff, ?Nat.eqb_neq in Ec; tauto. }
    destruct (bp_do_ok w _ owns op P Ea HL) as (ps & rs & Hb & P' & Hgr). rewrite Hb. cbn [obind]. constructor.
    exists (fun k => own_step (length (st_alive st)) (pool_of op) RNone (owns k)), G. cbn [fst snd]. split; [|split; [exact I|]].
    + apply rel_t with t; [|lia]. eapply rel_rehome; eauto.
    + exists []. cbn. now rewrite app_nil_r.
  - assert (HL : ~ legal (st_alive st) (pool_of op)).
    { intros HL. destruct op as [|i k th|i j|i|j|i j|i]; try discriminate Ea; cbn in HL; try discriminate Ec;
      rewrite <- ?exists_pool_spec in HL; try congruence; destruct HL as (H1 & H2 & H3); rewrite H1, H2 in Ec; cbn in Ec; apply Nat.eqb_neq in H3; rewrite H3 in Ec; discriminate. }
    rewrite (bp_do_UB w _ owns op P Ea HL). constructor.
Qed.

(** ** Creation *)
Lemma rel_create w st owns G t i k c sc : rel w st owns G t ->
  match sc with SData x => (k = KData \/ k = KDataView) /\ c = CellData x | SCont l => l = [] /\ item_cls k <> None /\ c = CellCont i None 0 end ->
  ores (agree w (t + 1)) (create w i k c) (st' <- make st i k sc ;; Ok (st', SaNone)).
Proof.
  intros R Hsc. pose proof (r_pools _ _ _ _ _ R) as P. unfold create, make, only. destruct (exists_pool st i) eqn:Ei.
  - apply exists_pool_spec in Ei. destruct (alloc_ok w _ owns i k c P Ei) as (ps & s & Hal & P' & Hgr & Hfresh & Hmd & Hno).
    rewrite Hal. cbn [obind k_pools k_mem k_vars]. constructor.
    exists (add_owner (k, s) i owns), (G ++ [[]]). cbn [fst snd k_vars]. split; [|split; [exact I|eauto]].
    destruct R as [RP RL RG RV RM RO RD].
    assert (Hmade : forall k' s', made (k_pools w) k' s' -> made ps k' s').
    { intros k' s' H. unfold made in *. destruct (Hgr k') as (evs & ->). apply in_or_app. now left. }
    assert (Hne : forall k' s', made (k_pools w) k' s' -> (k', s') <> (k, s)) by (intros k' s' H E; inversion E; subst; now apply Hfresh).
    assert (Hown : forall k' s', made (k_pools w) k' s' -> add_owner (k, s) i owns k' s' = owns k' s').
    { intros k' s' H. unfold add_owner. cbn. destruct (cls_eqb_spec k' k) as [->|]; [|reflexivity]. destruct (slot_eqb_spec s' s) as [->|]; [|reflexivity]. exfalso. now apply Hfresh. }
    split; cbn.
    + exact P'.
    + rewrite !app_length. cbn. lia.
    + rewrite !app_length. cbn. lia.
    + apply NoDup_app; [exact RV|repeat constructor; intros []|]. intros x Hx [<-|[]]. apply (Hne k s); [exact (RM _ Hx)|reflexivity].
    + intros a Ha. apply in_app_or in Ha as [Ha|[<-|[]]]; [auto|exact Hmd].
    + intros n a o g Ha Ho Hg. destruct (Nat.lt_ge_cases n (length (k_vars w))) as [Hlt|Hge].
      * rewrite nth_error_app1 in Ha by lia. rewrite nth_error_app1 in Ho by lia. rewrite nth_error_app1 in Hg by lia.
        destruct (RO n a o g Ha Ho Hg) as (H1 & H2 & H3).
        assert (Hm : made (k_pools w) (fst a) (snd a)) by (apply RM; eapply nth_error_In; exact Ha).
        split; [exact H1|]. split; [rewrite Hown by exact Hm; exact H2|]. cbn.
        rewrite set_mem_other by (apply Hne; destruct a; exact Hm).
        destruct (so_content o) as [x|l]; [exact H3|]. destruct H3 as (ik & last & Hik & Hc & Hch & HN & Hmds & Hl). exists ik, last.
        repeat split; auto; [|lia]. eapply chain_ext; [exact Hch| | |eauto].
        { intros s' Hs'. apply set_mem_other. apply Hne. auto. }
        { intros s' Hs'. apply Hown. auto. }
      * rewrite nth_error_app2 in Ha by lia. rewrite nth_error_app2 in Ho by lia. rewrite nth_error_app2 in Hg by lia.
        rewrite <- RL in Ho. rewrite <- RG in Hg. destruct (n - length (k_vars w))%nat as [|m]; cbn in Ha, Ho, Hg; [|destruct m; discriminate].
        inversion Ha; inversion Ho; inversion Hg; subst a o g. split; [reflexivity|]. split.
        { cbn. unfold add_owner. cbn. destruct (cls_eqb_spec k k); [|congruence]. destruct (slot_eqb_spec s s); [reflexivity|congruence]. }
        pose proof (set_mem_same (k, s) c (k_mem w)) as Hsm. cbn in Hsm |- *. rewrite Hsm.
        destruct sc as [x|l].
        { destruct Hsc as [E ->]. auto. }
        { destruct Hsc as (-> & E & ->). destruct (item_cls k) as [ik|]; [|congruence]. exists ik, None. repeat split; auto; try constructor; try (intros ? []). unfold len. cbn. lia. }
    + intros n m a b g g' s' Hnm Ha Hb Hcl Hg Hg' Hs Hs'.
      assert (HnG : (n < length G)%nat).
      { destruct (Nat.lt_ge_cases n (length G)) as [?|Hge]; [assumption|]. rewrite nth_error_app2 in Hg by lia. destruct (n - length G)%nat as [|q]; cbn in Hg; [inversion Hg; subst; destruct Hs|destruct q; discriminate]. }
      assert (HmG : (m < length G)%nat).
      { destruct (Nat.lt_ge_cases m (length G)) as [?|Hge]; [assumption|]. rewrite nth_error_app2 in Hg' by lia. destruct (m - length G)%nat as [|q]; cbn in Hg'; [inversion Hg'; subst; destruct Hs'|destruct q; discriminate]. }
      rewrite nth_error_app1 in Ha, Hb, Hg, Hg' by lia. eapply (RD n m); eauto.
  - assert (Ei' : nth_error (st_alive st) i <> Some true) by (rewrite <- exists_pool_spec; congruence).
    rewrite (alloc_UB w _ owns i k c P Ei'). constructor.
Qed.

(** An object nobody keeps a pointer to. *)
Lemma step_scratch w st owns G t i k : rel w st owns G t ->
  ores (agree w (t + 1)) (cl_step w (CScratch i k)) (spec_step st (CScratch i k)).
Proof.
  intros R. pose proof (r_pools _ _ _ _ _ R) as P. cbn [cl_step spec_step]. unfold only. destruct (exists_pool st i) eqn:Ei.
  - apply exists_pool_spec in Ei. destruct (alloc_ok w _ owns i k (CellItem (OwnKey []) None None) P Ei) as (ps & s & Hal & P' & Hgr & Hfresh & Hmd & Hno).
    rewrite Hal. cbn [obind]. constructor.
    exists (add_owner (k, s) i owns), G. cbn [fst snd k_vars]. split; [|split; [exact I|exists []; now rewrite app_nil_r]].
    destruct R as [RP RL RG RV RM RO RD].
    assert (Hmade : forall k' s', made (k_pools w) k' s' -> made ps k' s').
    { intros k' s' H. unfold made in *. destruct (Hgr k') as (evs & ->). apply in_or_app. now left. }
    assert (Hne : forall k' s', made (k_pools w) k' s' -> (k', s') <> (k, s)) by (intros k' s' H E; inversion E; subst; now apply Hfresh).
    assert (Hown : forall k' s', made (k_pools w) k' s' -> add_owner (k, s) i owns k' s' = owns k' s').
    { intros k' s' H. unfold add_owner. cbn. destruct (cls_eqb_spec k' k) as [->|]; [|reflexivity]. destruct (slot_eqb_spec s' s) as [->|]; [|reflexivity]. exfalso. now apply Hfresh. }
    split; cbn; auto.
    + intros n a o g Ha Ho Hg. destruct (RO n a o g Ha Ho Hg) as (H1 & H2 & H3).
      assert (Hm : made (k_pools w) (fst a) (snd a)) by (apply RM; eapply nth_error_In; exact Ha).
      split; [exact H1|]. split; [rewrite Hown by exact Hm; exact H2|]. cbn.
      rewrite set_mem_other by (apply Hne; destruct a; exact Hm).
      destruct (so_content o) as [x|l]; [exact H3|]. destruct H3 as (ik & last & Hik & Hc & Hch & HN & Hmds & Hl). exists ik, last.
      repeat split; auto; [|lia]. eapply chain_ext; [exact Hch| | |exists []; now rewrite app_nil_r].
      { intros s' Hs'. apply set_mem_other. apply Hne. auto. }
      { intros s' Hs'. apply Hown. auto. }
  - assert (Ei' : nth_error (st_alive st) i <> Some true) by (rewrite <- exists_pool_spec; congruence).
    rewrite (alloc_UB w _ owns i k _ P Ei'). constructor.
Qed.

(** ** Looking at objects *)
Lemma var_case w st owns G t n : rel w st owns G t ->
  (var w n = UB /\ the_obj st n = UB /\ nth_error (st_objs st) n = None) \/
  exists a o g, var w n = Ok a /\ nth_error (k_vars w) n = Some a /\ nth_error (st_objs st) n = Some o /\ nth_error G n = Some g /\
    obj_ok w owns t a o g /\ the_obj st n = (if present (so_home o) then Ok o else UB) /\
    fetch w a = (if present (so_home o) then match k_mem w (fst a) (snd a) with Some c => Ok c | None => UB end else UB).
Proof.
  intros R. unfold var, the_obj. destruct (nth_error (k_vars w) n) as [a|] eqn:Ha.
  - right. assert (Hn : (n < length (k_vars w))%nat) by (apply nth_error_Some; congruence).
    destruct (nth_error (st_objs st) n) as [o|] eqn:Ho; [|apply nth_error_None in Ho; pose proof (r_len _ _ _ _ _ R); lia].
    destruct (nth_error G n) as [g|] eqn:Hg; [|apply nth_error_None in Hg; pose proof (r_lenG _ _ _ _ _ R); lia].
    pose proof (r_obj _ _ _ _ _ R n a o g Ha Ho Hg) as Hok. exists a, o, g. repeat split; auto; try apply Hok.
    unfold fetch. rewrite (PI_live_b w _ owns a (r_pools _ _ _ _ _ R)). now rewrite (proj1 (proj2 Hok)).
  - left. destruct (nth_error (st_objs st) n) as [o|] eqn:Ho; [|auto]. apply nth_error_None in Ha.
    assert (n < length (st_objs st))%nat by (apply nth_error_Some; congruence). pose proof (r_len _ _ _ _ _ R). lia.
Qed.

Lemma get_cont_case w st owns G t n a o g : rel w st owns G t ->
  nth_error (k_vars w) n = Some a -> nth_error (st_objs st) n = Some o -> nth_error G n = Some g ->
  (get_cont w a = UB /\ (_ <- the_obj st n ;; entries o) = UB) \/
  exists l ik last, so_home o <> None /\ so_content o = SCont l /\ item_cls (fst a) = Some ik /\ get_cont w a = Ok (ik, so_made o, last, len l) /\
    the_obj st n = Ok o /\ entries o = Ok l /\
    chain (k_mem w ik) (owns ik) (k_vars w) last l g /\ NoDup g /\ (forall s, In s g -> made (k_pools w) ik s) /\ len l <= t.
Proof.
  intros R Ha Ho Hg. destruct (var_case w st owns G t n R) as [(E & _)|(a' & o' & g' & Hv & Ha' & Ho' & Hg' & Hok & Hthe & Hf)].
  { unfold var in E. rewrite Ha in E. discriminate. }
  assert (a' = a) by congruence. assert (o' = o) by congruence. assert (g' = g) by congruence. subst a' o' g'.
  destruct Hok as (H1 & H2 & H3). unfold get_cont. rewrite Hf, Hthe. destruct (so_home o) as [h|] eqn:Eh; cbn [present]; [|left; auto].
  unfold entries. destruct (so_content o) as [x|l].
  - destruct H3 as (Hik & _ & ->). left. split; [now destruct Hik as [-> | ->]|reflexivity].
  - destruct H3 as (ik & last & Hik & -> & Hch & HN & Hmd & Hl). right. exists l, ik, last. cbn [obind]. rewrite Hik. repeat split; auto. congruence.
Qed.

Section Chains.
  Variable w : client.
  Variable alive : list bool.
  Variable owns : cls -> owners.
  Variable P : PI (k_pools w) alive owns.
  Variable ik : cls.

  Lemma item_case last e l s g : chain (k_mem w ik) (owns ik) (k_vars w) last (e :: l) (s :: g) ->
    last = Some s /\ exists v next, get_item w (ik, s) = (if present (en_home e) then Ok (en_key e, v, next) else UB) /\
      k_mem w ik s = Some (CellItem (en_key e) v next) /\
      same_ptr (k_vars w) v (en_val e) /\ chain (k_mem w ik) (owns ik) (k_vars w) next l g.
  Proof using P.
    intros (-> & Hown & v & next & Hm & Hp & Hch). split; [reflexivity|]. exists v, next. split; [|auto].
    unfold get_item, fetch. rewrite (PI_live_b w _ owns (ik, s) P). cbn [fst snd]. rewrite Hown, Hm.
    destruct (en_home e); reflexivity.
  Qed.

  Lemma walk_ok l : forall last g k, chain (k_mem w ik) (owns ik) (k_vars w) last l g ->
    ores (same_ptr (k_vars w))
      (tmp <- cl_walk w ik k last ;;
       match tmp with None => Ok None | Some s => '(_, v, _) <- get_item w (ik, s) ;; Ok v end) (goto k l).
  Proof using P.
    induction l as [|e l IH]; intros last [|s g] k H; try (cbn in H; contradiction).
    - cbn in H. subst last. destruct k; cbn; constructor; reflexivity.
    - apply item_case in H as (-> & v & next & Hi & _ & Hp & Hch). destruct k as [|k]; cbn [cl_walk goto obind].
      + rewrite Hi. destruct (en_home e); cbn; constructor. exact Hp.
      + rewrite Hi. destruct (en_home e); cbn [present obind]; [|constructor]. apply (IH next g k Hch).
  Qed.

  Lemma items_ok l : forall last g fuel, chain (k_mem w ik) (owns ik) (k_vars w) last l g -> (length l <= fuel)%nat ->
    ores (Forall2 (fun x y => fst x = fst y /\ same_ptr (k_vars w) (snd x) (snd y))) (cl_items w ik fuel last) (see_all l).
  Proof using P.
    induction l as [|e l IH]; intros last [|s g] fuel H Hf; try (cbn in H; contradiction).
    - cbn in H. subst last. destruct fuel; cbn; constructor; constructor.
    - apply item_case in H as (-> & v & next & Hi & _ & Hp & Hch). destruct fuel as [|fuel]; [cbn in Hf; lia|]. cbn [cl_items see_all].
      rewrite Hi. destruct (en_home e); cbn [present obind]; [|constructor].
      destruct (IH next g fuel Hch) as [x y Hxy| |]; [cbn in Hf; lia| | |]; cbn; constructor. constructor; auto.
  Qed.

  Lemma key_content_case um k : (exists b, key_content um k = Ok b) \/ key_content um k = UB.
  Proof using. destruct k as [b|v]; cbn; [eauto|]. unfold read_view. destruct (um (v_buf v)); [|auto]. unfold read_range. destruct (_ =? _); [eauto|]. destruct (_ <=? _); eauto. Qed.

  (** The search ends at the same place. *)
  Lemma search_ok um key l : forall last g fuel, chain (k_mem w ik) (owns ik) (k_vars w) last l g -> (length l <= fuel)%nat ->
    (cl_search um w ik fuel last key = UB /\ seek um key l = UB /\ seek_take um key l = UB) \/
    (cl_search um w ik fuel last key = Ok None /\ seek um key l = Ok None /\ seek_take um key l = Ok (None, l)) \/
    exists l1 e l2 g1 s g2 v next, l = l1 ++ e :: l2 /\ g = g1 ++ s :: g2 /\ length l1 = length g1 /\
      cl_search um w ik fuel last key = Ok (Some s) /\ seek um key l = Ok (en_val e) /\
      seek_take um key l = Ok (en_val e, l1 ++ {| en_key := en_key e; en_val := None; en_home := en_home e |} :: l2) /\
      en_home e <> None /\ owns ik s = en_home e /\ k_mem w ik s = Some (CellItem (en_key e) v next) /\
      get_item w (ik, s) = Ok (en_key e, v, next) /\ same_ptr (k_vars w) v (en_val e).
  Proof using P.
    induction l as [|e l IH]; intros last [|s g] fuel H Hf; try (cbn in H; contradiction).
    - cbn in H. subst last. right. left. destruct fuel; cbn; auto.
    - pose proof H as (_ & Hown & _). apply item_case in H as (-> & v & next & Hi & Hm & Hp & Hch). destruct fuel as [|fuel]; [cbn in Hf; lia|].
      cbn [cl_search seek seek_take]. rewrite Hi. destruct (en_home e) as [h|] eqn:Eh; cbn [present obind]; [|left; auto].
      destruct (key_content_case um (en_key e)) as [(kc & ->) | ->]; cbn [obind]; [|left; auto].
      destruct (bytes_eqb kc key) eqn:Ek.
      + right. right. exists [], e, l, [], s, g, v, next. rewrite Eh. repeat split; auto; try discriminate.
      + destruct (IH next g fuel Hch) as [(H1 & H2 & H3)|[(H1 & H2 & H3)|(l1 & e1 & l2 & g1 & s1 & g2 & v1 & n1 & -> & -> & Hlen & H1 & H2 & H3 & H4)]]; [cbn in Hf; lia| | |].
        * left. rewrite H1, H2, H3. auto.
        * right. left. rewrite H1, H2, H3. auto.
        * right. right. exists (e :: l1), e1, l2, (s :: g1), s1, g2, v1, n1. rewrite H1, H2, H3. cbn. repeat split; auto; try apply H4.
  Qed.

  (** The walk to the last item. *)
  Lemma tail_ok l : forall last g fuel, chain (k_mem w ik) (owns ik) (k_vars w) last l g -> (length l <= fuel)%nat ->
    (cl_tail w ik fuel last = UB /\ see_all l = UB) \/
    (exists ys, see_all l = Ok ys) /\
    ((l = [] /\ g = [] /\ last = None /\ cl_tail w ik fuel last = Ok None) \/
     exists l1 e g1 s v, l = l1 ++ [e] /\ g = g1 ++ [s] /\ length l1 = length g1 /\ cl_tail w ik fuel last = Ok (Some s) /\
       en_home e <> None /\ owns ik s = en_home e /\ k_mem w ik s = Some (CellItem (en_key e) v None) /\ same_ptr (k_vars w) v (en_val e)).
  Proof using P.
    induction l as [|e l IH]; intros last [|s g] fuel H Hf; try (cbn in H; contradiction).
    - cbn in H. subst last. right. split; [eexists; reflexivity|]. left. destruct fuel; cbn; auto.
    - pose proof H as (_ & Hown & _). apply item_case in H as (-> & v & next & Hi & Hm & Hp & Hch). destruct fuel as [|fuel]; [cbn in Hf; lia|].
      cbn [cl_tail see_all]. rewrite Hi. destruct (en_home e) as [h|] eqn:Eh; cbn [present obind]; [|left; auto].
      destruct (IH next g fuel Hch) as [(H1 & H2)|((ys & H2) & [(-> & -> & -> & H1)|(l1 & e1 & g1 & s1 & v1 & -> & -> & Hlen & H1 & H4)])]; [cbn in Hf; lia| | |].
      + left. rewrite H2. destruct next as [s1|]; [auto|]. destruct l; cbn in Hch; [|destruct g; [contradiction|]; destruct Hch; discriminate]. discriminate H2.
      + right. split; [eexists; reflexivity|]. right. exists [], e, [], s, v. rewrite Eh. repeat split; auto. discriminate.
      + right. rewrite H2. split; [eexists; reflexivity|]. right. exists (e :: l1), e1, (s :: g1), s1, v1.
        destruct next as [s2|]; [|destruct l1, g1; cbn in Hch; destruct Hch; discriminate]. rewrite H1. cbn. repeat split; auto; try apply H4.
  Qed.
End Chains.

Lemma chain_snoc mem mem' own own' vars e s v e' s' v' l1 : forall last g1,
  chain mem own vars last (l1 ++ [e]) (g1 ++ [s]) -> length l1 = length g1 ->
  (forall x, In x g1 -> mem' x = mem x) -> (forall x, In x (g1 ++ [s]) -> own' x = own x) ->
  mem' s = Some (CellItem (en_key e) v (Some s')) -> same_ptr vars v (en_val e) ->
  mem' s' = Some (CellItem (en_key e') v' None) -> same_ptr vars v' (en_val e') -> own' s' = en_home e' ->
  chain mem' own' vars last (l1 ++ [e; e']) (g1 ++ [s; s']).
Proof.
  induction l1 as [|e1 l1 IH]; intros last [|s1 g1] H Hlen Hm Ho Hs Hv Hs' Hv' Ho'; cbn [length] in Hlen; try discriminate; cbn [app chain] in H |- *.
  - destruct H as (-> & Hown & _). split; [reflexivity|]. split; [rewrite Ho; [exact Hown|now left]|]. exists v, (Some s'). split; [exact Hs|]. split; [exact Hv|].
    split; [reflexivity|]. split; [exact Ho'|]. exists v', None. auto.
  - destruct H as (-> & Hown & w & next & Hc & Hw & H). split; [reflexivity|]. split; [rewrite Ho; [exact Hown|now left]|]. exists w, next.
    split; [rewrite Hm; [exact Hc|now left]|]. split; [exact Hw|]. apply IH; auto; [intros x Hx; apply Hm; now right|intros x Hx; apply Ho; now right].
Qed.

Lemma fuel_enough w ik l last g own : chain (k_mem w ik) own (k_vars w) last l g -> NoDup g ->
  (forall s, In s g -> made (k_pools w) ik s) -> (length l <= chain_fuel w ik)%nat.
Proof.
  intros Hch HN Hm. rewrite (chain_length _ _ _ _ _ _ Hch). unfold chain_fuel.
  assert (length g <= length (w_trace (k_pools w ik)))%nat; [|lia].
  rewrite <- (map_length EvConstruct g). apply NoDup_incl_length.
  - clear -HN. induction HN as [|s g Hs HN IH]; cbn; constructor; [|exact IH]. intros Hin. apply in_map_iff in Hin as (x & E & Hx). inversion E; subst. contradiction.
  - intros x Hx. apply in_map_iff in Hx as (s & <- & Hs). exact (Hm s Hs).
Qed.

(** Changing the cell of an object in place. *)
Lemma rel_cell w st owns G t n a o g c o' g' t' : rel w st owns G t ->
  nth_error (k_vars w) n = Some a -> nth_error (st_objs st) n = Some o -> nth_error G n = Some g -> t <= t' ->
  obj_ok {| k_pools := k_pools w; k_mem := set_mem a c (k_mem w); k_vars := k_vars w |} owns t' a o' g' -> incl g' g -> obj_cls (fst a) ->
  rel {| k_pools := k_pools w; k_mem := set_mem a c (k_mem w); k_vars := k_vars w |} (set_obj n o' st) owns (put n g' G) t'.
Proof.
  intros R Ha Ho Hg Ht Hok Hincl Hcl.
  eapply rel_change; eauto.
  - apply R.
  - intros k. exists []. now rewrite app_nil_r.
  - intros m b Hm Hb. apply set_mem_other. intros E. apply Hm. pose proof (r_vars _ _ _ _ _ R) as HN. rewrite NoDup_nth_error in HN.
    apply HN; [apply nth_error_Some; congruence|]. rewrite Hb, Ha. now destruct b; cbn in E; subst.
  - intros m b gb ik s Hm Hb Hgb Hik Hs. apply set_mem_other. intros E. destruct a as [ka sa]. cbn in Hcl. inversion E; subst. exact (item_not_obj _ _ _ Hik Hcl eq_refl).
Qed.

Lemma store_ok w alive owns a c : PI (k_pools w) alive owns -> owns (fst a) (snd a) <> None ->
  store w a c = Ok {| k_pools := k_pools w; k_mem := set_mem a c (k_mem w); k_vars := k_vars w |}.
Proof. intros P H. unfold store. now rewrite (proj2 (PI_live w alive owns a P) H). Qed.

Lemma step_create w st owns G t op : rel w st owns G t ->
  match op with CData _ _ _ | CCont _ _ => True | _ => False end ->
  ores (agree w (t + 1)) (cl_step w op) (spec_step st op).
Proof.
  intros R H. destruct op as [|i v x|i k| | | | | | | | | | | |]; try contradiction; cbn [cl_step spec_step].
  - apply (rel_create w st owns G t i _ _ (SData x) R). destruct v; auto.
  - destruct k; cbn [item_cls]; try constructor; apply (rel_create w st owns G t i _ _ (SCont []) R); repeat split; cbn; congruence.
Qed.

Lemma spec_obj_UB {B} st n (f : sobj -> outcome B) : the_obj st n = UB -> (o <- the_obj st n ;; f o) = UB.
Proof. now intros ->. Qed.

(** Calls on one container. *)
Ltac on_var R n :=
  let a := fresh "a" in let o := fresh "o" in let g := fresh "g" in
  destruct (var_case _ _ _ _ _ n R) as [(Hv & Hthe & _)|(a & o & g & Hv & Ha & Ho & Hg & Hok & Hthe & Hf)];
  [rewrite Hv, ?Hthe; cbn [obind]; try solve [constructor]|rewrite Hv; cbn [obind]].

Lemma cont_UB {B} st n o (f : sobj -> list entry -> outcome B) : nth_error (st_objs st) n = Some o ->
  (_ <- the_obj st n ;; entries o) = UB -> (o' <- the_obj st n ;; l <- entries o' ;; f o' l) = UB.
Proof.
  unfold the_obj. intros ->. destruct (present (so_home o)); cbn; [|reflexivity]. destruct (entries o); cbn; congruence.
Qed.

Lemma as_array_eq a o : fst a = so_cls o -> as_array a = (if is_array o then Ok a else UB).
Proof. unfold as_array, is_array. now intros ->. Qed.
Lemma as_map_eq a o : fst a = so_cls o -> as_map a = (if is_map o then Ok a else UB).
Proof. unfold as_map, is_map. now intros ->. Qed.

Lemma the_obj_const st n o : nth_error (st_objs st) n = Some o -> the_obj st n = Ok o \/ the_obj st n = UB.
Proof. unfold the_obj. intros ->. destruct (present (so_home o)); auto. Qed.

Lemma step_read w st owns G t op : rel w st owns G t -> t < W64 ->
  match op with CSize _ | CAt _ _ | CLookup _ _ _ | CIterate _ | CRead _ => True | _ => False end ->
  ores (agree w (t + 1)) (cl_step w op) (spec_step st op).
Proof.
  intros R Ht H. pose proof (r_pools _ _ _ _ _ R) as P.
  destruct op as [| | | | | | | |c|c n|um c key|c|d| |]; try contradiction; clear H; cbn [cl_step spec_step].
  - on_var R c. unfold cl_Size. destruct (get_cont_case w st owns G t c a o g R Ha Ho Hg) as [(E1 & E2)|(l & ik & last & Hh & Hc & Hik & E1 & E2 & E3 & Hch & HN & Hmd & Hl)].
    + rewrite E1, (cont_UB st c o _ Ho E2). constructor.
    + rewrite E1, E2. cbn [obind]. rewrite E3. cbn [obind]. constructor. eapply agree_same; [exact R|lia|reflexivity].
  - on_var R c. rewrite (as_array_eq a o (proj1 Hok)).
    destruct (get_cont_case w st owns G t c a o g R Ha Ho Hg) as [(E1 & E2)|(l & ik & last & Hh & Hc & Hik & E1 & E2 & E3 & Hch & HN & Hmd & Hl)].
    + rewrite (cont_UB st c o _ Ho E2). destruct (is_array o); cbn; [|constructor]. unfold cl_at. rewrite E1. constructor.
    + rewrite E2. cbn [obind]. rewrite E3. cbn [obind]. destruct (is_array o); cbn [obind]; [|constructor]. unfold cl_at. rewrite E1. cbn [obind].
      destruct (len l <=? n).
      * cbn [obind]. constructor. eapply agree_same; [exact R|lia|reflexivity].
      * destruct (walk_ok w _ owns P ik l last g (N.to_nat (len l - 1 - n)) Hch) as [x y Hxy| |]; cbn [obind]; constructor.
        eapply agree_same; [exact R|lia|exact Hxy].
  - on_var R c. rewrite (as_map_eq a o (proj1 Hok)).
    destruct (get_cont_case w st owns G t c a o g R Ha Ho Hg) as [(E1 & E2)|(l & ik & last & Hh & Hc & Hik & E1 & E2 & E3 & Hch & HN & Hmd & Hl)].
    + rewrite (cont_UB st c o _ Ho E2). destruct (is_map o); cbn; [|constructor]. unfold cl_lookup. rewrite E1. constructor.
    + rewrite E2. cbn [obind]. rewrite E3. cbn [obind]. destruct (is_map o); cbn [obind]; [|constructor]. unfold cl_lookup. rewrite E1. cbn [obind].
      destruct (search_ok w _ owns P ik um key l last g (chain_fuel w ik) Hch (fuel_enough _ _ _ _ _ _ Hch HN Hmd))
        as [(H1 & H2 & _)|[(H1 & H2 & _)|(l1 & e1 & l2 & g1 & s1 & g2 & v1 & n1 & _ & _ & _ & H1 & H2 & _ & _ & _ & _ & Hi & Hp)]]; rewrite H1, H2; cbn [obind].
      * constructor.
      * constructor. eapply agree_same; [exact R|lia|reflexivity].
      * rewrite Hi. cbn [obind]. constructor. eapply agree_same; [exact R|lia|exact Hp].
  - on_var R c. destruct (get_cont_case w st owns G t c a o g R Ha Ho Hg) as [(E1 & E2)|(l & ik & last & Hh & Hc & Hik & E1 & E2 & E3 & Hch & HN & Hmd & Hl)].
    + rewrite (cont_UB st c o _ Ho E2). unfold cl_iterate. rewrite E1. constructor.
    + rewrite E2. cbn [obind]. rewrite E3. cbn [obind]. unfold cl_iterate. rewrite E1. cbn [obind].
      destruct (items_ok w _ owns P ik l last g (chain_fuel w ik) Hch (fuel_enough _ _ _ _ _ _ Hch HN Hmd)) as [x y Hxy| |]; cbn [obind]; constructor.
      eapply agree_same; [exact R|lia|exact Hxy].
  - on_var R d. unfold cl_read. rewrite Hf, Hthe. destruct (present (so_home o)); cbn [obind]; [|constructor].
    destruct Hok as (_ & _ & H3). unfold value. destruct (so_content o) as [x|l].
    + destruct H3 as (_ & _ & ->). cbn [obind]. constructor. eapply agree_same; [exact R|lia|reflexivity].
    + destruct H3 as (ik & last & _ & -> & _). constructor.
Qed.

Lemma put_same {A} n (x : A) l : nth_error l n = Some x -> put n x l = l.
Proof. revert n. induction l as [|y l IH]; intros [|n] H; cbn in *; try discriminate; [congruence|]. f_equal. auto. Qed.

Lemma agree_write w G t w' st' ans sans owns' : rel w' st' owns' G t -> k_vars w' = k_vars w -> same_answer (k_vars w) ans sans ->
  agree w t (w', ans) (st', sans).
Proof. intros R Hv Ha. exists owns', G. cbn. rewrite Hv. split; [exact R|]. split; [exact Ha|]. exists []. now rewrite app_nil_r. Qed.

Lemma step_write w st owns G t op : rel w st owns G t -> t < W64 ->
  match op with CClear _ | CTake _ _ _ | CAssign _ _ => True | _ => False end ->
  ores (agree w (t + 1)) (cl_step w op) (spec_step st op).
Proof.
  intros R Ht H. pose proof (r_pools _ _ _ _ _ R) as P.
  destruct op as [| | | | | |c|um c key| | | | | |d x|]; try contradiction; clear H; cbn [cl_step spec_step].
  - on_var R c. unfold cl_Clear. destruct (get_cont_case w st owns G t c a o g R Ha Ho Hg) as [(E1 & E2)|(l & ik & last & Hh & Hc & Hik & E1 & E2 & E3 & Hch & HN & Hmd & Hl)].
    + rewrite E1, (cont_UB st c o _ Ho E2). constructor.
    + rewrite E1, E2. cbn [obind]. rewrite E3. cbn [obind]. destruct Hok as (H1 & H2 & _).
      rewrite (store_ok w _ owns a _ P) by (rewrite H2; exact Hh). cbn [obind]. constructor.
      eapply agree_write; [|reflexivity|exact I].
      eapply (rel_cell w st owns G t c a o g _ _ [] (t + 1) R Ha Ho Hg); [lia| |intros ? []|left; congruence].
      split; [exact H1|]. split; [exact H2|]. cbn. exists ik, None. rewrite set_mem_same. repeat split; auto; try constructor; try (intros ? []). unfold len; cbn; lia.
  - on_var R c. rewrite (as_map_eq a o (proj1 Hok)).
    destruct (get_cont_case w st owns G t c a o g R Ha Ho Hg) as [(E1 & E2)|(l & ik & last & Hh & Hc & Hik & E1 & E2 & E3 & Hch & HN & Hmd & Hl)].
    + rewrite (cont_UB st c o _ Ho E2). destruct (is_map o); cbn; [|constructor]. unfold cl_take. rewrite E1. constructor.
    + rewrite E2. cbn [obind]. rewrite E3. cbn [obind]. destruct (is_map o); cbn [obind]; [|constructor]. unfold cl_take. rewrite E1. cbn [obind].
      destruct (search_ok w _ owns P ik um key l last g (chain_fuel w ik) Hch (fuel_enough _ _ _ _ _ _ Hch HN Hmd))
        as [(S1 & _ & S2)|[(S1 & _ & S2)|(l1 & e1 & l2 & g1 & s1 & g2 & v1 & n1 & El & Eg & Hlen & S1 & _ & S2 & Hpres & Hown & Hm & Hi & Hp)]]; rewrite S1, S2; cbn [obind].
      * constructor.
      * constructor. assert (Es : set_obj c (with_content (SCont l) o) st = st).
        { unfold set_obj. rewrite put_spec by (apply nth_error_Some; congruence). rewrite put_same; [now destruct st|].
          rewrite Ho. f_equal. destruct o; cbn in *. unfold with_content; cbn. congruence. }
        rewrite Es. eapply agree_same; [exact R|lia|reflexivity].
      * rewrite Hi. cbn [obind]. rewrite (store_ok w _ owns (ik, s1) _ P) by (cbn; rewrite Hown; exact Hpres). cbn [obind]. constructor.
        eapply agree_write; [|reflexivity|exact Hp].
        assert (Hobj : forall k, obj_cls k -> forall s, (k, s) <> (ik, s1)).
        { intros k Hk s E. inversion E; subst. exact (item_not_obj _ _ _ Hik Hk eq_refl). }
        assert (Hcls : forall m b, nth_error (k_vars w) m = Some b -> obj_cls (fst b)).
        { intros m b Hb. destruct (var_case w st owns G t m R) as [(E & _)|(b' & ob & gb & _ & Hb' & _ & _ & (_ & _ & Hx) & _)]; [unfold var in E; rewrite Hb in E; discriminate|].
          assert (b' = b) by congruence. subst. destruct (so_content ob); [right; tauto|]. destruct Hx as (ik' & ? & Hx & _). left. congruence. }
        eapply (rel_change w st owns G t c a o g (k_pools w) owns _ _ g (t + 1) R Ha Ho Hg P).
        { intros k. exists []. now rewrite app_nil_r. }
        { lia. }
        { auto. }
        { intros m b _ Hb. apply set_mem_other. apply Hobj. eauto. }
        { intros m b gb ik' s Hmn Hb Hgb Hik' Hs. apply set_mem_other. intros E. inversion E; subst ik' s.
          eapply (r_disj _ _ _ _ _ R c m a b g gb s1); eauto; [exact (item_cls_inj _ _ _ Hik Hik')|]. rewrite Eg. apply in_or_app. right. now left. }
        { destruct Hok as (H1 & H2 & _). split; [exact H1|]. split; [exact H2|]. cbn. exists ik, last. split; [exact Hik|]. split.
          - rewrite set_mem_other by (apply Hobj; left; congruence). destruct (var_case w st owns G t c R) as [(E & _)|(b' & ob & gb & _ & Hb' & Hob & _ & (_ & _ & Hx) & _)]; [congruence|].
            assert (b' = a) by congruence. assert (ob = o) by congruence. subst b' ob. rewrite Hc in Hx. destruct Hx as (ik' & last' & Hik' & Hcell & Hch' & _).
            unfold get_cont, fetch in E1. rewrite Hcell in E1. destruct (touchable w a); [|discriminate]. cbn in E1. rewrite Hik in E1.
            assert (last' = last) by congruence. subst last'. rewrite Hcell. f_equal. f_equal. rewrite El. unfold len. rewrite !app_length. reflexivity.
          - split; [|split; [exact HN|split; [exact Hmd|]]].
            + subst l g. clear -Hch HN Hlen Hm. revert last g1 Hch HN Hlen. induction l1 as [|e l1 IH]; intros last [|s g1] Hch HN Hlen; try discriminate Hlen.
              * cbn in Hch |- *. destruct Hch as (-> & Hown & v & next & Hm' & Hp & Hch). split; [reflexivity|]. split; [exact Hown|].
                exists None, next. assert (next = n1) by congruence. subst next. split; [apply (set_mem_same (ik, s1))|]. split; [reflexivity|].
                eapply chain_ext; [exact Hch| |auto|exists []; now rewrite app_nil_r]. intros s Hs. apply set_mem_other. intros E. inversion E; subst. cbn in HN. inversion HN; subst. contradiction.
              * cbn in Hch |- *. destruct Hch as (-> & Hown & v & next & Hm' & Hp & Hch). split; [reflexivity|]. split; [exact Hown|]. cbn in HN. inversion HN as [|? ? Hs HN']; subst.
                exists v, next. split; [|split; [exact Hp|]].
                { rewrite set_mem_other; [exact Hm'|]. intros E. inversion E; subst. apply Hs. apply in_or_app. right. now left. }
                apply IH; auto.
            + assert (len (l1 ++ {| en_key := en_key e1; en_val := None; en_home := en_home e1 |} :: l2) = len l) by (rewrite El; unfold len; rewrite !app_length; reflexivity). lia. }
        { intros s ik' Hs _. now left. }
  - on_var R d. unfold cl_assign. rewrite Hf, Hthe. destruct (so_home o) as [h|] eqn:Eh; cbn [present obind]; [|constructor].
    pose proof Hok as (H1 & H2 & H3). unfold value. destruct (so_content o) as [x0|l].
    + destruct H3 as (Hk & Hgn & ->). cbn [obind]. rewrite (store_ok w _ owns a _ P) by (rewrite H2; congruence). cbn [obind]. constructor.
      eapply agree_write; [|reflexivity|exact I].
      eapply (rel_cell w st owns G t d a o g _ _ g (t + 1) R Ha Ho Hg); [lia| |intros ? ?; assumption|right; exact Hk].
      split; [exact H1|]. split; [cbn; congruence|]. cbn. rewrite set_mem_same. auto.
    + destruct H3 as (ik & last & _ & -> & _). constructor.
Qed.

Lemma fetch_pools w alive owns a c : PI (k_pools w) alive owns -> owns (fst a) (snd a) <> None -> k_mem w (fst a) (snd a) = Some c -> fetch w a = Ok c.
Proof. intros P H Hm. unfold fetch. now rewrite (proj2 (PI_live w alive owns a P) H), Hm. Qed.

Lemma insert_eval w alive owns a key v ik p last size : PI (k_pools w) alive owns -> nth_error alive p = Some true ->
  owns (fst a) (snd a) <> None -> made (k_pools w) (fst a) (snd a) -> item_cls (fst a) = Some ik -> key_fits ik key = true ->
  k_mem w (fst a) (snd a) = Some (CellCont p last size) ->
  exists ps s mem', cl_Insert w a key v = Ok {| k_pools := ps; k_mem := mem'; k_vars := k_vars w |} /\
    PI ps alive (add_owner (ik, s) p owns) /\ grows (k_pools w) ps /\ ~ made (k_pools w) ik s /\ made ps ik s /\
    mem' (fst a) (snd a) = Some (CellCont p (Some s) (u64 (size + 1))) /\
    mem' ik s = Some (CellItem (if cls_eqb (fst a) KArray then OwnKey [] else key) v last) /\
    (forall k s', (k, s') <> a -> (k, s') <> (ik, s) -> mem' k s' = k_mem w k s').
Proof.
  intros P Hp Ha Hma Hik Hkf Hm.
  destruct (alloc_ok w alive owns p ik (CellItem (OwnKey []) None None) P Hp) as (ps & s & Hal & P' & Hgr & Hfresh & Hmd & Hno).
  assert (Hne : a <> (ik, s)) by (intros ->; cbn in *; now apply Hfresh).
  assert (Hna : (fst a, snd a) <> (ik, s)) by (destruct a; exact Hne).
  assert (Hown_s : add_owner (ik, s) p owns ik s <> None).
  { unfold add_owner. cbn. destruct (cls_eqb_spec ik ik); [|congruence]. destruct (slot_eqb_spec s s); [discriminate|congruence]. }
  assert (Hown_a : add_owner (ik, s) p owns (fst a) (snd a) <> None).
  { unfold add_owner. destruct (_ && _); [discriminate|exact Ha]. }
  assert (Hkey : cls_eqb ik KArrayItem = cls_eqb (fst a) KArray) by (destruct a as [[] ?]; cbn in Hik; inversion Hik; reflexivity).
  assert (Hg1 : get_cont w a = Ok (ik, p, last, size)).
  { unfold get_cont. rewrite (fetch_pools w alive owns a _ P Ha Hm). cbn [obind]. now rewrite Hik. }
  assert (Hg2 : forall m', m' (fst a) (snd a) = Some (CellCont p last size) -> get_cont {| k_pools := ps; k_mem := m'; k_vars := k_vars w |} a = Ok (ik, p, last, size)).
  { intros m' Hm'. unfold get_cont. rewrite (fetch_pools {| k_pools := ps; k_mem := m'; k_vars := k_vars w |} alive _ a _ P' Hown_a Hm'). cbn [obind]. now rewrite Hik. }
  assert (Hst : forall m' b c, (b = a \/ b = (ik, s)) -> store {| k_pools := ps; k_mem := m'; k_vars := k_vars w |} b c =
     Ok {| k_pools := ps; k_mem := set_mem b c m'; k_vars := k_vars w |}).
  { intros m' b c Hb. apply (store_ok {| k_pools := ps; k_mem := m'; k_vars := k_vars w |} alive (add_owner (ik, s) p owns) b c P').
    destruct Hb as [-> | ->]; assumption. }
  unfold cl_Insert. rewrite Hg1. cbn [obind]. rewrite Hkf. cbn [negb]. rewrite Hal. cbn [obind]. rewrite Hst by auto. cbn [obind].
  rewrite Hg2 by (rewrite !set_mem_other by exact Hna; exact Hm). cbn [obind]. rewrite Hkey.
  destruct last as [s0|].
  - unfold get_item. erewrite (fetch_pools _ alive (add_owner (ik, s) p owns) (ik, s)); [|exact P'|exact Hown_s|apply set_mem_same].
    cbn [obind]. rewrite Hst by auto. cbn [obind]. rewrite Hst by auto.
    eexists ps, s, _. split; [reflexivity|]. split; [exact P'|]. split; [exact Hgr|]. split; [exact Hfresh|]. split; [exact Hmd|].
    split; [apply set_mem_same|]. split.
    + rewrite set_mem_other by congruence. apply (set_mem_same (ik, s)).
    + intros k s' H1 H2. now rewrite !set_mem_other by assumption.
  - cbn [obind]. rewrite Hst by auto. eexists ps, s, _. split; [reflexivity|]. split; [exact P'|]. split; [exact Hgr|]. split; [exact Hfresh|]. split; [exact Hmd|].
    split; [apply set_mem_same|]. split.
    + rewrite set_mem_other by congruence. apply (set_mem_same (ik, s)).
    + intros k s' H1 H2. now rewrite !set_mem_other by assumption.
Qed.

Lemma var_opt_case w st owns G t v : rel w st owns G t ->
  (var_opt w v = UB /\ known st v = false) \/ exists v', var_opt w v = Ok v' /\ known st v = true /\ same_ptr (k_vars w) v' v.
Proof.
  intros R. destruct v as [n|]; cbn [var_opt known].
  - unfold var. destruct (nth_error (k_vars w) n) as [a|] eqn:E.
    + right. exists (Some a). split; [reflexivity|]. split; [|cbn; split; congruence]. apply Nat.ltb_lt. rewrite <- (r_len _ _ _ _ _ R). apply nth_error_Some. congruence.
    + left. split; [reflexivity|]. apply Nat.ltb_ge. rewrite <- (r_len _ _ _ _ _ R). now apply nth_error_None.
  - right. exists None. cbn. auto.
Qed.

Lemma key_for_fits (a : addr) o ik key : fst a = so_cls o -> item_cls (fst a) = Some ik -> key_fits ik key = key_for (so_cls o) key.
Proof. intros <-. destruct (fst a); cbn; intros H; inversion H; destruct key; reflexivity. Qed.

Lemma step_insert w st owns G t c key v : rel w st owns G t -> t + 1 < W64 ->
  ores (agree w (t + 1)) (cl_step w (CInsert c key v)) (spec_step st (CInsert c key v)).
Proof.
  intros R Ht. pose proof (r_pools _ _ _ _ _ R) as P. cbn [cl_step spec_step]. on_var R c.
  destruct (get_cont_case w st owns G t c a o g R Ha Ho Hg) as [(E1 & E2)|(l & ik & last & Hh & Hc & Hik & E1 & E2 & E3 & Hch & HN & Hmd & Hl)].
  { rewrite (cont_UB st c o _ Ho E2). destruct (var_opt_case w st owns G t v R) as [(-> & _)|(v' & -> & _)]; cbn [obind]; [constructor|].
    unfold cl_Insert. rewrite E1. constructor. }
  rewrite E2. cbn [obind]. rewrite E3. cbn [obind].
  destruct (var_opt_case w st owns G t v R) as [(-> & ->)|(v' & -> & -> & Hv')]; [rewrite andb_false_r; constructor|]. cbn [obind]. rewrite andb_true_r.
  rewrite <- (key_for_fits _ _ ik key (proj1 Hok) Hik). destruct (key_fits ik key) eqn:Ekf.
  2:{ rewrite andb_false_r. unfold cl_Insert. rewrite E1. cbn [obind]. rewrite Ekf. constructor. }
  rewrite andb_true_r.
  destruct (exists_pool st (so_made o)) eqn:Ep.
  2:{ unfold cl_Insert. rewrite E1. cbn [obind]. rewrite Ekf. cbn [negb]. rewrite (alloc_UB w _ owns _ _ _ P); [constructor|]. rewrite <- exists_pool_spec. congruence. }
  apply exists_pool_spec in Ep. pose proof Hok as (H1 & H2 & H3). rewrite Hc in H3.
  destruct H3 as (ik' & last' & Hik' & Hcell & Hch' & _ & _ & _).
  assert (ik' = ik) by congruence. subst ik'.
  assert (Hma : made (k_pools w) (fst a) (snd a)) by (apply R; eapply nth_error_In; exact Ha).
  destruct (insert_eval w _ owns a key v' ik (so_made o) last' (len l) P Ep ltac:(rewrite H2; exact Hh) Hma Hik Ekf Hcell)
    as (ps & s & mem' & Hins & P' & Hgr & Hfresh & Hms & Hm1 & Hm2 & Hm3).
  rewrite Hins. cbn [obind]. constructor. eapply agree_write; [|reflexivity|exact I].
  assert (Hown : forall k s', made (k_pools w) k s' -> add_owner (ik, s) (so_made o) owns k s' = owns k s').
  { intros k s' H. unfold add_owner. cbn. destruct (cls_eqb_spec k ik) as [->|]; [|reflexivity]. destruct (slot_eqb_spec s' s) as [->|]; [|reflexivity]. contradiction. }
  assert (Hmade : forall k' s', made (k_pools w) k' s' -> made ps k' s').
  { intros k' s' H. unfold made in *. destruct (Hgr k') as (evs & ->). apply in_or_app. now left. }
  assert (Hitem_a : forall s', (ik, s') <> a).
  { intros s' E. pose proof (item_item _ _ Hik). subst a. cbn [fst] in Hik. congruence. }
  assert (Hkeep : forall s', In s' g -> mem' ik s' = k_mem w ik s').
  { intros s' Hs'. apply Hm3; [apply Hitem_a|]. intros E. inversion E; subst. apply Hfresh. auto. }
  eapply (rel_change w st owns G t c a o g ps (add_owner (ik, s) (so_made o) owns) mem' _ (s :: g) (t + 1) R Ha Ho Hg P' Hgr); [lia|exact Hown| | | |].
  - intros m b Hm Hb. apply Hm3.
    + intros E. apply Hm. pose proof (r_vars _ _ _ _ _ R) as HNv. rewrite NoDup_nth_error in HNv. apply HNv; [apply nth_error_Some; congruence|]. rewrite Hb, Ha. now destruct b; cbn in E; subst.
    + intros E. apply Hfresh. inversion E. subst. apply (r_made _ _ _ _ _ R). eapply nth_error_In; exact Hb.
  - intros m b gb ikb s' Hm Hb Hgb Hikb Hs'. apply Hm3.
    + intros E. apply item_item in Hikb. subst a. cbn [fst] in Hik. congruence.
    + intros E. inversion E; subst. apply Hfresh.
      destruct (var_case w st owns G t m R) as [(Ev & _)|(b' & ob & gb' & _ & Hb' & Hob & Hgb' & (_ & _ & Hx) & _)]; [unfold var in Ev; rewrite Hb in Ev; discriminate|].
      assert (b' = b) by congruence. assert (gb' = gb) by congruence. subst b' gb'. destruct (so_content ob) as [x|l0].
      * destruct Hx as (_ & -> & _). destruct Hs'.
      * destruct Hx as (ikx & lastx & Hikx & _ & _ & _ & Hmdx & _). assert (ikx = ik) by congruence. subst. auto.
  - split; [exact H1|]. split; [rewrite Hown by exact Hma; exact H2|]. cbn. exists ik, (Some s). split; [exact Hik|]. split.
    + rewrite Hm1. f_equal. f_equal. rewrite u64_small by lia. unfold len. cbn [length]. lia.
    + split; [|split; [|split]].
      * split; [reflexivity|]. split.
        { unfold add_owner. cbn. destruct (cls_eqb_spec ik ik); [|congruence]. destruct (slot_eqb_spec s s); [reflexivity|congruence]. }
        exists v', last'. split; [rewrite Hm2, H1; reflexivity|]. split; [exact Hv'|].
        eapply chain_ext; [exact Hch'|exact Hkeep| |exists []; now rewrite app_nil_r]. intros s' Hs'. apply Hown. auto.
      * constructor; [|exact HN]. intros Hs. apply Hfresh. auto.
      * intros s' [<-|Hs']; [exact Hms|auto].
      * unfold len in *. cbn [length]. lia.
  - intros s' ikx [<-|Hs'] Hikx; [right; assert (ikx = ik) by congruence; now subst|now left].
Qed.

Lemma step_append w st owns G t j c key v : rel w st owns G t -> t + 1 < W64 ->
  ores (agree w (t + 1)) (cl_step w (CAppend j c key v)) (spec_step st (CAppend j c key v)).
Proof.
  intros R Ht. pose proof (r_pools _ _ _ _ _ R) as P. cbn [cl_step spec_step]. on_var R c.
  destruct (get_cont_case w st owns G t c a o g R Ha Ho Hg) as [(E1 & E2)|(l & ik & last & Hh & Hc & Hik & E1 & E2 & E3 & Hch & HN & Hmd & Hl)].
  { rewrite (cont_UB st c o _ Ho E2). destruct (var_opt_case w st owns G t v R) as [(-> & _)|(v' & -> & _)]; cbn [obind]; [constructor|].
    unfold cl_Append. rewrite E1. constructor. }
  rewrite E2. cbn [obind]. rewrite E3. cbn [obind].
  destruct (var_opt_case w st owns G t v R) as [(-> & ->)|(v' & -> & -> & Hv')]; [constructor|]. cbn [obind andb].
  unfold cl_Append. rewrite E1. cbn [obind].
  rewrite <- (key_for_fits _ _ ik key (proj1 Hok) Hik). destruct (key_fits ik key) eqn:Ekf; [|constructor]. cbn [negb].
  assert (Hfuel := fuel_enough w ik l last g (owns ik) Hch HN Hmd).
  destruct (tail_ok w (st_alive st) owns P ik l last g (chain_fuel w ik) Hch Hfuel) as [(-> & ->)|((ys & ->) & Htail)]; [constructor|]. cbn [obind].
  destruct (exists_pool st j) eqn:Ep.
  2:{ rewrite (alloc_UB w _ owns j ik (CellItem (OwnKey []) None None) P) by (rewrite <- exists_pool_spec; congruence).
      destruct Htail as [(_ & _ & _ & ->)|(l1 & e & g1 & s0 & v0 & _ & _ & _ & -> & _)]; constructor. }
  apply exists_pool_spec in Ep. pose proof Hok as (H1 & H2 & H3). rewrite Hc in H3.
  destruct H3 as (ik' & last' & Hik' & Hcell & Hch' & _ & _ & _).
  assert (ik' = ik) by congruence. subst ik'.
  assert (last' = last). { unfold get_cont, fetch in E1. destruct (touchable w a); [|discriminate]. rewrite Hcell in E1. cbn [obind] in E1. rewrite Hik in E1. congruence. } subst last'.
  assert (Hma : made (k_pools w) (fst a) (snd a)) by (apply R; eapply nth_error_In; exact Ha).
  destruct (alloc_ok w _ owns j ik (CellItem (OwnKey []) None None) P Ep) as (ps & s & Hal & P' & Hgr & Hfresh & Hms & Hno).
  set (owns' := add_owner (ik, s) j owns) in *.
  assert (Hown : forall k s', made (k_pools w) k s' -> owns' k s' = owns k s').
  { intros k s' H. unfold owns', add_owner. cbn. destruct (cls_eqb_spec k ik) as [->|]; [|reflexivity]. destruct (slot_eqb_spec s' s) as [->|]; [|reflexivity]. contradiction. }
  assert (Hmade : forall k' s', made (k_pools w) k' s' -> made ps k' s').
  { intros k' s' H. unfold made in *. destruct (Hgr k') as (evs & ->). apply in_or_app. now left. }
  assert (Hitem_a : forall s', (ik, s') <> a).
  { intros s' E. pose proof (item_item _ _ Hik). subst a. cbn [fst] in Hik. congruence. }
  assert (Hne : (ik, s) <> a) by apply Hitem_a.
  assert (Hown_s : owns' ik s = Some j).
  { unfold owns', add_owner. cbn. destruct (cls_eqb_spec ik ik); [|congruence]. destruct (slot_eqb_spec s s); [reflexivity|congruence]. }
  assert (Hown_a : owns' (fst a) (snd a) <> None) by (rewrite Hown by exact Hma; rewrite H2; exact Hh).
  assert (Hst : forall m' b x, owns' (fst b) (snd b) <> None -> store {| k_pools := ps; k_mem := m'; k_vars := k_vars w |} b x =
     Ok {| k_pools := ps; k_mem := set_mem b x m'; k_vars := k_vars w |}).
  { intros m' b x Hb. apply (store_ok {| k_pools := ps; k_mem := m'; k_vars := k_vars w |} _ owns' b x P' Hb). }
  assert (Hgs : forall s', In s' g -> s' <> s) by (intros s' Hs' E; subst s'; apply Hfresh; exact (Hmd s Hs')).
  assert (Hkey : cls_eqb ik KArrayItem = is_array o) by (unfold is_array; rewrite <- H1; destruct a as [[] ?]; cbn in Hik; inversion Hik; reflexivity).
  rewrite Hkey. set (e' := {| en_key := if is_array o then OwnKey [] else key; en_val := v; en_home := Some j |}).
  (* the memory afterwards, however the item was linked *)
  assert (Fin : exists mem' last',
     ('(w1, s) <- Ok ({| k_pools := ps; k_mem := set_mem (ik, s) (CellItem (OwnKey []) None None) (k_mem w); k_vars := k_vars w |}, s) ;;
      tail <- cl_tail w ik (chain_fuel w ik) last ;;
      w2 <- store w1 (ik, s) (CellItem (if is_array o then OwnKey [] else key) v' None) ;;
      match tail with
      | None => store w2 a (CellCont (so_made o) (Some s) (u64 (len l + 1)))
      | Some s0 =>
          '(k0, v0, _) <- get_item w2 (ik, s0) ;;
          w3 <- store w2 (ik, s0) (CellItem k0 v0 (Some s)) ;;
          store w3 a (CellCont (so_made o) last (u64 (len l + 1)))
      end) = Ok {| k_pools := ps; k_mem := mem'; k_vars := k_vars w |} /\
     mem' (fst a) (snd a) = Some (CellCont (so_made o) last' (len (l ++ [e']))) /\
     chain (mem' ik) (owns' ik) (k_vars w) last' (l ++ [e']) (g ++ [s]) /\
     forall k s', (k, s') <> a -> (k, s') <> (ik, s) -> ~ (k = ik /\ In s' g) -> mem' k s' = k_mem w k s').
  { assert (Hlen : u64 (len l + 1) = len (l ++ [e'])) by (rewrite u64_small by lia; unfold len; rewrite app_length; cbn [length]; lia).
    destruct Htail as [(-> & -> & -> & ->)|(l1 & e & g1 & s0 & v0 & -> & -> & Hlg & -> & He & Hos & Hm0 & Hv0)]; cbn [obind].
    - rewrite Hst by (cbn [fst snd]; congruence). cbn [obind]. rewrite Hst by exact Hown_a. eexists _, (Some s). split; [reflexivity|].
      rewrite Hlen. split; [apply set_mem_same|]. split.
      + cbn [app chain]. split; [reflexivity|]. split; [exact Hown_s|]. exists v', None. split; [|auto].
        rewrite set_mem_other by exact Hne. apply (set_mem_same (ik, s)).
      + intros k s' A1 A2 _. now rewrite !set_mem_other by assumption.
    - rewrite Hst by (cbn [fst snd]; congruence). cbn [obind].
      assert (Hs0 : s0 <> s) by (apply Hgs, in_or_app; right; now left).
      assert (Hms0 : made (k_pools w) ik s0) by (apply Hmd, in_or_app; right; now left).
      assert (Ho0 : owns' ik s0 <> None) by (rewrite Hown by exact Hms0; congruence).
      unfold get_item at 1. erewrite (fetch_pools _ (st_alive st) owns' (ik, s0)); [|exact P'|exact Ho0|]. 2:{ cbn [k_mem fst snd]. rewrite !set_mem_other by congruence. exact Hm0. }
      cbn [obind]. rewrite Hst by exact Ho0. cbn [obind]. rewrite Hst by exact Hown_a. eexists _, last. split; [reflexivity|].
      rewrite Hlen. split; [apply set_mem_same|]. split.
      + rewrite <- !app_assoc. cbn [app]. eapply chain_snoc with (v := v0) (v' := v'); [exact Hch|exact Hlg| | | | | | |].
        * intros x Hx. assert (x <> s) by (apply Hgs, in_or_app; now left).
          assert (x <> s0). { intros ->. apply NoDup_remove_2 in HN. apply HN. rewrite app_nil_r. exact Hx. }
          rewrite !set_mem_other; [reflexivity|congruence|congruence|congruence|apply Hitem_a].
        * intros x Hx. apply Hown. auto.
        * rewrite set_mem_other by apply Hitem_a. apply (set_mem_same (ik, s0)).
        * exact Hv0.
        * rewrite !set_mem_other by (apply Hitem_a || congruence). apply (set_mem_same (ik, s)).
        * exact Hv'.
        * exact Hown_s.
      + intros k s' A1 A2 A3. rewrite !set_mem_other; try assumption; try reflexivity. intros E. inversion E; subst. apply A3. split; [reflexivity|]. apply in_or_app. right. now left. }
  destruct Fin as (mem' & last' & Eev & Hm1 & Hch2 & Hm3). cbn [obind] in Eev.
  match goal with |- ores _ ?lhs _ => assert (Elhs : lhs = Ok ({| k_pools := ps; k_mem := mem'; k_vars := k_vars w |}, AnNone)) end.
  { destruct (cl_tail w ik (chain_fuel w ik) last) as [tl| | | |]; try discriminate Eev. cbn [obind] in Eev |- *. rewrite Hal. cbn [obind]. rewrite Eev. reflexivity. }
  rewrite Elhs. constructor. eapply agree_write; [|reflexivity|exact I].
  eapply (rel_change w st owns G t c a o g ps owns' mem' _ (g ++ [s]) (t + 1) R Ha Ho Hg P' Hgr); [lia|exact Hown| | | |].
  - intros m b Hm Hb. apply Hm3.
    + intros E. apply Hm. pose proof (r_vars _ _ _ _ _ R) as HNv. rewrite NoDup_nth_error in HNv. apply HNv; [apply nth_error_Some; congruence|]. rewrite Hb, Ha. now destruct b; cbn in E; subst.
    + intros E. apply Hfresh. inversion E. subst. apply (r_made _ _ _ _ _ R). eapply nth_error_In; exact Hb.
    + intros [E Hin]. destruct (var_case w st owns G t m R) as [(Ev & _)|(b' & ob & gb' & _ & Hb' & Hob & Hgb' & (_ & _ & Hx) & _)]; [unfold var in Ev; rewrite Hb in Ev; discriminate|].
      assert (b' = b) by congruence. subst b'. pose proof (item_item _ _ Hik) as Hii. rewrite <- E in Hii. destruct (so_content ob) as [x|l0].
      * destruct Hx as (Hx & _). pose proof (item_not_obj (fst a) (fst b) ik Hik) as Hno'. apply Hno'; [now right|now symmetry].
      * destruct Hx as (ikx & lastx & Hikx & _). congruence.
  - intros m b gb ikb s' Hm Hb Hgb Hikb Hs'. apply Hm3.
    + intros E. apply item_item in Hikb. subst a. cbn [fst] in Hik. congruence.
    + intros E. inversion E; subst. apply Hfresh.
      destruct (var_case w st owns G t m R) as [(Ev & _)|(b' & ob & gb' & _ & Hb' & Hob & Hgb' & (_ & _ & Hx) & _)]; [unfold var in Ev; rewrite Hb in Ev; discriminate|].
      assert (b' = b) by congruence. assert (gb' = gb) by congruence. subst b' gb'. destruct (so_content ob) as [x|l0].
      * destruct Hx as (_ & -> & _). destruct Hs'.
      * destruct Hx as (ikx & lastx & Hikx & _ & _ & _ & Hmdx & _). assert (ikx = ik) by congruence. subst. exact (Hmdx _ Hs').
    + intros [-> Hin]. assert (fst b = fst a) by (eapply item_cls_inj; eauto).
      eapply (r_disj _ _ _ _ _ R m c b a gb g s'); eauto.
  - split; [exact H1|]. split; [rewrite Hown by exact Hma; exact H2|]. cbn. exists ik, last'. split; [exact Hik|]. split; [exact Hm1|].
    split; [exact Hch2|]. split; [|split].
    + apply NoDup_app; [exact HN|repeat constructor; auto|]. intros x Hx [<-|[]]. now apply (Hgs _ Hx).
    + intros s' Hs'. apply in_app_or in Hs' as [Hs'|[<-|[]]]; auto.
    + unfold len in *. rewrite app_length. cbn [length]. lia.
  - intros s' ikx Hs' Hikx. apply in_app_or in Hs' as [Hs'|[<-|[]]]; [now left|right]. assert (ikx = ik) by congruence. now subst.
Qed.

Lemma view_ok w st owns G t : rel w st owns G t -> forall d n a, nth_error (k_vars w) n = Some a ->
  ores eq (cl_view d w a) (see_tree d st n).
Proof.
  intros R. pose proof (r_pools _ _ _ _ _ R) as P. induction d as [|d IH]; intros n a Ha; cbn [cl_view see_tree]; [constructor|].
  destruct (var_case w st owns G t n R) as [(E & _)|(a' & o & g & _ & Ha' & Ho & Hg & Hok & Hthe & Hf)]; [unfold var in E; rewrite Ha in E; discriminate|].
  assert (a' = a) by congruence. subst a'. pose proof Hok as (H1 & H2 & H3). destruct (so_content o) as [x|l] eqn:Ec.
  - destruct H3 as (Hk & _ & Hm). replace (item_cls (fst a)) with (@None cls) by (destruct Hk as [-> | ->]; reflexivity).
    unfold cl_read. rewrite Hf, Hthe, Hm. destruct (present (so_home o)); cbn [obind]; [rewrite Ec; constructor; now rewrite H1|constructor].
  - destruct (get_cont_case w st owns G t n a o g R Ha Ho Hg) as [(E1 & E2)|(l' & ik & last & Hh & Hc & Hik & E1 & E2 & E3 & Hch & HN & Hmd & Hl)].
    + destruct H3 as (ik & last & Hik & _). rewrite Hik. rewrite E1. cbn [obind].
      rewrite Hthe in E2 |- *. destruct (present (so_home o)); cbn [obind] in *; [|constructor]. unfold entries in E2. rewrite Ec in E2. discriminate.
    + assert (l' = l) by congruence. subst l'. rewrite Hik. unfold cl_iterate. rewrite E1, E2. cbn [obind]. rewrite Ec.
      destruct (items_ok w _ owns P ik l last g (chain_fuel w ik) Hch (fuel_enough _ _ _ _ _ _ Hch HN Hmd)) as [xs ys Hxy| |]; cbn [obind]; try constructor.
      assert (Hkids : ores eq (view_items (cl_view d w) xs) (see_children (see_tree d st) ys)).
      { clear -Hxy IH. induction Hxy as [|[k1 v1] [k2 v2] xs ys (Hk & Hp) _ IHl]; cbn; [constructor; reflexivity|]. cbn in Hk, Hp. subst k2.
        destruct v2 as [m|]; cbn in Hp.
        - destruct Hp as [Hn Hp]. destruct v1 as [b|]; [|congruence]. destruct (IH m b (eq_sym Hp)) as [t1 t2 ->| |]; cbn; try constructor.
          destruct IHl as [r1 r2 ->| |]; cbn; constructor. reflexivity.
        - subst v1. cbn [obind]. destruct IHl as [r1 r2 ->| |]; cbn; constructor. reflexivity. }
      destruct Hkids as [r1 r2 ->| |]; cbn [obind]; constructor. now rewrite H1.
Qed.

Lemma step_ok_client w st owns G t op : rel w st owns G t -> t + 1 < W64 ->
  ores (agree w (t + 1)) (cl_step w op) (spec_step st op).
Proof.
  intros R Ht. destruct op.
  - eapply step_pool; exact R.
  - eapply step_create; [exact R|exact I].
  - eapply step_create; [exact R|exact I].
  - now apply step_scratch with owns G.
  - eapply step_insert; eauto.
  - eapply step_append; eauto.
  - eapply step_write; [exact R|lia|exact I].
  - eapply step_write; [exact R|lia|exact I].
  - eapply step_read; [exact R|lia|exact I].
  - eapply step_read; [exact R|lia|exact I].
  - eapply step_read; [exact R|lia|exact I].
  - eapply step_read; [exact R|lia|exact I].
  - eapply step_read; [exact R|lia|exact I].
  - eapply step_write; [exact R|lia|exact I].
  - cbn [cl_step spec_step known]. unfold var. destruct (nth_error (k_vars w) c) as [a|] eqn:Ha.
    + replace (c <? length (st_objs st))%nat with true by (symmetry; apply Nat.ltb_lt; rewrite <- (r_len _ _ _ _ _ R); apply nth_error_Some; congruence).
      cbn [obind]. destruct (view_ok w st owns G t R depth c a Ha) as [x y ->| |]; cbn [obind]; constructor. eapply agree_same; [exact R|lia|reflexivity].
    + replace (c <? length (st_objs st))%nat with false by (symmetry; apply Nat.ltb_ge; rewrite <- (r_len _ _ _ _ _ R); now apply nth_error_None).
      constructor.
Qed.

Lemma same_answer_more vars e a sa : same_answer vars a sa -> same_answer (vars ++ e) a sa.
Proof.
  destruct a, sa; cbn; auto; [apply same_ptr_more|]. induction 1 as [|x y l l' [H1 H2] _ IH]; constructor; [|exact IH]. split; [exact H1|now apply same_ptr_more].
Qed.

Lemma run_ok_client ops : forall w st owns G t, rel w st owns G t -> t + len ops < W64 ->
  ores (fun x y => (exists owns' G' t', rel (fst x) (fst y) owns' G' t' /\ t' <= t + len ops) /\
          Forall2 (same_answer (k_vars (fst x))) (snd x) (snd y) /\ exists e, k_vars (fst x) = k_vars w ++ e)
    (cl_run w ops) (spec_run st ops).
Proof.
  induction ops as [|op ops IH]; intros w st owns G t R Ht; cbn [cl_run spec_run].
  - constructor. cbn. split; [exists owns, G, t; split; [exact R|unfold len; cbn; lia]|]. split; [constructor|]. exists []. now rewrite app_nil_r.
  - assert (Hlen : len (op :: ops) = len ops + 1) by (unfold len; cbn [length]; lia).
    destruct (step_ok_client w st owns G t op R) as [[w1 a] [st1 sa] (owns1 & G1 & R1 & Ha & e & He)| |]; [lia| | |]; cbn [obind]; try constructor.
    cbn [fst snd] in R1, Ha, He.
    destruct (IH w1 st1 owns1 G1 (t + 1) R1) as [[w2 r] [st2 sr] ((owns2 & G2 & t2 & R2 & Ht2) & Hr & e2 & He2)| |]; [lia| | |]; cbn [obind]; try constructor.
    cbn [fst snd] in *. split; [exists owns2, G2, t2; split; [exact R2|lia]|]. split.
    + constructor; [|exact Hr]. rewrite He2. now apply same_answer_more.
    + exists (e ++ e2). now rewrite He2, He, app_assoc.
Qed.

Lemma rel0 : rel client0 sstate0 (fun _ _ => None) [] 0.
Proof.
  split.
  - intros k. exists heap0. split; [apply inv0|reflexivity].
  - reflexivity.
  - reflexivity.
  - constructor.
  - intros a [].
  - intros [|n] a o g H; discriminate H.
  - intros [|n] m a b g g' s _ H; discriminate H.
Qed.
