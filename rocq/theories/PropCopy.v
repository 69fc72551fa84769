(** * Property C89: copies of container objects. *)
From Verif Require Import Base BaseLemmas ModelLinked ModelCopy PropLinked.
From Coq Require Import ZifyBool ZifyNat ZifyN.
Local Open Scope out_scope.

(** ** Specification: entries have an identity (the order in which they were made); a
    container lists the entries it holds, newest first; a copy lists the same entries. *)
Record shared := { tab : list entry; lists : list (list nat) }.
Definition shared0 : shared := {| tab := []; lists := [] |}.
Definition ent (t : list entry) (a : nat) : entry := nth a t ([], None).
Definition ids (s : shared) (c : nat) : list nat := nth c (lists s) [].
Definition entries (s : shared) (c : nat) : list entry := map (ent (tab s)) (ids s c).

Fixpoint first_id (t : list entry) (k : bytes) (l : list nat) : option nat :=
  match l with
  | [] => None
  | a :: l' => if bytes_eqb (fst (ent t a)) k then Some a else first_id t k l'
  end.

Definition s_after (op : k_op) (s : shared) : shared :=
  match op with
  | KOp LNew => {| tab := tab s; lists := lists s ++ [[]] |}
  | KOp (LInsert c k v) => {| tab := tab s ++ [(k, Some v)]; lists := replace c (length (tab s) :: ids s c) (lists s) |}
  | KOp (LClear c) => {| tab := tab s; lists := replace c [] (lists s) |}
  | KOp (LTake c k) =>
      match first_id (tab s) k (ids s c) with
      | Some a => {| tab := replace a (fst (ent (tab s) a), None) (tab s); lists := lists s |}
      | None => s
      end
  | KOp (LMergeBlock c l) =>
      {| tab := tab s ++ filled l; lists := replace c (seq (length (tab s)) (length l) ++ ids s c) (lists s) |}
  | KOp (LParse c l) =>
      {| tab := tab s ++ filled l; lists := replace c (seq (length (tab s)) (length l)) (lists s) |}
  | KOp _ => s
  | KCopy c => {| tab := tab s; lists := lists s ++ [ids s c] |}
  end.
Definition state (ops : list k_op) : shared := fold_left (fun s op => s_after op s) ops shared0.

Definition k_answer (s : shared) (op : k_op) : l_answer :=
  match op with KOp op => ask (entries s) op | KCopy _ => LNone end.
Fixpoint k_answers (s : shared) (ops : list k_op) : list l_answer :=
  match ops with
  | [] => []
  | op :: ops' => k_answer s op :: k_answers (s_after op s) ops'
  end.

Definition k_uses (op : k_op) : option nat := match op with KOp op => uses op | KCopy c => Some c end.
Definition k_creates (op : k_op) : bool := match op with KOp LNew | KCopy _ => true | _ => false end.
Definition k_created (ops : list k_op) : nat := length (filter k_creates ops).
Definition k_made (op : k_op) : N := match op with KOp op => made op | KCopy _ => 0 end.
Definition k_entries_made (ops : list k_op) : N := fold_right (fun op n => k_made op + n) 0 ops.
(** Containers exist before they are used or copied; fewer than 2^64 entries are made. *)
Definition k_legal (ops : list k_op) : Prop :=
  (forall before op later c, ops = before ++ op :: later -> k_uses op = Some c -> (c < k_created before)%nat) /\
  k_entries_made ops < 2 ^ 64.

(** ** Proof *)
Definition proj (i : item) : entry := (i_key i, i_val i).

Lemma ent_proj h a i : nth_error h a = Some i -> ent (map proj h) a = proj i.
Proof. intros H. unfold ent. apply nth_error_nth. now apply map_nth_error. Qed.

Lemma chain_entries h p A E : chain h p A E -> E = map (ent (map proj h)) A.
Proof. induction 1 as [|a i A E Hn H IH]; [reflexivity|]. cbn. rewrite (ent_proj h a i Hn), <- IH. reflexivity. Qed.

(** Chains survive whatever leaves the links alone. *)
Lemma chain_links h h' p A E : chain h p A E ->
  (forall a i, In a A -> nth_error h a = Some i -> exists i', nth_error h' a = Some i' /\ i_next i' = i_next i) ->
  chain h' p A (map (ent (map proj h')) A).
Proof.
  intros H. induction H as [|a i A E Hn H IH]; intros Hf; [constructor|].
  destruct (Hf a i) as (i' & Hi' & Hx); [now left|exact Hn|]. cbn. rewrite (ent_proj h' a i' Hi').
  apply (ch_cons h' a i' A _ Hi'). rewrite Hx. apply IH. intros b j Hb. apply Hf. now right.
Qed.

Lemma replace_map {A B} (f : A -> B) n x l : map f (replace n x l) = replace n (f x) (map f l).
Proof. revert n. induction l as [|y l IH]; intros [|n]; cbn; auto. now rewrite IH. Qed.
Lemma replace_id {A} n (x : A) l : nth_error l n = Some x -> replace n x l = l.
Proof. revert n. induction l as [|y l IH]; intros [|n] H; cbn in *; try discriminate.
  - now injection H as ->.
  - now rewrite IH.
Qed.

Lemma set_next_proj h p q h' : set_next h p q = Ok h' -> map proj h' = map proj h /\ length h' = length h.
Proof.
  intros H. destruct p as [a|]; [|discriminate]. destruct (nth_error h a) as [j|] eqn:E.
  - rewrite (set_next_ok h a q j E) in H. injection H as <-. split; [|apply replace_length].
    rewrite replace_map. apply replace_id. now rewrite (map_nth_error proj a h E).
  - unfold set_next in H. cbn in H. rewrite E in H. discriminate.
Qed.

Lemma append_proj l : forall h hd tl h' hd' tl', l_append h hd tl l = Ok (h', hd', tl') ->
  map proj h' = map proj h ++ filled l /\ length h' = (length h + length l)%nat.
Proof.
  induction l as [|[k v] l IH]; intros h hd tl h' hd' tl' H; cbn [l_append new_item] in H.
  - injection H as <- <- <-. cbn. rewrite app_nil_r. split; [reflexivity|lia].
  - destruct hd as [a|].
    + apply obind_ok in H as (h2 & H2 & H). apply set_next_proj in H2 as [E1 E2]. apply IH in H as [E3 E4].
      rewrite E3, E4, E1, E2, map_app, app_length. cbn. rewrite <- app_assoc. split; [reflexivity|lia].
    + apply IH in H as [E3 E4]. rewrite E3, E4, map_app, app_length. cbn. rewrite <- app_assoc. split; [reflexivity|lia].
Qed.

Definition ties (w : l_world) (s : shared) : Prop :=
  tab s = map proj (l_heap w) /\ length (lists s) = length (l_conts w) /\
  forall c x, nth_error (l_conts w) c = Some x ->
    chain (l_heap w) (c_last x) (ids s c) (entries s c) /\ NoDup (ids s c) /\ c_size x = len (entries s c).

Lemma nth_replace_same {A} c (x d : A) l : (c < length l)%nat -> nth c (replace c x l) d = x.
Proof. revert c. induction l as [|y l IH]; intros [|c] H; cbn in *; try lia; auto. apply IH. lia. Qed.
Lemma nth_replace_other {A} c d' (x d : A) l : c <> d' -> nth d' (replace c x l) d = nth d' l d.
Proof. revert c d'. induction l as [|y l IH]; intros [|c] [|e] H; cbn; auto; try congruence. Qed.

(** Updating one container while the links of old items stay as they are. *)
Lemma ties_update w s c x h' x' t' A' :
  ties w s -> nth_error (l_conts w) c = Some x ->
  t' = map proj h' ->
  (forall a i, nth_error (l_heap w) a = Some i -> exists i', nth_error h' a = Some i' /\ i_next i' = i_next i) ->
  chain h' (c_last x') A' (map (ent t') A') -> NoDup A' -> c_size x' = len A' ->
  ties {| l_heap := h'; l_conts := replace c x' (l_conts w) |} {| tab := t'; lists := replace c A' (lists s) |}.
Proof.
  intros (T1 & T2 & T3) Hc Et Hlinks HC HN HS. assert (Hlt : (c < length (lists s))%nat) by (rewrite T2; apply nth_error_Some; congruence).
  split; [exact Et|]. split; [cbn; now rewrite !replace_length|]. cbn [l_heap l_conts]. intros d y Hd. unfold entries, ids. cbn [lists tab].
  destruct (Nat.eq_dec d c) as [->|Hdc].
  - rewrite replace_same in Hd by (apply nth_error_Some; congruence). injection Hd as <-. rewrite nth_replace_same by exact Hlt.
    split; [exact HC|]. split; [exact HN|]. unfold len in *. now rewrite map_length.
  - rewrite replace_other in Hd by congruence. rewrite nth_replace_other by congruence. destruct (T3 d y Hd) as (G1 & G2 & G3).
    subst t'. split; [|split; [exact G2|]].
    + eapply chain_links; [exact G1|]. intros a i _. apply Hlinks.
    + rewrite G3. unfold len, entries, ids. now rewrite !map_length.
Qed.

Lemma ties_len w s c : ties w s -> (c < length (l_conts w))%nat -> exists x, nth_error (l_conts w) c = Some x /\
  chain (l_heap w) (c_last x) (ids s c) (entries s c) /\ NoDup (ids s c) /\ c_size x = len (entries s c).
Proof.
  intros (T1 & T2 & T3) H. destruct (nth_error (l_conts w) c) as [x|] eqn:E; [|apply nth_error_None in E; lia].
  exists x. split; [reflexivity|]. now apply T3.
Qed.

Lemma first_id_spec t k l : match first_id t k l with
  | Some a => In a l /\ first_with k (map (ent t) l) = snd (ent t a) /\ fst (ent t a) = k
  | None => first_with k (map (ent t) l) = None
  end.
Proof.
  induction l as [|a l IH]; cbn; [reflexivity|]. destruct (ent t a) as [k' v'] eqn:E. cbn [fst].
  destruct (bytes_eqb k' k) eqn:Ek.
  - rewrite E. cbn. split; [now left|]. split; [reflexivity|]. now destruct (bytes_eqb_spec k' k).
  - destruct (first_id t k l) as [b|]; [|exact IH]. destruct IH as (I1 & I2 & I3). auto.
Qed.

Lemma search_first h key p A E : chain h p A E -> forall fuel, (length E <= fuel)%nat ->
  l_search h fuel p key = Ok (first_id (map proj h) key A).
Proof.
  induction 1 as [|a i A E Hn H IH]; intros fuel Hf; [destruct fuel; reflexivity|].
  cbn in Hf. destruct fuel as [|f]; [lia|]. cbn [l_search first_id]. rewrite (load_ok h a i Hn). cbn [obind].
  rewrite (ent_proj h a i Hn). cbn [proj fst]. destruct (bytes_eqb (i_key i) key); [reflexivity|]. apply IH. lia.
Qed.

Lemma k_step_ok w s op : ties w s ->
  (forall c, k_uses op = Some c -> (c < length (l_conts w))%nat) ->
  (forall c, len (entries s c) + k_made op < 2 ^ 64) ->
  exists w', k_step w op = Ok (w', k_answer s op) /\ ties w' (s_after op s) /\
    length (l_conts w') = (length (l_conts w) + if k_creates op then 1 else 0)%nat.
Proof.
  intros HT Hu Hsz. pose proof HT as (T1 & T2 & T3).
  assert (Hsame : forall a i, nth_error (l_heap w) a = Some i -> exists i', nth_error (l_heap w) a = Some i' /\ i_next i' = i_next i) by eauto.
  assert (Hfuel : forall c x, nth_error (l_conts w) c = Some x -> (length (entries s c) <= length (l_heap w))%nat).
  { intros c x Hx. destruct (T3 c x Hx) as (HC & HN & _). eapply chain_fuel; eauto. }
  destruct op as [[|c k v|c|c k|c l|c l|c|c n|c k|c]|c]; cbn [k_step k_answer s_after k_made made k_creates k_uses uses ask] in *;
    try (destruct (ties_len w s c HT (Hu c eq_refl)) as (x & Hx & HC & HN & HS); cbn [l_step]; rewrite ?Hx).
  - (* new *)
    eexists. split; [reflexivity|]. cbn [l_conts]. rewrite app_length. cbn. split; [|lia].
    split; [exact T1|]. split; [cbn; rewrite !app_length; cbn; lia|]. cbn [l_heap l_conts]. intros d y Hd. unfold entries, ids. cbn [lists tab].
    destruct (Nat.lt_ge_cases d (length (l_conts w))) as [Hl|Hl].
    + rewrite nth_error_app1 in Hd by exact Hl. rewrite app_nth1 by lia. apply T3, Hd.
    + rewrite nth_error_app2 in Hd by exact Hl. rewrite app_nth2 by lia. rewrite T2. destruct (d - length (l_conts w))%nat as [|m]; [|destruct m; discriminate].
      injection Hd as <-. cbn. split; [constructor|]. split; [constructor|reflexivity].
  - (* insert *)
    assert (Hlt : (length (l_heap w) < length (l_heap w ++ [{| i_key := k; i_val := Some v; i_next := None |}]))%nat) by (rewrite app_length; cbn; lia).
    assert (Hres : exists h', l_Insert (l_heap w) x k v = Ok (h', {| c_last := Some (length (l_heap w)); c_size := u64 (c_size x + 1) |}) /\
        nth_error h' (length (l_heap w)) = Some {| i_key := k; i_val := Some v; i_next := c_last x |} /\
        map proj h' = map proj (l_heap w) ++ [(k, Some v)] /\
        (forall b, (b < length (l_heap w))%nat -> nth_error h' b = nth_error (l_heap w) b)).
    { unfold l_Insert. cbn [new_item]. destruct (c_last x) as [a|] eqn:Hl.
      - rewrite (set_next_ok _ _ (Some a) _ (nth_app_new (l_heap w) _)). cbn [obind]. eexists. split; [reflexivity|]. cbn [i_key i_val].
        split; [now apply replace_same|]. split.
        + rewrite replace_map, map_app. cbn [map proj i_key i_val]. apply replace_id.
          replace (length (l_heap w)) with (length (map proj (l_heap w))) by apply map_length. apply nth_app_new.
        + intros b Hb. rewrite replace_other by lia. now rewrite nth_error_app1.
      - eexists. split; [reflexivity|]. split; [apply nth_app_new|]. split; [now rewrite map_app|]. intros b Hb. now rewrite nth_error_app1. }
    destruct Hres as (h' & -> & Hnew & Hpr & Hfr). cbn [obind]. eexists. split; [reflexivity|]. cbn [l_conts]. rewrite replace_length. split; [|lia].
    eapply ties_update; eauto.
    + now rewrite Hpr, T1.
    + intros a i Hi. rewrite Hfr by (apply nth_error_Some; congruence). eauto.
    + cbn [c_last]. rewrite T1, map_length. cbn [map]. rewrite <- Hpr. rewrite (ent_proj h' _ _ Hnew).
      apply (ch_cons h' _ _ _ _ Hnew). cbn [i_next]. eapply chain_links; [exact HC|].
      intros a i Ha Hi. rewrite Hfr by (apply nth_error_Some; congruence). eauto.
    + rewrite T1, map_length. constructor; [|exact HN]. intros Hin. pose proof (chain_bound _ _ _ _ HC _ Hin). lia.
    + cbn [c_size]. rewrite HS. unfold u64. rewrite N.mod_small.
      * unfold len, entries. rewrite map_length. cbn [length]. lia.
      * specialize (Hsz c). change W64 with (2 ^ 64). exact Hsz.
  - (* clear *)
    eexists. split; [reflexivity|]. cbn [l_conts]. rewrite replace_length. split; [|lia].
    eapply ties_update; eauto; cbn; try constructor.
  - (* take *)
    unfold l_take. rewrite (search_first _ k _ _ _ HC) by (specialize (Hfuel c x Hx); lia). cbn [obind].
    rewrite <- T1. pose proof (first_id_spec (tab s) k (ids s c)) as Hf. fold (entries s c) in Hf.
    destruct (first_id (tab s) k (ids s c)) as [a|] eqn:Ef.
    + destruct Hf as (Hin & Hv & Hk). pose proof (chain_bound _ _ _ _ HC a Hin) as Hlt.
      destruct (nth_error (l_heap w) a) as [i|] eqn:Hi; [|apply nth_error_None in Hi; lia].
      rewrite (load_ok _ a i Hi). cbn [obind]. rewrite save_ok by exact Hlt. cbn [obind].
      assert (Ei : ent (tab s) a = proj i) by (rewrite T1; now apply ent_proj).
      rewrite Hv, Ei. cbn [proj snd fst]. eexists. split; [reflexivity|]. cbn [l_conts]. rewrite replace_length. split; [|lia].
      assert (Hfr : forall b j, nth_error (l_heap w) b = Some j ->
        exists i', nth_error (replace a {| i_key := i_key i; i_val := None; i_next := i_next i |} (l_heap w)) b = Some i' /\ i_next i' = i_next j).
      { intros b j Hj. destruct (Nat.eq_dec a b) as [<-|Hne]; [|rewrite replace_other by exact Hne; eauto].
        rewrite replace_same by exact Hlt. eexists. split; [reflexivity|]. cbn. congruence. }
      assert (Et : replace a (i_key i, None) (tab s) = map proj (replace a {| i_key := i_key i; i_val := None; i_next := i_next i |} (l_heap w))).
      { rewrite replace_map, T1. reflexivity. }
      replace (lists s) with (replace c (ids s c) (lists s)) at 1.
      2: { apply replace_id. unfold ids. apply nth_error_nth'. rewrite T2. apply nth_error_Some. congruence. }
      eapply ties_update; eauto.
      * rewrite Et. eapply chain_links; [exact HC|]. intros b j _. apply Hfr.
      * rewrite HS. unfold len, entries. now rewrite map_length.
    + rewrite Hf. eexists. split; [reflexivity|]. cbn [l_conts]. rewrite replace_length. split; [|lia].
      rewrite replace_id by exact Hx. destruct w; exact HT.
  - (* merge *)
    destruct (build_ok (l_heap w) l) as (h1 & head & tail & A & Hrun & HCb & HNb & Hfr & Hlen & Hin & Hseq & Hshape).
    pose proof (append_proj _ _ _ _ _ _ _ Hrun) as [Hpr Hlen']. rewrite Hrun. cbn [obind].
    assert (HC1 : chain h1 (c_last x) (ids s c) (entries s c)).
    { eapply chain_frame; [|exact HC]. intros b Hb. apply Hfr. eapply chain_bound; eauto. }
    rewrite T1, map_length. rewrite <- Hseq, <- Hpr.
    destruct l as [|e l].
    + destruct Hshape as [-> ->]. cbn [l_Merge obind]. inversion HCb; subst.
      eexists. split; [reflexivity|]. cbn [l_conts]. rewrite replace_length. split; [|lia]. cbn [app].
      eapply ties_update; eauto.
      * intros a i Hi. rewrite Hfr by (apply nth_error_Some; congruence). eauto.
      * eapply chain_links; [exact HC1|]. eauto.
      * rewrite HS. unfold len, entries. now rewrite map_length.
    + destruct Hshape as (A0 & a & -> & ->).
      destruct head as [hd|]; [|inversion HCb as [E1|]; destruct A0; discriminate E1].
      destruct (link_ok h1 (Some hd) (c_last x) A0 a (ids s c) (filled (e :: l)) (entries s c)) as (h2 & Hset & Hl2 & HC2 & Hfr2); auto.
      { intros b Hb Hb'. pose proof (chain_bound _ _ _ _ HC _ Hb'). specialize (Hin b Hb). lia. }
      cbn [l_Merge]. rewrite Hset. cbn [obind]. pose proof (set_next_proj _ _ _ _ Hset) as [Hpr2 _].
      eexists. split; [reflexivity|]. cbn [l_conts]. rewrite replace_length. split; [|lia].
      assert (Ha : (length (l_heap w) <= a)%nat) by (apply Hin; apply in_or_app; right; now left).
      eapply ties_update; eauto.
      * intros b i Hi. assert (b < length (l_heap w))%nat by (apply nth_error_Some; congruence). rewrite Hfr2 by lia. rewrite Hfr by lia. eauto.
      * cbn [c_last]. rewrite <- Hpr2. rewrite <- (chain_entries _ _ _ _ HC2). exact HC2.
      * apply NoDup_append; auto. intros b Hb Hb'. pose proof (chain_bound _ _ _ _ HC _ Hb'). specialize (Hin b Hb). lia.
      * cbn [c_size]. rewrite HS, len_app. unfold u64. specialize (Hsz c). rewrite N.mod_small by (change W64 with (2 ^ 64); lia).
        rewrite Hseq. unfold len, entries. rewrite map_length, seq_length. lia.
  - (* parse *)
    destruct (build_ok (l_heap w) l) as (h1 & head & tail & A & Hrun & HCb & HNb & Hfr & Hlen & Hin & Hseq & _).
    pose proof (append_proj _ _ _ _ _ _ _ Hrun) as [Hpr Hlen']. rewrite Hrun. cbn [obind].
    rewrite T1, map_length. rewrite <- Hseq, <- Hpr.
    eexists. split; [reflexivity|]. cbn [l_conts]. rewrite replace_length. split; [|lia].
    eapply ties_update; eauto.
    + intros a i Hi. rewrite Hfr by (apply nth_error_Some; congruence). eauto.
    + cbn [c_last]. rewrite <- (chain_entries _ _ _ _ HCb). exact HCb.
    + cbn [c_size]. rewrite Hseq. unfold len. now rewrite seq_length.
  - rewrite HS. eexists. split; [reflexivity|]. split; [exact HT|lia].
  - rewrite (at_ok _ _ _ _ n HC HS). cbn [obind]. eexists. split; [reflexivity|]. split; [exact HT|lia].
  - unfold l_lookup. rewrite (search_first _ k _ _ _ HC) by (specialize (Hfuel c x Hx); lia). cbn [obind].
    rewrite <- T1. pose proof (first_id_spec (tab s) k (ids s c)) as Hf. fold (entries s c) in Hf.
    destruct (first_id (tab s) k (ids s c)) as [a|] eqn:Ef.
    + destruct Hf as (Hin & Hv & Hk). pose proof (chain_bound _ _ _ _ HC a Hin) as Hlt.
      destruct (nth_error (l_heap w) a) as [i|] eqn:Hi; [|apply nth_error_None in Hi; lia].
      rewrite (load_ok _ a i Hi). cbn [obind]. rewrite Hv, T1, (ent_proj _ _ _ Hi). eexists. split; [reflexivity|]. split; [exact HT|lia].
    + rewrite Hf. eexists. split; [reflexivity|]. split; [exact HT|lia].
  - rewrite (iterate_ok _ _ _ _ HC) by (specialize (Hfuel c x Hx); lia). cbn [obind]. eexists. split; [reflexivity|]. split; [exact HT|lia].
  - (* copy *)
    eexists. split; [reflexivity|]. cbn [l_conts]. rewrite app_length. cbn. split; [|lia].
    split; [exact T1|]. split; [cbn; rewrite !app_length; cbn; lia|]. cbn [l_heap l_conts]. intros d y Hd. unfold entries, ids. cbn [lists tab].
    destruct (Nat.lt_ge_cases d (length (l_conts w))) as [Hl|Hl].
    + rewrite nth_error_app1 in Hd by exact Hl. rewrite app_nth1 by lia. apply T3, Hd.
    + rewrite nth_error_app2 in Hd by exact Hl. rewrite app_nth2 by lia. rewrite T2. destruct (d - length (l_conts w))%nat as [|m]; [|destruct m; discriminate].
      injection Hd as <-. cbn. auto.
Qed.

Lemma tab_after op s : N.of_nat (length (tab (s_after op s))) = N.of_nat (length (tab s)) + k_made op.
Proof.
  destruct op as [[|c k v|c|c k|c l|c l|c|c n|c k|c]|c]; cbn [s_after k_made made]; try (cbn; lia).
  - cbn. rewrite app_length. cbn. lia.
  - destruct (first_id _ _ _); cbn; rewrite ?replace_length; lia.
  - cbn. rewrite app_length. unfold filled, len. rewrite map_length. lia.
  - cbn. rewrite app_length. unfold filled, len. rewrite map_length. lia.
Qed.

Lemma ties_entries w s c : ties w s -> len (entries s c) <= N.of_nat (length (tab s)).
Proof.
  intros (T1 & T2 & T3). destruct (nth_error (l_conts w) c) as [x|] eqn:E.
  - destruct (T3 c x E) as (HC & HN & _). pose proof (chain_fuel _ _ _ _ HC HN). unfold len. rewrite T1, map_length. lia.
  - apply nth_error_None in E. unfold entries, ids. rewrite nth_overflow by lia. unfold len. cbn. lia.
Qed.

Lemma k_run_ok ops : forall done w s,
  ties w s -> length (l_conts w) = k_created done ->
  (forall before op later c, done ++ ops = (done ++ before) ++ op :: later -> k_uses op = Some c -> (c < k_created (done ++ before))%nat) ->
  N.of_nat (length (tab s)) + k_entries_made ops < 2 ^ 64 ->
  exists w', k_run w ops = Ok (w', k_answers s ops).
Proof.
  induction ops as [|op ops IH]; intros done w s Hi Hc Hu Hm; [now exists w|].
  cbn [k_run k_answers]. cbn [k_entries_made fold_right] in Hm. fold (k_entries_made ops) in Hm.
  destruct (k_step_ok w s op) as (w1 & Hs & Hi1 & Hc1); auto.
  - intros c Huse. rewrite Hc. specialize (Hu [] op ops c). rewrite app_nil_r in Hu. auto.
  - intros c. pose proof (ties_entries w s c Hi). lia.
  - rewrite Hs. cbn [obind].
    destruct (IH (done ++ [op]) w1 (s_after op s)) as (w2 & Hr).
    + exact Hi1.
    + rewrite Hc1, Hc. unfold k_created. rewrite filter_app, app_length. f_equal. cbn. now destruct (k_creates op).
    + intros before op' later c He. rewrite <- !app_assoc in *. cbn [app] in He |- *.
      specialize (Hu (op :: before) op' later c). rewrite <- app_assoc in Hu. cbn [app] in Hu. intros Huse. apply Hu; auto.
    + rewrite tab_after. lia.
    + exists w2. rewrite Hr. reflexivity.
Qed.

(** C89.  Any program over any number of containers, in which containers are also copied
    (at any point, copies of copies included): no null or dangling pointer is followed,
    every loop ends, and every query is answered as the specification with shared entries
    says. *)
Theorem C89_copies_share_entries : forall ops, k_legal ops ->
  exists w, k_run l_world0 ops = Ok (w, k_answers shared0 ops).
Proof.
  intros ops [Hu Hm]. apply (k_run_ok ops [] l_world0 shared0).
  - split; [reflexivity|]. split; [reflexivity|]. intros [|c] x Hx; discriminate.
  - reflexivity.
  - exact Hu.
  - cbn [tab shared0 length]. lia.
Qed.

(** ** Value semantics: what a user of a copyable class expects.  A copy starts with the
    entries of the original, and from then on the two are unrelated. *)
Record separate := { how_many : nat; holds_now : nat -> list entry }.
Definition separate0 : separate := {| how_many := 0; holds_now := fun _ => [] |}.
Definition v_after (op : k_op) (v : separate) : separate :=
  match op with
  | KOp LNew => {| how_many := S (how_many v); holds_now := holds_now v |}
  | KOp op => {| how_many := how_many v; holds_now := fun d => after op d (holds_now v d) |}
  | KCopy c => {| how_many := S (how_many v);
                  holds_now := fun d => if Nat.eqb d (how_many v) then holds_now v c else holds_now v d |}
  end.
Definition v_answer (v : separate) (op : k_op) : l_answer :=
  match op with KOp op => ask (holds_now v) op | KCopy _ => LNone end.
Fixpoint v_answers (v : separate) (ops : list k_op) : list l_answer :=
  match ops with
  | [] => []
  | op :: ops' => v_answer v op :: v_answers (v_after op v) ops'
  end.

(** An answer without the values: keys, order and sizes only. *)
Definition keys_only (a : l_answer) : l_answer :=
  match a with
  | LVal _ => LNone
  | LList l => LList (map (fun e => (fst e, None)) l)
  | a => a
  end.
Definition takes (op : k_op) : bool := match op with KOp (LTake _ _) => true | _ => false end.

Definition wfs (s : shared) : Prop := forall c, Forall (fun a => (a < length (tab s))%nat) (ids s c).

Lemma ids_replace c d A (L : list (list nat)) : (c < length L)%nat -> nth d (replace c A L) [] = if Nat.eqb d c then A else nth d L [].
Proof. intros H. destruct (Nat.eqb_spec d c) as [->|Hd]; [now apply nth_replace_same|]. apply nth_replace_other. congruence. Qed.

Lemma ent_app t t' a : (a < length t)%nat -> ent (t ++ t') a = ent t a.
Proof. intros H. unfold ent. now apply app_nth1. Qed.
Lemma ents_app t t' A : Forall (fun a => (a < length t)%nat) A -> map (ent (t ++ t')) A = map (ent t) A.
Proof. intros H. apply map_ext_in. intros a Ha. apply ent_app. now apply (proj1 (Forall_forall _ _) H). Qed.
Lemma ents_new t t' : forall n, n = length t' -> map (ent (t ++ t')) (seq (length t) n) = t'.
Proof.
  intros n ->. rewrite <- (map_id t') at 3. revert t. induction t' as [|e t' IH]; intros t; [reflexivity|].
  cbn [length seq map]. f_equal.
  - unfold ent. rewrite app_nth2 by lia. now rewrite Nat.sub_diag.
  - replace (t ++ e :: t') with ((t ++ [e]) ++ t') by now rewrite <- app_assoc.
    replace (S (length t)) with (length (t ++ [e])) by (rewrite app_length; cbn; lia). rewrite IH. reflexivity.
Qed.

Lemma wfs_after op s : wfs s -> (forall c, k_uses op = Some c -> (c < length (lists s))%nat) -> wfs (s_after op s).
Proof.
  intros Hw Hu.
  assert (Hgrow : forall t' c, Forall (fun a => (a < length (tab s ++ t'))%nat) (ids s c)).
  { intros t' c. eapply Forall_impl; [|apply Hw]. intros a Ha. rewrite app_length. cbv beta in Ha. lia. }
  destruct op as [[|c k v|c|c k|c l|c l|c|c n|c k|c]|c]; cbn [s_after k_uses uses] in *; auto; try specialize (Hu c eq_refl).
  - intros d. unfold ids. cbn. destruct (Nat.lt_ge_cases d (length (lists s))).
    + rewrite app_nth1 by lia. apply Hw.
    + rewrite app_nth2 by lia. destruct (d - length (lists s))%nat as [|[|?]]; constructor.
  - intros d. unfold ids. cbn [lists tab]. rewrite ids_replace by exact Hu. destruct (Nat.eqb d c); [|apply Hgrow].
    constructor; [rewrite app_length; cbn; lia|apply Hgrow].
  - intros d. unfold ids. cbn [lists tab]. rewrite ids_replace by exact Hu. destruct (Nat.eqb d c); [constructor|apply Hw].
  - destruct (first_id _ _ _); auto. intros d. cbn. rewrite replace_length. apply Hw.
  - intros d. unfold ids. cbn [lists tab]. rewrite ids_replace by exact Hu. destruct (Nat.eqb d c); [|apply Hgrow].
    apply Forall_app. split; [|apply Hgrow]. apply Forall_forall. intros a Ha. apply in_seq in Ha. rewrite app_length. unfold filled. rewrite map_length. lia.
  - intros d. unfold ids. cbn [lists tab]. rewrite ids_replace by exact Hu. destruct (Nat.eqb d c); [|apply Hgrow].
    apply Forall_forall. intros a Ha. apply in_seq in Ha. rewrite app_length. unfold filled. rewrite map_length. lia.
  - intros d. unfold ids. cbn. destruct (Nat.lt_ge_cases d (length (lists s))).
    + rewrite app_nth1 by lia. apply Hw.
    + rewrite app_nth2 by lia. destruct (d - length (lists s))%nat as [|[|?]]; [apply Hw| constructor..].
Qed.

Lemma lists_after op s : length (lists (s_after op s)) = (length (lists s) + if k_creates op then 1 else 0)%nat.
Proof.
  destruct op as [[|c k v|c|c k|c l|c l|c|c n|c k|c]|c]; cbn [s_after k_creates]; cbn; rewrite ?app_length, ?replace_length; cbn; try lia.
  destruct (first_id _ _ _); cbn; lia.
Qed.

Lemma entries_mk t L d : entries {| tab := t; lists := L |} d = map (ent t) (nth d L []).
Proof. reflexivity. Qed.

Lemma entries_after op s : wfs s -> (forall c, uses op = Some c -> (c < length (lists s))%nat) -> takes (KOp op) = false ->
  forall d, entries (s_after (KOp op) s) d = after op d (entries s d).
Proof.
  intros Hw Hu Ht d.
  destruct op as [|c k v|c|c k|c l|c l|c|c n|c k|c]; cbn [s_after uses after] in *; auto; try discriminate; try specialize (Hu c eq_refl);
    rewrite entries_mk.
  - destruct (Nat.lt_ge_cases d (length (lists s))).
    + rewrite app_nth1 by lia. reflexivity.
    + unfold entries, ids. rewrite app_nth2 by lia. rewrite (nth_overflow (lists s)) by lia. destruct (d - length (lists s))%nat as [|[|?]]; reflexivity.
  - rewrite ids_replace by exact Hu. destruct (Nat.eqb_spec d c) as [->|]; [|apply ents_app, Hw].
    cbn [map]. f_equal; [|apply ents_app, Hw]. unfold ent. rewrite app_nth2 by lia. now rewrite Nat.sub_diag.
  - rewrite ids_replace by exact Hu. now destruct (Nat.eqb_spec d c) as [->|].
  - rewrite ids_replace by exact Hu. destruct (Nat.eqb_spec d c) as [->|]; [|apply ents_app, Hw].
    rewrite map_app. f_equal; [|apply ents_app, Hw]. apply ents_new. unfold filled. now rewrite map_length.
  - rewrite ids_replace by exact Hu. destruct (Nat.eqb_spec d c) as [->|]; [|apply ents_app, Hw].
    apply ents_new. unfold filled. now rewrite map_length.
Qed.

Lemma entries_copy c s d : entries (s_after (KCopy c) s) d = if Nat.eqb d (length (lists s)) then entries s c else entries s d.
Proof.
  cbn [s_after]. rewrite entries_mk. destruct (Nat.eqb_spec d (length (lists s))) as [->|Hd].
  - rewrite app_nth2 by lia. now rewrite Nat.sub_diag.
  - destruct (Nat.lt_ge_cases d (length (lists s))).
    + now rewrite app_nth1 by lia.
    + unfold entries, ids. rewrite app_nth2 by lia. rewrite (nth_overflow (lists s) [] (n := d)) by lia. assert (Hm : (d - length (lists s) <> 0)%nat) by (clear - H Hd; lia). destruct (d - length (lists s))%nat as [|[|?]]; [congruence|reflexivity|reflexivity].
Qed.

Lemma emptied_keys k l : map fst (emptied k l) = map fst l.
Proof. induction l as [|[k' v] l IH]; cbn; auto. destruct (bytes_eqb k' k); cbn; congruence. Qed.

Lemma after_keys op d l l' : map fst l = map fst l' -> map fst (after op d l) = map fst (after op d l').
Proof.
  intros H. destruct op as [|c k v|c|c k|c b|c b|c|c n|c k|c]; cbn [after]; auto; destruct (Nat.eqb d c); auto.
  - cbn [map]. f_equal. exact H.
  - rewrite !emptied_keys. exact H.
  - rewrite !map_app. f_equal. exact H.
Qed.

Lemma keys_after op s : wfs s -> (forall c, uses op = Some c -> (c < length (lists s))%nat) ->
  forall d, map fst (entries (s_after (KOp op) s) d) = map fst (after op d (entries s d)).
Proof.
  intros Hw Hu d. destruct (takes (KOp op)) eqn:Et; [|now rewrite entries_after].
  destruct op as [|c k v|c|c k|c l|c l|c|c n|c k|c]; try discriminate. cbn [s_after after].
  assert (E : map fst (if (d =? c)%nat then emptied k (entries s d) else entries s d) = map fst (entries s d)).
  { destruct (Nat.eqb d c); [apply emptied_keys|reflexivity]. }
  etransitivity; [|symmetry; exact E]. destruct (first_id (tab s) k (ids s c)) as [a|]; [|reflexivity].
  unfold entries, ids. cbn [lists tab]. rewrite !map_map. apply map_ext. intros b. unfold ent.
  destruct (Nat.eq_dec a b) as [<-|Hab].
  - destruct (Nat.lt_ge_cases a (length (tab s))).
    + rewrite nth_replace_same by lia. reflexivity.
    + rewrite !nth_overflow by (rewrite ?replace_length; lia). reflexivity.
  - now rewrite nth_replace_other by congruence.
Qed.

Lemma keys_ask f g op : (forall c, map fst (f c) = map fst (g c)) -> keys_only (ask f op) = keys_only (ask g op).
Proof.
  intros H.
  assert (Hl : forall c, length (f c) = length (g c)) by (intros c; rewrite <- (map_length fst), H; apply map_length).
  destruct op; cbn; try reflexivity.
  - unfold len, entry in *. now rewrite Hl.
  - f_equal. rewrite <- !(map_map fst (fun x => (x, None : option N))). now rewrite H.
Qed.

Lemma indep_run (P : list entry -> list entry -> Prop) (Q : l_answer -> l_answer -> Prop) (ok : k_op -> bool)
  (HQ : forall f g op, (forall c, P (f c) (g c)) -> Q (ask f op) (ask g op)) (HN : Q LNone LNone)
  (HP : forall op s l d, ok (KOp op) = true -> wfs s -> (forall c, uses op = Some c -> (c < length (lists s))%nat) ->
    P (entries s d) l -> P (entries (s_after (KOp op) s) d) (after op d l)) :
  forall ops done s v, (forall op, In op ops -> ok op = true) -> wfs s -> length (lists s) = k_created done -> how_many v = k_created done ->
  (forall before op later c, done ++ ops = (done ++ before) ++ op :: later -> k_uses op = Some c -> (c < k_created (done ++ before))%nat) ->
  (forall c, P (entries s c) (holds_now v c)) -> Forall2 Q (k_answers s ops) (v_answers v ops).
Proof.
  induction ops as [|op ops IH]; intros done s v Hok Hw Hs Hv Hu He; [constructor|].
  cbn [k_answers v_answers].
  assert (Huse : forall c, k_uses op = Some c -> (c < length (lists s))%nat).
  { intros c Hc. rewrite Hs. specialize (Hu [] op ops c). rewrite app_nil_r in Hu. auto. }
  constructor.
  - destruct op as [op|c]; cbn; [now apply HQ|exact HN].
  - assert (Hcr : (k_created (done ++ [op]) = k_created done + if k_creates op then 1 else 0)%nat).
    { unfold k_created. rewrite filter_app, app_length. f_equal. cbn. now destruct (k_creates op). }
    apply (IH (done ++ [op])).
    + intros o Ho. apply Hok. now right.
    + now apply wfs_after.
    + rewrite lists_after, Hcr. lia.
    + rewrite Hcr. destruct op as [[]|]; cbn; lia.
    + intros before op' later c E. rewrite <- !app_assoc in *. cbn [app] in E |- *.
      specialize (Hu (op :: before) op' later c). rewrite <- app_assoc in Hu. cbn [app] in Hu. intros H. apply Hu; auto.
    + intros d. destruct op as [op|c].
      * specialize (HP op s (holds_now v d) d (Hok _ (or_introl eq_refl)) Hw Huse (He d)). destruct op; exact HP.
      * rewrite entries_copy, Hs, <- Hv. cbn [v_after holds_now]. destruct (Nat.eqb d (how_many v)); auto.
Qed.

Lemma Forall2_map_eq {A B} (f : A -> B) l l' : Forall2 (fun a b => f a = f b) l l' -> map f l = map f l'.
Proof. induction 1; cbn; congruence. Qed.

(** As long as nothing is taken out with Get, copies are independent of one another:
    every answer is the one value semantics gives.  And keys, order and sizes are
    independent whatever the program does.  What is missing: values after a Get
    through another copy, see [C89_take_refuted]. *)
Theorem C89_copies_independent_partial : forall ops, k_legal ops ->
  exists w answers, k_run l_world0 ops = Ok (w, answers) /\
    map keys_only answers = map keys_only (v_answers separate0 ops) /\
    ((forall op, In op ops -> takes op = false) -> answers = v_answers separate0 ops).
Proof.
  intros ops Hl. destruct (C89_copies_share_entries ops Hl) as (w & Hr). destruct Hl as [Hu _].
  exists w, (k_answers shared0 ops). split; [exact Hr|].
  assert (W0 : wfs shared0) by (intros [|c]; constructor). split.
  - apply Forall2_map_eq. apply (indep_run (fun l l' => map fst l = map fst l') _ (fun _ => true)) with (done := []); auto; try reflexivity.
    + intros f g op H. now apply keys_ask.
    + intros op s l d _ Hw Huse E. rewrite keys_after by auto. now apply after_keys.
    + intros [|c]; reflexivity.
  - intros Ht. rewrite <- (map_id (k_answers _ _)), <- (map_id (v_answers _ _)). apply Forall2_map_eq.
    apply (indep_run eq _ (fun op => negb (takes op))) with (done := []); auto.
    + intros f g op H. destruct op; cbn; now rewrite ?H.
    + intros op s l d H Hw Huse <-. apply entries_after; auto. now destruct (takes (KOp op)).
    + intros op Ho. now rewrite Ht.
    + intros [|c]; reflexivity.
Qed.

(** Taking an entry through a copy empties it in the original: the copy is not
    independent of the container it was made from. *)
Theorem C89_take_refuted : exists ops, k_legal ops /\
  forall w answers, k_run l_world0 ops = Ok (w, answers) -> answers <> v_answers separate0 ops.
Proof.
  exists [KOp LNew; KOp (LInsert 0 key1 10); KCopy 0; KOp (LTake 1 key1); KOp (LLookup 0 key1)]. split.
  - split; [|vm_compute; reflexivity]. intros before op later c He Hu.
    do 5 (destruct before as [|? before]; cbn [app] in He;
      [injection He as <- _; cbn in Hu; try discriminate Hu; injection Hu as <-; cbn; lia|injection He as <- He]).
    destruct before; discriminate He.
  - intros w answers H. vm_compute in H. injection H as _ <-. vm_compute. discriminate.
Qed.

(** A non-trivial case: a copy of a copy, inserts into and clears of the original and
    the copies, a block merged into one of them. *)
Definition copy_ops : list k_op :=
  [KOp LNew; KOp (LInsert 0 key1 10); KCopy 0; KOp (LInsert 0 key2 11); KOp (LInsert 1 key2 12); KCopy 1;
   KOp (LMergeBlock 2 [(key1, 13); (key2, 14)]); KOp (LClear 1); KOp (LIterate 0); KOp (LSize 1); KOp (LIterate 2);
   KOp (LLookup 2 key1); KOp (LTake 2 key2); KOp (LAt 0 0); KOp (LIterate 2)].
Example C89_met : k_legal copy_ops /\
  exists w, k_run l_world0 copy_ops =
    Ok (w, [LNone; LNone; LNone; LNone; LNone; LNone; LNone; LNone;
            LList [(key2, Some 11); (key1, Some 10)]; LNum 0;
            LList [(key1, Some 13); (key2, Some 14); (key2, Some 12); (key1, Some 10)];
            LVal (Some 13); LVal (Some 14); LVal (Some 10);
            LList [(key1, Some 13); (key2, None); (key2, Some 12); (key1, Some 10)]]).
Proof.
  split; [split; [|vm_compute; reflexivity]|eexists; vm_compute; reflexivity].
  intros before op later c He Hu.
  do 15 (destruct before as [|? before]; cbn [app copy_ops] in He;
    [injection He as <- _; cbn in Hu; try discriminate Hu; injection Hu as <-; cbn; lia|injection He as <- He]).
  destruct before; discriminate He.
Qed.
