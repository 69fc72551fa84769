(** * Property C61: linked containers behave as independent sequences. *)
From Verif Require Import Base BaseLemmas ModelLinked.
From Coq Require Import ZifyBool ZifyNat ZifyN.

(** ** Specification: each container is a list of entries, most recent first. *)
Definition entry := (bytes * option N)%type.
Definition filled (l : list (bytes * N)) : list entry := map (fun e => (fst e, Some (snd e))) l.

Fixpoint first_with (k : bytes) (l : list entry) : option N :=
  match l with
  | [] => None
  | (k', v) :: l' => if bytes_eqb k' k then v else first_with k l'
  end.
Fixpoint emptied (k : bytes) (l : list entry) : list entry :=
  match l with
  | [] => []
  | (k', v) :: l' => if bytes_eqb k' k then (k', None) :: l' else (k', v) :: emptied k l'
  end.

(** The entries of container [c] after an operation on any container. *)
Definition after (op : l_op) (c : nat) (l : list entry) : list entry :=
  match op with
  | LInsert c' k v => if Nat.eqb c c' then (k, Some v) :: l else l
  | LClear c' => if Nat.eqb c c' then [] else l
  | LTake c' k => if Nat.eqb c c' then emptied k l else l
  | LMergeBlock c' b => if Nat.eqb c c' then filled b ++ l else l
  | LParse c' b => if Nat.eqb c c' then filled b else l
  | _ => l
  end.
(** [content ops c]: entries of container [c] after the history [ops] (oldest first). *)
Definition content (ops : list l_op) (c : nat) : list entry := fold_left (fun l op => after op c l) ops [].

Definition answer (ops : list l_op) (op : l_op) : l_answer :=
  match op with
  | LTake c k | LLookup c k => LVal (first_with k (content ops c))
  | LSize c => LNum (len (content ops c))
  | LAt c n => LVal (match nth_error (rev (content ops c)) (N.to_nat n) with Some e => snd e | None => None end)
  | LIterate c => LList (content ops c)
  | _ => LNone
  end.

(** Containers exist before they are used, and fewer than 2^64 entries are made. *)
Definition uses (op : l_op) : option nat :=
  match op with
  | LNew => None
  | LInsert c _ _ | LClear c | LTake c _ | LMergeBlock c _ | LParse c _
  | LSize c | LAt c _ | LLookup c _ | LIterate c => Some c
  end.
Definition created (ops : list l_op) : nat := length (filter (fun op => match op with LNew => true | _ => false end) ops).
Definition made (op : l_op) : N :=
  match op with LInsert _ _ _ => 1 | LMergeBlock _ l | LParse _ l => len l | _ => 0 end.
Definition entries_made (ops : list l_op) : N := fold_right (fun op n => made op + n) 0 ops.
Definition legal (ops : list l_op) : Prop :=
  (forall before op later c, ops = before ++ op :: later -> uses op = Some c -> (c < created before)%nat) /\
  entries_made ops < 2 ^ 64.

Lemma NoDup_append {A} (l l' : list A) : NoDup l -> NoDup l' -> (forall x, In x l -> In x l' -> False) -> NoDup (l ++ l').
Proof.
  induction 1 as [|x l Hx HN IH]; intros H' Hd; [exact H'|]. cbn. constructor.
  - intros Hin. apply in_app_or in Hin as [Hin|Hin]; [contradiction|]. apply (Hd x); auto. now left.
  - apply IH; auto. intros y Hy Hy'. apply (Hd y); auto. now right.
Qed.

(** ** Chains of items *)
Inductive chain (h : items_heap) : ptr -> list nat -> list entry -> Prop :=
| ch_nil : chain h None [] []
| ch_cons a i A E : nth_error h a = Some i -> chain h (i_next i) A E ->
    chain h (Some a) (a :: A) ((i_key i, i_val i) :: E).

Lemma chain_frame h h' p A E : (forall a, In a A -> nth_error h' a = nth_error h a) -> chain h p A E -> chain h' p A E.
Proof.
  intros Hf H. induction H as [|a i A E Hn H IH]; [constructor|].
  constructor; [rewrite Hf by (now left); exact Hn|]. apply IH. intros b Hb. apply Hf. now right.
Qed.

Lemma chain_bound h p A E : chain h p A E -> forall a, In a A -> (a < length h)%nat.
Proof.
  induction 1 as [|a i A E Hn H IH]; intros b Hb; [contradiction|]. destruct Hb as [<-|Hb]; auto.
  apply nth_error_Some. congruence.
Qed.

Lemma chain_len h p A E : chain h p A E -> length A = length E.
Proof. induction 1; cbn; congruence. Qed.

Lemma chain_fuel h p A E : chain h p A E -> NoDup A -> (length E <= length h)%nat.
Proof.
  intros H HN. rewrite <- (chain_len _ _ _ _ H).
  rewrite <- (seq_length (length h) 0). apply NoDup_incl_length; [exact HN|].
  intros a Ha. apply in_seq. pose proof (chain_bound _ _ _ _ H a Ha). lia.
Qed.

Lemma replace_length {A} n (x : A) l : length (replace n x l) = length l.
Proof. revert n. induction l as [|y l IH]; intros [|n]; cbn; auto. Qed.
Lemma replace_same {A} n (x : A) l : (n < length l)%nat -> nth_error (replace n x l) n = Some x.
Proof. revert n. induction l as [|y l IH]; intros [|n] H; cbn in *; try lia; auto. apply IH. lia. Qed.
Lemma replace_other {A} n m (x : A) l : n <> m -> nth_error (replace n x l) m = nth_error l m.
Proof. revert n m. induction l as [|y l IH]; intros [|n] [|m] H; cbn; auto; try congruence. Qed.

Lemma load_ok h a i : nth_error h a = Some i -> load h (Some a) = Ok i.
Proof. intros H. cbn. now rewrite H. Qed.
Lemma save_ok h a i : (a < length h)%nat -> save h (Some a) i = Ok (replace a i h).
Proof. intros H. unfold save. destruct (Nat.ltb_spec a (length h)); [reflexivity|lia]. Qed.

Lemma set_next_ok h a q i : nth_error h a = Some i ->
  set_next h (Some a) q = Ok (replace a {| i_key := i_key i; i_val := i_val i; i_next := q |} h).
Proof.
  intros H. unfold set_next. rewrite (load_ok h a i H). cbn [obind]. apply save_ok. apply nth_error_Some. congruence.
Qed.

Lemma nth_app_new {A} (h : list A) x : nth_error (h ++ [x]) (length h) = Some x.
Proof. rewrite nth_error_app2 by lia. now rewrite Nat.sub_diag. Qed.

(** *** Queries *)
Lemma search_ok h key p A E : chain h p A E -> forall fuel, (length E <= fuel)%nat ->
  exists q, l_search h fuel p key = Ok q /\
    match q with
    | None => first_with key E = None /\ emptied key E = E
    | Some a => In a A /\ exists i, nth_error h a = Some i /\ first_with key E = i_val i /\
        (NoDup A -> chain (replace a {| i_key := i_key i; i_val := None; i_next := i_next i |} h) p A (emptied key E))
    end.
Proof.
  induction 1 as [|a i A E Hn H IH]; intros fuel Hf; [exists None; destruct fuel; auto|].
  cbn in Hf. destruct fuel as [|f]; [lia|]. cbn [l_search]. rewrite (load_ok h a i Hn). cbn [obind].
  cbn [first_with emptied]. destruct (bytes_eqb (i_key i) key) eqn:Hk.
  - exists (Some a). split; [reflexivity|]. split; [now left|]. exists i. split; [exact Hn|]. split; [reflexivity|].
    intros HN. inversion HN; subst.
    apply (ch_cons _ a {| i_key := i_key i; i_val := None; i_next := i_next i |}).
    + apply replace_same. apply nth_error_Some. congruence.
    + cbn. eapply chain_frame; [|exact H]. intros b Hb. apply replace_other. intros ->. contradiction.
  - destruct (IH f) as (q & Hq & Hm); [lia|]. exists q. split; [exact Hq|]. destruct q as [b|].
    + destruct Hm as (Hb & j & Hj & Hv & Hc). split; [now right|]. exists j. split; [exact Hj|]. split; [exact Hv|].
      intros HN. inversion HN as [|? ? Hni HN']; subst. constructor; [|now apply Hc].
      rewrite replace_other; [exact Hn|]. intros ->. contradiction.
    + destruct Hm as [Hm1 Hm2]. split; [exact Hm1|]. now rewrite Hm2.
Qed.

Lemma iterate_ok h p A E : chain h p A E -> forall fuel, (length E <= fuel)%nat -> l_iterate h fuel p = Ok E.
Proof.
  induction 1 as [|a i A E Hn H IH]; intros fuel Hf; [destruct fuel; reflexivity|].
  cbn in Hf. destruct fuel as [|f]; [lia|]. cbn [l_iterate]. rewrite (load_ok h a i Hn). cbn [obind].
  rewrite (IH f) by lia. reflexivity.
Qed.

Lemma walk_ok h p A E : chain h p A E -> forall n, (n < length E)%nat ->
  exists a i, l_walk h n p = Ok (Some a) /\ nth_error h a = Some i /\ nth_error E n = Some (i_key i, i_val i).
Proof.
  induction 1 as [|a i A E Hn H IH]; intros n Hl; [cbn in Hl; lia|].
  destruct n as [|n]; [exists a, i; auto|]. cbn [l_walk]. rewrite (load_ok h a i Hn). cbn [obind].
  apply IH. cbn in Hl. lia.
Qed.

Lemma nth_rev {A} (l : list A) n : (n < length l)%nat -> nth_error (rev l) n = nth_error l (length l - 1 - n).
Proof.
  intros H. destruct (nth_error l (length l - 1 - n)) as [x|] eqn:E.
  - assert (Hd : nth n (rev l) x = x).
    { rewrite rev_nth by exact H. replace (length l - S n)%nat with (length l - 1 - n)%nat by lia. now apply nth_error_nth. }
    transitivity (Some (nth n (rev l) x)); [|now rewrite Hd].
    apply nth_error_nth'. now rewrite rev_length.
  - apply nth_error_None in E. lia.
Qed.

Lemma at_ok h c A E n : chain h (c_last c) A E -> c_size c = len E ->
  l_at h c n = Ok (match nth_error (rev E) (N.to_nat n) with Some e => snd e | None => None end).
Proof.
  intros H Hs. unfold l_at. rewrite Hs. unfold len. destruct (N.leb_spec (N.of_nat (length E)) n) as [Hl|Hl].
  - assert (nth_error (rev E) (N.to_nat n) = None) as ->; [apply nth_error_None; rewrite rev_length; lia|reflexivity].
  - rewrite nth_rev by lia.
    destruct (walk_ok h _ A E H (length E - 1 - N.to_nat n)) as (a & i & Hw & Hn & He); [lia|].
    replace (N.to_nat (N.of_nat (length E) - 1 - n)) with (length E - 1 - N.to_nat n)%nat by lia.
    rewrite Hw. cbn [obind]. rewrite (load_ok h a i Hn). cbn [obind]. now rewrite He.
Qed.

(** *** Tail appending *)
Lemma append_ok l : forall h head tail A E a,
  chain h head (A ++ [a]) E -> NoDup (A ++ [a]) -> tail = Some a ->
  (forall i, nth_error h a = Some i -> i_next i = None) ->
  exists h' A' a', l_append h head tail l = Ok (h', head, Some a') /\
    chain h' head (A' ++ [a']) (E ++ filled l) /\ NoDup (A' ++ [a']) /\
    (forall i, nth_error h' a' = Some i -> i_next i = None) /\
    (length h <= length h')%nat /\
    (forall b, (b < length h)%nat -> ~ In b (A ++ [a]) -> nth_error h' b = nth_error h b) /\
    (forall b, In b (A' ++ [a']) -> In b (A ++ [a]) \/ (length h <= b)%nat) /\
    A' ++ [a'] = (A ++ [a]) ++ seq (length h) (length l).
Proof.
  induction l as [|[k v] l IH]; intros h head tail A E a HC HN -> Hlast.
  - exists h, A, a. cbn. rewrite !app_nil_r. repeat split; auto.
  - cbn [l_append new_item].
    set (h1 := h ++ [{| i_key := k; i_val := Some v; i_next := None |}]).
    assert (Ha : (a < length h)%nat) by (apply (chain_bound _ _ _ _ HC); apply in_or_app; right; now left).
    destruct (nth_error h a) as [i|] eqn:Hi; [|apply nth_error_None in Hi; lia].
    assert (Hhead : exists hd, head = Some hd).
    { inversion HC as [E1 E2|hd ? ? ? ? ? E1]; [destruct A; discriminate|]. exists hd. reflexivity. }
    destruct Hhead as (hd & ->).
    assert (Hi1 : nth_error h1 a = Some i) by (unfold h1; now rewrite nth_error_app1).
    rewrite (set_next_ok h1 a (Some (length h)) i Hi1). cbn [obind].
    set (h2 := replace a _ h1).
    destruct (IH h2 (Some hd) (Some (length h)) (A ++ [a]) (E ++ [(k, Some v)]) (length h)) as (h' & A' & a' & Hrun & HC' & HN' & Hl' & Hlen & Hfr & Hin & Hseq); auto.
    + (* the longer chain *)
      assert (Hbound : forall b, In b (A ++ [a]) -> (b < length h)%nat) by (apply (chain_bound _ _ _ _ HC)).
      assert (HX : forall p B F, chain h p (B ++ [a]) F -> NoDup (B ++ [a]) -> (forall b, In b (B ++ [a]) -> (b < length h)%nat) ->
        chain h2 p ((B ++ [a]) ++ [length h]) (F ++ [(k, Some v)])).
      { clear -Hi Hi1 Hlast Ha. intros p B. revert p. induction B as [|b B IHB]; intros p F HC HN HB; cbn in *.
        - inversion HC as [|? j ? ? Hj HC']; subst. rewrite Hi in Hj. injection Hj as <-. inversion HC'; subst.
          apply (ch_cons h2 a {| i_key := i_key i; i_val := i_val i; i_next := Some (length h) |}).
          + unfold h2. apply replace_same. unfold h1. rewrite app_length. lia.
          + cbn. apply (ch_cons h2 (length h) {| i_key := k; i_val := Some v; i_next := None |}).
            * unfold h2. rewrite replace_other by lia. unfold h1. apply nth_app_new.
            * constructor.
        - inversion HC as [|? j ? F' Hj HC']; subst. inversion HN as [|? ? Hni HN']; subst. cbn.
          apply (ch_cons h2 b j).
          + unfold h2. rewrite replace_other; [|intros ->; apply Hni; apply in_or_app; right; now left].
            unfold h1. rewrite nth_error_app1; [exact Hj|]. apply HB. now left.
          + apply IHB; auto. }
      now apply HX.
    + apply NoDup_append; [exact HN|constructor; [intros []|constructor]|]. intros b Hb [<-|[]].
      pose proof (chain_bound _ _ _ _ HC _ Hb). lia.
    + unfold h2. intros j Hj. rewrite replace_other in Hj by lia. unfold h1 in Hj. rewrite nth_app_new in Hj.
      injection Hj as <-. reflexivity.
    + exists h', A', a'. split; [exact Hrun|]. split; [cbn [filled map fst snd]; now rewrite <- app_assoc in HC'|].
      split; [exact HN'|]. split; [exact Hl'|].
      assert (Hl2 : length h2 = S (length h)) by (unfold h2, h1; rewrite replace_length, app_length; cbn; lia).
      split; [lia|]. split; [|split].
      * intros b Hb Hnb. rewrite Hfr; [|lia|].
        -- unfold h2. rewrite replace_other; [|intros ->; apply Hnb; apply in_or_app; right; now left].
           unfold h1. now rewrite nth_error_app1.
        -- intros Hb'. apply in_app_or in Hb' as [Hb'|[Hb'|[]]]; [contradiction|lia].
      * intros b Hb. destruct (Hin b Hb) as [Hb'|Hb']; [|right; lia].
        apply in_app_or in Hb' as [Hb'|[Hb'|[]]]; [now left|right; lia].
      * rewrite Hseq, Hl2, <- app_assoc. reflexivity.
Qed.

Lemma build_ok h l : 
  exists h' head tail A, l_append h None None l = Ok (h', head, tail) /\
    chain h' head A (filled l) /\ NoDup A /\
    (forall b, (b < length h)%nat -> nth_error h' b = nth_error h b) /\ (length h <= length h')%nat /\
    (forall b, In b A -> (length h <= b)%nat) /\
    A = seq (length h) (length l) /\
    match l with
    | [] => head = None /\ tail = None
    | _ => exists A0 a, A = A0 ++ [a] /\ tail = Some a
    end.
Proof.
  destruct l as [|[k v] l]; [exists h, None, None, []; repeat split; auto; try constructor; try (intros b []) |].
  cbn [l_append new_item].
  set (h1 := h ++ [{| i_key := k; i_val := Some v; i_next := None |}]).
  destruct (append_ok l h1 (Some (length h)) (Some (length h)) [] [(k, Some v)] (length h)) as (h' & A & a & Hrun & HC & HN & _ & Hlen & Hfr & Hin & Hseq).
  - cbn. apply (ch_cons h1 (length h) {| i_key := k; i_val := Some v; i_next := None |}); [apply nth_app_new|constructor].
  - cbn. constructor; [intros []|constructor].
  - reflexivity.
  - intros i Hi. unfold h1 in Hi. rewrite nth_app_new in Hi. injection Hi as <-. reflexivity.
  - exists h', (Some (length h)), (Some a), (A ++ [a]). split; [exact Hrun|]. split; [exact HC|]. split; [exact HN|].
    assert (Hl1 : length h1 = S (length h)) by (unfold h1; rewrite app_length; cbn; lia).
    split; [|split; [lia|split; [|split; [rewrite Hseq, Hl1; reflexivity|exists A, a; auto]]]].
    + intros b Hb. rewrite Hfr; [unfold h1; now rewrite nth_error_app1|lia|]. cbn. lia.
    + intros b Hb. destruct (Hin b Hb) as [Hb'|Hb']; [|lia]. cbn in Hb'. destruct Hb' as [<-|[]]. lia.
Qed.

(** Linking a chain in front of another. *)
Lemma link_ok h p q A a B E F : chain h p (A ++ [a]) E -> chain h q B F ->
  NoDup (A ++ [a]) -> (forall b, In b (A ++ [a]) -> In b B -> False) ->
  exists h', set_next h (Some a) q = Ok h' /\ length h' = length h /\ chain h' p ((A ++ [a]) ++ B) (E ++ F) /\
    (forall b, b <> a -> nth_error h' b = nth_error h b).
Proof.
  intros HC HQ HN Hd.
  assert (Ha : (a < length h)%nat) by (apply (chain_bound _ _ _ _ HC); apply in_or_app; right; now left).
  destruct (nth_error h a) as [i|] eqn:Hi; [|apply nth_error_None in Hi; lia].
  rewrite (set_next_ok h a q i Hi). eexists. split; [reflexivity|]. split; [apply replace_length|].
  set (h2 := replace a _ h).
  split; [|intros b Hb; apply replace_other; congruence].
  assert (HQ' : chain h2 q B F).
  { eapply chain_frame; [|exact HQ]. intros b Hb. apply replace_other. intros <-. apply (Hd a); [apply in_or_app; right; now left|exact Hb]. }
  clear Hd HQ. revert p E HC HN. induction A as [|b A IH]; intros p E HC HN; cbn in *.
  - inversion HC as [|? j ? ? Hj HC']; subst. rewrite Hi in Hj. injection Hj as <-. inversion HC'; subst.
    apply (ch_cons h2 a {| i_key := i_key i; i_val := i_val i; i_next := q |}); [now apply replace_same|exact HQ'].
  - inversion HC as [|? j ? F' Hj HC']; subst. inversion HN as [|? ? Hni HN']; subst. cbn.
    apply (ch_cons h2 b j).
    + unfold h2. rewrite replace_other; [exact Hj|intros ->; apply Hni; apply in_or_app; right; now left].
    + apply IH; auto.
Qed.

(** ** The invariant *)
Record holds (h : items_heap) (x : cont) (A : list nat) (E : list entry) : Prop := {
  hd_chain : chain h (c_last x) A E;
  hd_nodup : NoDup A;
  hd_size : c_size x = len E
}.

Definition inv (w : l_world) (abs : nat -> list entry) : Prop :=
  exists own : nat -> list nat,
    (forall c x, nth_error (l_conts w) c = Some x -> holds (l_heap w) x (own c) (abs c)) /\
    (forall c c' a, In a (own c) -> In a (own c') -> c = c') /\
    (forall c, (length (l_conts w) <= c)%nat -> own c = [] /\ abs c = []).

Lemma inv_update w abs c x A E h' x' A' E' own :
  (forall c x, nth_error (l_conts w) c = Some x -> holds (l_heap w) x (own c) (abs c)) ->
  (forall c c' a, In a (own c) -> In a (own c') -> c = c') ->
  (forall c, (length (l_conts w) <= c)%nat -> own c = [] /\ abs c = []) ->
  nth_error (l_conts w) c = Some x -> own c = A -> abs c = E ->
  holds h' x' A' E' ->
  (forall b, (b < length (l_heap w))%nat -> ~ In b A -> nth_error h' b = nth_error (l_heap w) b) ->
  (forall b, In b A' -> In b A \/ (length (l_heap w) <= b)%nat) ->
  inv {| l_heap := h'; l_conts := replace c x' (l_conts w) |} (fun d => if Nat.eqb d c then E' else abs d).
Proof.
  intros H1 H2 H3 Hc HA HE HH Hfr Hfresh.
  exists (fun d => if Nat.eqb d c then A' else own d). cbn [l_heap l_conts]. split; [|split].
  - intros d y Hd. destruct (Nat.eqb_spec d c) as [->|Hdc].
    + rewrite replace_same in Hd by (apply nth_error_Some; congruence). injection Hd as <-. exact HH.
    + rewrite replace_other in Hd by congruence. destruct (H1 d y Hd) as [G1 G2 G3]. split; auto.
      eapply chain_frame; [|exact G1]. intros b Hb. apply Hfr; [eapply chain_bound; eauto|].
      intros Hb'. rewrite <- HA in Hb'. apply Hdc. eapply H2; eauto.
  - assert (Hout : forall d b, d <> c -> In b (own d) -> In b A' -> False).
    { intros d b Hdc Hb Hb'. destruct (Hfresh b Hb') as [Hb2|Hb2].
      - rewrite <- HA in Hb2. apply Hdc. eapply H2; eauto.
      - destruct (nth_error (l_conts w) d) as [y|] eqn:Hy.
        + destruct (H1 d y Hy) as [G1 _ _]. pose proof (chain_bound _ _ _ _ G1 b Hb). lia.
        + apply nth_error_None in Hy. destruct (H3 d Hy) as [E0 _]. rewrite E0 in Hb. contradiction. }
    intros d d' b Hb Hb'. destruct (Nat.eqb_spec d c) as [->|Hd]; destruct (Nat.eqb_spec d' c) as [->|Hd']; auto.
    + exfalso. eapply (Hout d' b); eauto.
    + exfalso. eapply (Hout d b); eauto.
    + eapply H2; eauto.
  - intros d Hd. rewrite replace_length in Hd. destruct (Nat.eqb_spec d c) as [->|Hdc]; [|now apply H3].
    assert (c < length (l_conts w))%nat by (apply nth_error_Some; congruence). lia.
Qed.

Lemma inv_abs_ext w abs abs' : (forall c, abs' c = abs c) -> inv w abs -> inv w abs'.
Proof.
  intros He (own & H1 & H2 & H3). exists own. split; [|split]; auto.
  - intros c x Hx. rewrite He. auto.
  - intros c Hc. rewrite He. auto.
Qed.

Definition ask (abs : nat -> list entry) (op : l_op) : l_answer :=
  match op with
  | LTake c k | LLookup c k => LVal (first_with k (abs c))
  | LSize c => LNum (len (abs c))
  | LAt c n => LVal (match nth_error (rev (abs c)) (N.to_nat n) with Some e => snd e | None => None end)
  | LIterate c => LList (abs c)
  | _ => LNone
  end.

Lemma filled_len l : len (filled l) = len l.
Proof. unfold len, filled. now rewrite map_length. Qed.
Lemma emptied_len k l : len (emptied k l) = len l.
Proof. unfold len. f_equal. induction l as [|[k' v] l IH]; cbn; auto. destruct (bytes_eqb k' k); cbn; auto. Qed.

Lemma after_len op c l : len (after op c l) <= len l + made op.
Proof.
  destruct op; cbn [after made]; try lia; destruct (Nat.eqb c c0); try lia.
  - unfold len. cbn. lia.
  - unfold len. cbn. lia.
  - rewrite emptied_len. lia.
  - rewrite len_app, filled_len. lia.
  - rewrite filled_len. lia.
Qed.

Lemma step_ok w abs op : inv w abs ->
  (forall c, uses op = Some c -> (c < length (l_conts w))%nat) ->
  (forall c, len (abs c) + made op < 2 ^ 64) ->
  exists w', l_step w op = Ok (w', ask abs op) /\ inv w' (fun c => after op c (abs c)) /\
    length (l_conts w') = (length (l_conts w) + match op with LNew => 1 | _ => 0 end)%nat.
Proof.
  intros (own & H1 & H2 & H3) Hu Hsz. pose proof (fun c => Hsz c) as Hsz'.
  assert (Hget : forall c, uses op = Some c -> exists x, nth_error (l_conts w) c = Some x /\ holds (l_heap w) x (own c) (abs c)).
  { intros c Hc. specialize (Hu c Hc). destruct (nth_error (l_conts w) c) as [x|] eqn:Hx; [|apply nth_error_None in Hx; lia].
    exists x. split; [reflexivity|auto]. }
  assert (Hinv : inv w abs) by (exists own; auto).
  destruct op as [|c k v|c|c k|c l|c l|c|c n|c k|c]; cbn [l_step made ask] in *;
    try (destruct (Hget c eq_refl) as (x & Hx & [HC HN HS])).
  - eexists. split; [reflexivity|]. cbn [l_conts]. rewrite app_length. cbn [length]. split; [|lia].
    exists own. cbn [l_conts l_heap]. split; [|split].
    + intros d y Hd. destruct (Nat.lt_ge_cases d (length (l_conts w))) as [Hl|Hl].
      * rewrite nth_error_app1 in Hd by exact Hl. cbn. auto.
      * rewrite nth_error_app2 in Hd by exact Hl. destruct (d - length (l_conts w))%nat as [|m] eqn:Hm; [|destruct m; discriminate].
        injection Hd as <-. destruct (H3 d Hl) as [-> ->]. cbn. split; [constructor|constructor|reflexivity].
    + exact H2.
    + intros d Hd. rewrite app_length in Hd. cbn in Hd. cbn. apply H3. lia.
  - (* Insert *)
    rewrite Hx.
    set (h1 := l_heap w ++ [{| i_key := k; i_val := Some v; i_next := None |}]).
    assert (Hnew : nth_error h1 (length (l_heap w)) = Some {| i_key := k; i_val := Some v; i_next := None |}) by apply nth_app_new.
    assert (Hsz1 : u64 (c_size x + 1) = len ((k, Some v) :: abs c)).
    { rewrite HS. unfold u64. rewrite N.mod_small; [unfold len, entry in *; cbn [length]; lia|]. specialize (Hsz c). unfold len, entry in *. change W64 with (2 ^ 64). lia. }
    assert (Hres : exists h', l_Insert (l_heap w) x k v = Ok (h', {| c_last := Some (length (l_heap w)); c_size := u64 (c_size x + 1) |}) /\
        chain h' (Some (length (l_heap w))) (length (l_heap w) :: own c) ((k, Some v) :: abs c) /\
        (forall b, (b < length (l_heap w))%nat -> nth_error h' b = nth_error (l_heap w) b)).
    { unfold l_Insert. cbn [new_item]. fold h1. destruct (c_last x) as [a|] eqn:Hl.
      - rewrite (set_next_ok h1 _ (Some a) _ Hnew). cbn [obind]. eexists. split; [reflexivity|].
        set (h2 := replace _ _ h1).
        assert (Hfr : forall b, (b < length (l_heap w))%nat -> nth_error h2 b = nth_error (l_heap w) b).
        { intros b Hb. unfold h2. rewrite replace_other by lia. unfold h1. now rewrite nth_error_app1. }
        split; [|exact Hfr].
        apply (ch_cons h2 (length (l_heap w)) {| i_key := k; i_val := Some v; i_next := Some a |}).
        + unfold h2. apply replace_same. unfold h1. rewrite app_length. cbn. lia.
        + cbn. eapply chain_frame; [|exact HC]. intros b Hb. apply Hfr. eapply chain_bound; eauto.
      - exists h1. split; [reflexivity|].
        assert (Hfr : forall b, (b < length (l_heap w))%nat -> nth_error h1 b = nth_error (l_heap w) b).
        { intros b Hb. unfold h1. now rewrite nth_error_app1. }
        split; [|exact Hfr].
        apply (ch_cons h1 (length (l_heap w)) {| i_key := k; i_val := Some v; i_next := None |}); [exact Hnew|].
        cbn. eapply chain_frame; [|exact HC]. intros b Hb. apply Hfr. eapply chain_bound; eauto. }
    destruct Hres as (h' & -> & HC' & Hfr). cbn [obind].
    eexists. split; [reflexivity|]. cbn [l_conts]. rewrite replace_length. split; [|lia].
    eapply inv_abs_ext; [|eapply (inv_update w abs c x _ _ h' _ (length (l_heap w) :: own c) ((k, Some v) :: abs c) own); eauto].
    + intros d. cbn. destruct (Nat.eqb_spec d c) as [->|]; reflexivity.
    + split; cbn [c_last c_size]; auto. constructor; auto. intros Hb. pose proof (chain_bound _ _ _ _ HC _ Hb). lia.
    + intros b [<-|Hb]; auto.
  - (* Clear *)
    rewrite Hx. eexists. split; [reflexivity|]. cbn [l_conts]. rewrite replace_length. split; [|lia].
    eapply inv_abs_ext; [|eapply (inv_update w abs c x _ _ (l_heap w) _ [] [] own); eauto].
    + intros d. cbn. destruct (Nat.eqb_spec d c) as [->|]; reflexivity.
    + split; [constructor|constructor|reflexivity].
    + intros b [].
  - (* Take *)
    rewrite Hx. unfold l_take.
    destruct (search_ok (l_heap w) k _ _ _ HC (S (length (l_heap w)))) as (q & Hq & Hm).
    { pose proof (chain_fuel _ _ _ _ HC HN). lia. }
    rewrite Hq. cbn [obind]. destruct q as [a|].
    + destruct Hm as (Ha & i & Hi & Hv & Hc'). rewrite (load_ok _ a i Hi). cbn [obind].
      rewrite save_ok by (apply nth_error_Some; congruence). cbn [obind]. rewrite Hv.
      eexists. split; [reflexivity|]. cbn [l_conts]. rewrite replace_length. split; [|lia].
      eapply inv_abs_ext; [|eapply (inv_update w abs c x _ _ _ x (own c) (emptied k (abs c)) own); eauto].
      * intros d. cbn. destruct (Nat.eqb_spec d c) as [->|]; reflexivity.
      * split; [now apply Hc'|exact HN|]. rewrite emptied_len. exact HS.
      * intros b Hb Hnb. apply replace_other. intros <-. contradiction.
    + destruct Hm as [Hm1 Hm2]. rewrite Hm1. eexists. split; [reflexivity|]. cbn [l_conts]. rewrite replace_length. split; [|lia].
      eapply inv_abs_ext; [|eapply (inv_update w abs c x _ _ _ x (own c) (abs c) own); eauto].
      * intros d. cbn. destruct (Nat.eqb_spec d c) as [->|]; auto.
  - (* MergeBlock *)
    rewrite Hx. destruct (build_ok (l_heap w) l) as (h1 & head & tail & A & Hrun & HCb & HNb & Hfr & Hlen & Hin & _ & Hshape).
    rewrite Hrun. cbn [obind].
    assert (HC1 : chain h1 (c_last x) (own c) (abs c)).
    { eapply chain_frame; [|exact HC]. intros b Hb. apply Hfr. eapply chain_bound; eauto. }
    destruct l as [|e l].
    + destruct Hshape as [-> ->]. cbn [l_Merge obind]. inversion HCb; subst.
      eexists. split; [reflexivity|]. cbn [l_conts]. rewrite replace_length. split; [|lia].
      eapply inv_abs_ext; [|eapply (inv_update w abs c x _ _ h1 x (own c) (abs c) own); eauto].
      * intros d. cbn. destruct (Nat.eqb_spec d c) as [->|]; reflexivity.
      * split; auto.
    + destruct Hshape as (A0 & a & -> & ->).
      destruct head as [hd|]; [|inversion HCb as [E1|]; destruct A0; discriminate E1].
      destruct (link_ok h1 (Some hd) (c_last x) A0 a (own c) (filled (e :: l)) (abs c)) as (h2 & Hset & Hl2 & HC2 & Hfr2); auto.
      { intros b Hb Hb'. pose proof (chain_bound _ _ _ _ HC _ Hb'). specialize (Hin b Hb). lia. }
      cbn [l_Merge]. rewrite Hset. cbn [obind].
      eexists. split; [reflexivity|]. cbn [l_conts]. rewrite replace_length. split; [|lia].
      eapply inv_abs_ext; [|eapply (inv_update w abs c x _ _ h2 _ ((A0 ++ [a]) ++ own c) (filled (e :: l) ++ abs c) own); eauto].
      * intros d. cbn. destruct (Nat.eqb_spec d c) as [->|]; reflexivity.
      * split; cbn [c_last c_size]; auto.
        -- apply NoDup_append; auto. intros b Hb Hb'. pose proof (chain_bound _ _ _ _ HC _ Hb'). specialize (Hin b Hb). lia.
        -- rewrite len_app, filled_len, HS. unfold u64. rewrite N.mod_small; [lia|]. change W64 with (2 ^ 64). specialize (Hsz c). lia.
      * intros b Hb Hnb. rewrite Hfr2; [now apply Hfr|]. intros ->. specialize (Hin a). rewrite in_app_iff in Hin.
        assert (length (l_heap w) <= a)%nat by (apply Hin; right; now left). lia.
      * intros b Hb. apply in_app_or in Hb as [Hb|Hb]; auto.
  - (* Parse *)
    rewrite Hx. destruct (build_ok (l_heap w) l) as (h1 & head & tail & A & Hrun & HCb & HNb & Hfr & Hlen & Hin & _).
    rewrite Hrun. cbn [obind]. eexists. split; [reflexivity|]. cbn [l_conts]. rewrite replace_length. split; [|lia].
    eapply inv_abs_ext; [|eapply (inv_update w abs c x _ _ h1 _ A (filled l) own); eauto].
    + intros d. cbn. destruct (Nat.eqb_spec d c) as [->|]; reflexivity.
    + split; cbn [c_last c_size]; auto. now rewrite filled_len.
  - rewrite Hx, HS. eexists. split; [reflexivity|]. split; [exact Hinv|lia].
  - rewrite Hx. rewrite (at_ok _ _ _ _ n HC HS). cbn [obind]. eexists. split; [reflexivity|]. split; [exact Hinv|lia].
  - rewrite Hx. unfold l_lookup.
    destruct (search_ok (l_heap w) k _ _ _ HC (S (length (l_heap w)))) as (q & Hq & Hm).
    { pose proof (chain_fuel _ _ _ _ HC HN). lia. }
    rewrite Hq. cbn [obind]. destruct q as [a|].
    + destruct Hm as (Ha & i & Hi & Hv & _). rewrite (load_ok _ a i Hi). cbn [obind]. rewrite Hv.
      eexists. split; [reflexivity|]. split; [exact Hinv|lia].
    + destruct Hm as [Hm1 _]. rewrite Hm1. eexists. split; [reflexivity|]. split; [exact Hinv|lia].
  - rewrite Hx, (iterate_ok _ _ _ _ HC).
    + cbn [obind]. eexists. split; [reflexivity|]. split; [exact Hinv|lia].
    + pose proof (chain_fuel _ _ _ _ HC HN). lia.
Qed.

Fixpoint answers (done ops : list l_op) : list l_answer :=
  match ops with
  | [] => []
  | op :: ops' => answer done op :: answers (done ++ [op]) ops'
  end.

Lemma run_ok ops : forall done w,
  inv w (content done) -> length (l_conts w) = created done ->
  (forall before op later c, done ++ ops = (done ++ before) ++ op :: later -> uses op = Some c -> (c < created (done ++ before))%nat) ->
  (forall c, len (content done c) + entries_made ops < 2 ^ 64) ->
  exists w', l_run w ops = Ok (w', answers done ops) /\ inv w' (content (done ++ ops)).
Proof.
  induction ops as [|op ops IH]; intros done w Hi Hc Hu Hm.
  - exists w. rewrite app_nil_r. auto.
  - cbn [l_run answers]. cbn [entries_made fold_right] in Hm. fold (entries_made ops) in Hm.
    destruct (step_ok w (content done) op) as (w1 & Hs & Hi1 & Hc1); auto.
    + intros c Huse. rewrite Hc. specialize (Hu [] op ops c). rewrite app_nil_r in Hu. auto.
    + intros c. specialize (Hm c). lia.
    + rewrite Hs. cbn [obind].
      assert (Hext : forall c, content (done ++ [op]) c = after op c (content done c)).
      { intros c. unfold content. now rewrite fold_left_app. }
      destruct (IH (done ++ [op]) w1) as (w2 & Hr & Hi2).
      * eapply inv_abs_ext; [exact Hext|exact Hi1].
      * rewrite Hc1, Hc. unfold created. rewrite filter_app, app_length. f_equal. destruct op; reflexivity.
      * intros before op' later c He. rewrite <- !app_assoc in *. cbn [app] in He |- *.
        specialize (Hu (op :: before) op' later c). rewrite <- app_assoc in Hu. cbn [app] in Hu. intros Huse. apply Hu; auto.
      * intros c. rewrite Hext. pose proof (after_len op c (content done c)). specialize (Hm c). lia.
      * exists w2. rewrite Hr. cbn [obind]. rewrite <- app_assoc in Hi2. cbn [app] in Hi2. split; [|exact Hi2].
        f_equal.
Qed.

(** C61.  Any program over any number of containers sharing pool memory: no null or
    dangling pointer is followed, every loop ends, and every query is answered as if
    each container were a list of its own: what one container is asked to do never
    shows in another. *)
Theorem C61_linked_containers : forall ops, legal ops ->
  exists w, l_run l_world0 ops = Ok (w, answers [] ops).
Proof.
  intros ops [Hu Hm]. destruct (run_ok ops [] l_world0) as (w & Hr & _).
  - exists (fun _ => []). cbn. split; [|split]; auto; try (intros [|c] x Hx; discriminate). intros c c' a [].
  - reflexivity.
  - exact Hu.
  - intros c. change (len (content [] c)) with 0. lia.
  - exists w. exact Hr.
Qed.

(** A non-trivial case: two containers used alternately, a block merged in front,
    an entry taken out. *)
Definition key1 : bytes := [n2b 1].
Definition key2 : bytes := [n2b 2].
Definition linked_ops : list l_op :=
  [LNew; LInsert 0 key1 10; LNew; LInsert 1 key1 20; LInsert 0 key2 11; LMergeBlock 0 [(key1, 12); (key2, 13)];
   LLookup 0 key1; LTake 0 key2; LLookup 0 key2; LIterate 1; LAt 0 3; LSize 0; LParse 1 [(key2, 7); (key2, 8)]; LIterate 0; LAt 1 0].
Example C61_met : legal linked_ops /\
  exists w, l_run l_world0 linked_ops =
    Ok (w, [LNone; LNone; LNone; LNone; LNone; LNone; LVal (Some 12); LVal (Some 13); LVal None;
            LList [(key1, Some 20)]; LVal (Some 12); LNum 4; LNone;
            LList [(key1, Some 12); (key2, None); (key2, Some 11); (key1, Some 10)]; LVal (Some 8)]).
Proof.
  split; [split; [|vm_compute; reflexivity]|eexists; vm_compute; reflexivity].
  intros before op later c He Hu.
  do 15 (destruct before as [|? before]; cbn [app linked_ops] in He;
    [injection He as <- _; cbn in Hu; try discriminate Hu; injection Hu as <-; cbn; lia|injection He as <- He]).
  destruct before; discriminate He.
Qed.
