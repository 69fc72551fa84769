(** * Property C90: the lifetime of patterns. *)
From Verif Require Import Base BaseLemmas ModelSecondary ModelPattern ModelPatternLife.
From Coq Require Import ZifyBool ZifyNat ZifyN.

(** A pattern as constructed. *)
Inductive fresh : pattern -> Prop :=
| fr_map : fresh MapPattern_new
| fr_any : fresh ArrayPattern_any
| fr_arr n : fresh (ArrayPattern_new n)
| fr_data dt : fresh (PatData dt)
| fr_or : fresh (PatOr [])
| fr_and : fresh (PatAnd []).

(** The member functions of its class. *)
Definition member_of (m : pattern) (c : pcall) : Prop :=
  match m, c with
  | PatMap _ _, PSet _ _ | PatMap _ _, PRemove _ | PatMap _ _, PSetSize _ => True
  | PatArr _ _, PSetNth _ _ => True
  | PatOr _, PPush _ | PatAnd _, PPush _ => True
  | _, _ => False
  end.

(** The pattern handed over by a call. *)
Definition handed (c : pcall) : pattern :=
  match c with PSet _ p | PSetNth _ p | PPush p => p | _ => PatNull end.

Lemma delete_all_ok l : delete_all l = Ok tt <-> Forall (eq PatNull) l.
Proof.
  induction l as [|p l IH]; cbn; [split; constructor|]. destruct p; cbn [delete_base obind]; (split; [intros H|intros H; inversion H; subst]); try discriminate.
  - constructor; [reflexivity|now apply IH].
  - now apply IH.
Qed.

Lemma delete_all_total l : delete_all l = Ok tt \/ delete_all l = UB.
Proof. induction l as [|p l IH]; cbn; [auto|]. destruct p; cbn; auto. Qed.

Lemma find_In {V} k (l : list (bytes * V)) v : assoc_find bytes_eqb k l = Some v -> In v (map snd l).
Proof. induction l as [|[k' v'] l IH]; cbn; [discriminate|]. destruct (bytes_eqb k k'); [intros [= ->]; now left|auto]. Qed.

Lemma set_In (P : pattern -> Prop) k p l : Forall P (map snd l) -> P p -> Forall P (map snd (assoc_set bytes_eqb k p l)).
Proof.
  intros H Hp. induction l as [|[k' v'] l IH]; cbn; [repeat constructor; exact Hp|]. inversion H; subst.
  destruct (bytes_eqb k k'); cbn; constructor; auto.
Qed.
Lemma erase_In (P : pattern -> Prop) k l : Forall P (map snd l) -> Forall P (map snd (kv_erase k l)).
Proof.
  intros H. induction l as [|[k' v'] l IH]; cbn; [constructor|]. inversion H; subst.
  destruct (bytes_eqb k k'); cbn; [assumption|constructor; auto].
Qed.
Lemma set_nth_In (P : pattern -> Prop) p : forall n l, Forall P l -> P p -> Forall P (set_nth n p l).
Proof. induction n as [|n IH]; intros [|x l] H Hp; cbn; inversion H; subst; constructor; auto. Qed.

Ltac same_class := intros [?|?|?|?|?]; cbn; tauto.

(** One call on a pattern without parts. *)
Lemma call_null m c : member_of m c -> Forall (eq PatNull) (parts m) -> handed c = PatNull ->
  exists m', pcall_life m c = Ok m' /\ Forall (eq PatNull) (parts m') /\ (forall c', member_of m c' <-> member_of m' c').
Proof.
  intros Hc Hm Hp. destruct m as [|sz kv|fixed slots|dt|l|l]; destruct c as [k p|k|n|n p|p]; cbn in Hc; try contradiction; cbn in Hp; subst.
  - cbn. destruct (assoc_find bytes_eqb k kv) as [old|] eqn:E.
    + apply find_In in E. cbn in Hm. rewrite Forall_forall in Hm. rewrite <- (Hm old E). cbn. eexists. split; [reflexivity|].
      split; [|same_class]. cbn. apply set_In; [now apply Forall_forall|reflexivity].
    + cbn. eexists. split; [reflexivity|]. split; [|same_class]. cbn. now apply set_In.
  - cbn. destruct (assoc_find bytes_eqb k kv) as [old|] eqn:E.
    + apply find_In in E. cbn in Hm. rewrite Forall_forall in Hm. rewrite <- (Hm old E). cbn. eexists. split; [reflexivity|].
      split; [|same_class]. cbn. apply erase_In. now apply Forall_forall.
    + cbn. eexists. split; [reflexivity|]. split; [|same_class]. cbn. now apply erase_In.
  - cbn. eexists. split; [reflexivity|]. split; [exact Hm|same_class].
  - cbn in Hm |- *. destruct (nth_error slots n) as [old|] eqn:E.
    + apply nth_error_In in E. pose proof (proj1 (Forall_forall _ _) Hm) as Hm'. rewrite <- (Hm' old E). cbn [delete_base obind setNthPattern]. destruct fixed; eexists; (split; [reflexivity|]); [|split; [exact Hm|same_class]].
      match goal with |- context [if ?b then PatArr _ _ else _] => destruct b end; cbn.
      split; [now apply set_nth_In|same_class].
      split; [exact Hm|same_class].
    + cbn. eexists. split; [reflexivity|]. split; [exact Hm|same_class].
  - cbn. eexists. split; [reflexivity|]. split; [|same_class]. cbn. apply Forall_app. split; [exact Hm|repeat constructor].
  - cbn. eexists. split; [reflexivity|]. split; [|same_class]. cbn. apply Forall_app. split; [exact Hm|repeat constructor].
Qed.

(** A part once in stays in until its deletion. *)
Definition has_part (m : pattern) : Prop := exists q, In q (parts m) /\ q <> PatNull.

Lemma set_keeps k p q (l : list (bytes * pattern)) : In q (map snd l) -> assoc_find bytes_eqb k l <> Some q -> In q (map snd (assoc_set bytes_eqb k p l)).
Proof.
  induction l as [|[k' v'] l IH]; cbn; [tauto|]. destruct (bytes_eqb k k') eqn:E; cbn.
  - intros [->|H] Hn; [congruence|now right].
  - intros [->|H] Hn; [now left|right; auto].
Qed.
Lemma set_has k p (l : list (bytes * pattern)) : In p (map snd (assoc_set bytes_eqb k p l)).
Proof. induction l as [|[k' v'] l IH]; cbn; [now left|]. destruct (bytes_eqb k k'); cbn; auto. Qed.
Lemma erase_keeps k q l : In q (map snd l) -> assoc_find bytes_eqb k l <> Some q -> In q (map snd (kv_erase k l)).
Proof.
  induction l as [|[k' v'] l IH]; cbn; [tauto|]. destruct (bytes_eqb k k') eqn:E; cbn.
  - intros [->|H] Hn; [congruence|exact H].
  - intros [->|H] Hn; [now left|right; auto].
Qed.
Lemma set_nth_keeps (p q : pattern) : forall n l, In q l -> nth_error l n <> Some q -> In q (set_nth n p l).
Proof. induction n as [|n IH]; intros [|x l]; cbn; try tauto; intros [->|H] Hn; try congruence; auto. Qed.
Lemma set_nth_has (p : pattern) : forall n l, (n < length l)%nat -> In p (set_nth n p l).
Proof. induction n as [|n IH]; intros [|x l] H; cbn in *; try lia; auto. right. apply IH. lia. Qed.

Lemma delete_cases p : delete_base p = Ok tt /\ p = PatNull \/ delete_base p = UB /\ p <> PatNull.
Proof. destruct p; cbn; auto; right; (split; [reflexivity|discriminate]). Qed.

Lemma call_part m c : member_of m c -> has_part m \/ handed c <> PatNull ->
  pcall_life m c = UB \/ exists m', pcall_life m c = Ok m' /\ has_part m' /\ (forall c', member_of m c' <-> member_of m' c').
Proof.
  intros Hc H. destruct m as [|sz kv|fixed slots|dt|l|l]; destruct c as [k p|k|n|n p|p]; cbn in Hc; try contradiction; cbn [handed] in *.
  - assert (G : pcall_life (PatMap sz kv) (PSet k p) = UB \/ (forall q, assoc_find bytes_eqb k kv = Some q -> q = PatNull) /\ pcall_life (PatMap sz kv) (PSet k p) = Ok (setPattern k p (PatMap sz kv))).
    { cbn. destruct (assoc_find bytes_eqb k kv) as [old|]; [|right; split; [discriminate|reflexivity]].
      destruct (delete_cases old) as [[E ->]|[E Hn]]; rewrite E; cbn; [right; split; [congruence|reflexivity]|now left]. }
    destruct G as [G|[Hf G]]; [now left|right]. rewrite G. eexists. split; [reflexivity|]. cbn. split; [|same_class].
    destruct H as [(q & Hq & Hn)|H]; [|exists p; split; [apply set_has|exact H]].
    exists q. split; [|exact Hn]. apply set_keeps; [exact Hq|]. intros E. apply Hn, Hf, E.
  - assert (G : pcall_life (PatMap sz kv) (PRemove k) = UB \/ (forall q, assoc_find bytes_eqb k kv = Some q -> q = PatNull) /\ pcall_life (PatMap sz kv) (PRemove k) = Ok (removePattern k (PatMap sz kv))).
    { cbn. destruct (assoc_find bytes_eqb k kv) as [old|]; [|right; split; [discriminate|reflexivity]].
      destruct (delete_cases old) as [[E ->]|[E Hn]]; rewrite E; cbn; [right; split; [congruence|reflexivity]|now left]. }
    destruct G as [G|[Hf G]]; [now left|right]. rewrite G. eexists. split; [reflexivity|]. cbn. split; [|same_class].
    destruct H as [(q & Hq & Hn)|H]; [|congruence].
    exists q. split; [|exact Hn]. apply erase_keeps; [exact Hq|]. intros E. apply Hn, Hf, E.
  - right. eexists. split; [reflexivity|]. split; [|same_class]. destruct H as [H|H]; [exact H|congruence].
  - cbn [pcall_life]. destruct (nth_error slots n) as [old|] eqn:E.
    + destruct fixed.
      * destruct (delete_cases old) as [[D ->]|[D Hn]]; rewrite D; cbn [obind]; [right|now left].
        assert (Hlt : (n < length slots)%nat) by (apply nth_error_Some; congruence). apply Nat.ltb_lt in Hlt as Hltb. unfold setNthPattern. rewrite Hltb. cbn [andb].
        eexists. split; [reflexivity|]. split; [|same_class]. cbn. destruct H as [(q & Hq & Hn)|H].
        -- exists q. split; [|exact Hn]. apply set_nth_keeps; [exact Hq|congruence].
        -- exists p. split; [now apply set_nth_has|exact H].
      * destruct (delete_cases p) as [[D ->]|[D Hn]]; rewrite D; cbn; [right|now left]. eexists. split; [reflexivity|]. split; [|same_class].
        destruct H as [H|H]; [exact H|congruence].
    + destruct (delete_cases p) as [[D ->]|[D Hn]]; rewrite D; cbn; [right|now left]. eexists. split; [reflexivity|]. split; [|same_class].
      destruct H as [H|H]; [exact H|congruence].
  - right. eexists. split; [reflexivity|]. split; [|same_class]. cbn. destruct H as [(q & Hq & Hn)|H]; [exists q|exists p]; (split; [|assumption]); apply in_or_app; [now left|right; now left].
  - right. eexists. split; [reflexivity|]. split; [|same_class]. cbn. destruct H as [(q & Hq & Hn)|H]; [exists q|exists p]; (split; [|assumption]); apply in_or_app; [now left|right; now left].
Qed.

Lemma call_total m c : member_of m c ->
  pcall_life m c = UB \/ exists m', pcall_life m c = Ok m' /\ (forall c', member_of m c' <-> member_of m' c').
Proof.
  intros Hc. destruct m as [|sz kv|fixed slots|dt|l|l]; destruct c as [k p|k|n|n p|p]; cbn in Hc; try contradiction; cbn [pcall_life].
  - destruct (assoc_find bytes_eqb k kv) as [old|]; [destruct (delete_cases old) as [[D _]|[D _]]; rewrite D; [right|now left]|right];
      (eexists; split; [reflexivity|same_class]).
  - destruct (assoc_find bytes_eqb k kv) as [old|]; [destruct (delete_cases old) as [[D _]|[D _]]; rewrite D; [right|now left]|right];
      (eexists; split; [reflexivity|same_class]).
  - right. eexists. split; [reflexivity|same_class].
  - destruct (nth_error slots n) as [old|]; [destruct fixed|].
    + destruct (delete_cases old) as [[D _]|[D _]]; rewrite D; [right|now left]. cbn [obind]. unfold setNthPattern.
      eexists. split; [reflexivity|]. destruct (true && (n <? length slots)%nat)%bool; same_class.
    + destruct (delete_cases p) as [[D _]|[D _]]; rewrite D; [right|now left]. eexists. split; [reflexivity|same_class].
    + destruct (delete_cases p) as [[D _]|[D _]]; rewrite D; [right|now left]. eexists. split; [reflexivity|same_class].
  - right. eexists. split; [reflexivity|same_class].
  - right. eexists. split; [reflexivity|same_class].
Qed.

Lemma life_part cs : forall m, Forall (member_of m) cs -> has_part m -> pattern_life m cs = UB.
Proof.
  induction cs as [|c cs IH]; intros m Hc H; cbn [pattern_life].
  - unfold destroy. destruct (delete_all_total (parts m)) as [E|E]; [|exact E]. exfalso. apply delete_all_ok in E.
    destruct H as (q & Hq & Hn). rewrite Forall_forall in E. apply Hn. symmetry. auto.
  - inversion Hc; subst. destruct (call_part m c) as [E|(m' & E & Hm' & Hk)]; auto; rewrite E; [reflexivity|]. cbn.
    apply IH; [|exact Hm']. eapply Forall_impl; [|eassumption]. intros c' Hc'. now apply Hk.
Qed.

(** C90.  Any pattern, any history of calls: constructing it, calling its member
    functions and destroying it is well-defined as long as every pattern handed to it is
    null (a leaf pattern without parts).  Missing: patterns with parts, see below. *)
Theorem C90_leaf_patterns_partial : forall m cs,
  fresh m -> Forall (member_of m) cs -> (forall c, In c cs -> handed c = PatNull) -> pattern_life m cs = Ok tt.
Proof.
  intros m cs Hf. assert (Hm : Forall (eq PatNull) (parts m)).
  { destruct Hf; cbn; try constructor. apply Forall_forall. intros x Hx. apply repeat_spec in Hx. congruence. }
  clear Hf. revert m Hm. induction cs as [|c cs IH]; intros m Hm Hc Hp; cbn [pattern_life].
  - now apply delete_all_ok.
  - inversion Hc; subst. destruct (call_null m c) as (m' & E & Hm' & Hk); auto; [apply Hp; now left|]. rewrite E. cbn.
    apply IH; [exact Hm'| |intros c' Hc'; apply Hp; now right]. eapply Forall_impl; [|eassumption]. intros c' Hc'. now apply Hk.
Qed.

(** The full statement is false, and in every case: handing even one pattern to another
    (or having one refused because the index is too large) makes the rest of that
    object's life undefined, since the part is deleted through a pointer to a base class
    whose destructor is not virtual. *)
Theorem C90_composite_refuted : forall m cs,
  fresh m -> Forall (member_of m) cs -> (exists c, In c cs /\ handed c <> PatNull) -> pattern_life m cs = UB.
Proof.
  intros m cs _. revert m. induction cs as [|c cs IH]; intros m Hc (c0 & Hin & Hn); [destruct Hin|].
  inversion Hc as [|? ? Hmc Hcs]; subst. cbn [pattern_life].
  destruct (delete_cases (handed c)) as [[_ Eh]|[_ Eh]].
  - destruct Hin as [->|Hin]; [congruence|].
    destruct (call_total m c Hmc) as [E|(m' & E & Hk)]; rewrite E; [reflexivity|].
    cbn. apply IH; [|exists c0; auto]. eapply Forall_impl; [|exact Hcs]. intros c' Hc'. now apply Hk.
  - destruct (call_part m c Hmc (or_intror Eh)) as [E|(m' & E & Hm' & Hk)]; rewrite E; [reflexivity|]. cbn.
    apply life_part; [|exact Hm']. eapply Forall_impl; [|exact Hcs]. intros c' Hc'. now apply Hk.
Qed.

(** Both kinds of history exist; the second is the one of the project's own test
    (pattern_test.cc:22-34). *)
Example C90_met :
  fresh (PatData (Some 1)) /\ pattern_life (PatData (Some 1)) [] = Ok tt /\
  Forall (member_of (ArrayPattern_new 3)) [PSetNth 0 (PatOr [PatData (Some 1); PatData (Some 3)]); PSetNth 1 (PatData (Some 1))] /\
  pattern_life (ArrayPattern_new 3) [PSetNth 0 (PatOr [PatData (Some 1); PatData (Some 3)]); PSetNth 1 (PatData (Some 1))] = UB /\
  pattern_life MapPattern_new [PSetSize 2; PRemove []] = Ok tt.
Proof. repeat split; repeat constructor. Qed.
