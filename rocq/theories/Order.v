(** * Specification: what may happen to the order of map entries (C110). *)
From Verif Require Import Base BaseLemmas ModelData Spec ObjInd ValueProofs.
From Coq Require Import Permutation.

(** [regrouped v v']: arrays are in the same order; the entries of every map of [v], cut
    into consecutive runs, are found in [v'] with the runs in reverse order, every run in
    its own order. *)
Inductive regrouped : value -> value -> Prop :=
| rg_scalar x : regrouped (VScalar x) (VScalar x)
| rg_arr l l' : Forall2 regrouped l l' -> regrouped (VArr l) (VArr l')
| rg_map runs l' :
    Forall2 (fun a b => fst a = fst b /\ regrouped (snd a) (snd b)) (concat (rev runs)) l' ->
    regrouped (VMap (concat runs)) (VMap l').

Lemma concat_rev_perm {X} (gs : list (list X)) : Permutation (concat gs) (concat (rev gs)).
Proof.
  induction gs as [|g gs IH]; cbn; [constructor|].
  rewrite concat_app. cbn. rewrite app_nil_r. rewrite IH. apply Permutation_app_comm.
Qed.
Lemma regrouped_same : forall v v', regrouped v v' -> same_content v v'.
Proof.
  induction v as [x|l IH|l IH] using value_ind'; intros w H; inversion H as [|? l' HF|runs l' HF]; subst.
  - constructor.
  - constructor. clear H. induction HF as [|a b l l' Hab HF IHF]; inversion IH; subst; constructor; auto.
  - apply same_map with (l1 := concat (rev runs)); [apply concat_rev_perm|]. clear H.
    apply (Permutation_Forall (concat_rev_perm runs)) in IH. revert IH HF. generalize (concat (rev runs)) as l. intros l IH HF.
    induction HF as [|a b l l' [Hk Hab] HF IHF]; inversion IH; subst; constructor; auto.
Qed.
Lemma concat_singles {X} (l : list X) : concat (map (fun x => [x]) l) = l.
Proof. induction l as [|x l IH]; cbn; [reflexivity|now rewrite IH]. Qed.
Lemma mirror_regrouped v : regrouped v (mirror v).
Proof.
  induction v as [x|l IH|l IH] using value_ind'; cbn [mirror].
  - constructor.
  - constructor. induction IH; cbn; constructor; auto.
  - rewrite <- (concat_singles l) at 1. constructor. rewrite <- map_rev, concat_singles, <- map_rev. apply Forall_rev in IH.
    induction IH as [|e r He IH IHF]; cbn; constructor; auto.
Qed.
