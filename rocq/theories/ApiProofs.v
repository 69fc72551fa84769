(** * Objects built through the API denote values. *)
From Verif Require Import Base BaseLemmas ModelData ModelObject ModelWrapper Spec SpecApi.
From Coq Require Import ZifyBool ZifyNat ZifyN.

Lemma denotes_array_insert mem p items l x v :
  denotes mem (OArray p (len items) items) (VArr l) -> denotes mem x v ->
  denotes mem (OArray p (1 + len items) (x :: items)) (VArr (l ++ [v])).
Proof.
  intros H Hx. inversion H; subst. constructor; [now rewrite len_cons|]. rewrite rev_app_distr. cbn. constructor; auto.
Qed.

Theorem built_denotes live mem o : built live mem o -> exists v, denotes mem o v.
Proof.
  induction 1 as [s|s|s|t n Hn|s|w s Hs|w s Hs|t n Hn|p|p|p|o o' Hb [v IH] Hc
    |a x a' Ha [va IHa] Hx [vx IHx] Hn Hi|m k x m' Hm [vm IHm] Hx [vx IHx] Hn Hi|m k s x m' Hm [vm IHm] Hx [vx IHx] Hs Hn Hi].
  - eexists. do 2 constructor.
  - eexists. do 2 constructor.
  - eexists. do 2 constructor.
  - eexists. do 2 constructor. exact Hn.
  - eexists. do 2 constructor.
  - eexists. do 2 constructor. exact Hs.
  - eexists. apply den_data_view. constructor. exact Hs.
  - eexists. apply den_data_view. constructor. exact Hn.
  - exists (VArr []). constructor; [reflexivity|constructor].
  - exists (VMap []). constructor; [reflexivity|constructor].
  - exists (VMap []). constructor; [reflexivity|constructor].
  - destruct o; cbn in Hc; try discriminate; injection Hc as <-.
    + exists (VArr []). constructor; [reflexivity|constructor].
    + exists (VMap []). constructor; [reflexivity|constructor].
    + exists (VMap []). constructor; [reflexivity|constructor].
  - destruct a as [| | |p size items| |]; cbn in Hi; try discriminate. destruct (live p); [|discriminate].
    injection Hi as <-. inversion IHa; subst. specialize (Hn _ eq_refl).
    rewrite u64_small by (rewrite W64_val; exact Hn). rewrite N.add_comm.
    eexists. eapply denotes_array_insert; [constructor; eauto|exact IHx].
  - destruct m as [| | | |p size items|]; cbn in Hi; try discriminate. destruct (live p); [|discriminate].
    injection Hi as <-. inversion IHm; subst. specialize (Hn _ eq_refl).
    rewrite u64_small by (rewrite W64_val; exact Hn). rewrite N.add_comm.
    exists (VMap ((k, vx) :: l)). constructor; [now rewrite len_cons|]. constructor; [split; [reflexivity|exact IHx]|assumption].
  - destruct m as [| | | | |p size items]; cbn in Hi; try discriminate. destruct (live p); [|discriminate].
    injection Hi as <-. inversion IHm; subst. specialize (Hn _ eq_refl).
    rewrite u64_small by (rewrite W64_val; exact Hn). rewrite N.add_comm.
    exists (VMap ((s, vx) :: l)). constructor; [now rewrite len_cons|]. constructor; [split; [exact Hs|exact IHx]|assumption].
Qed.

Definition all_live : pool -> bool := fun _ => true.

(** A tree built step by step. *)
Example built_example : exists o, built all_live (fun _ => None) o /\ w_Size o = Some 2.
Proof.
  eexists. split.
  - eapply b_map_insert with (k := [x00]);
      [eapply b_map_insert with (k := []); [apply (b_map _ _ CoroFrame)|apply (b_string _ _ [x00])| |reflexivity]
      |eapply b_array_insert; [apply (b_array _ _ CoroFrame)|apply (b_num _ _ U32 7); reflexivity| |reflexivity]| |reflexivity];
      cbn; intros n [= <-]; reflexivity.
  - reflexivity.
Qed.
