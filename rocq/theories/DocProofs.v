(** * Serialize always succeeds on a complete tree and yields a document. *)
From Verif Require Import Base BaseLemmas ModelVarint ModelData ModelSecondary ModelObject
  ModelWrapper Spec VarintProofs Wire NumProofs ObjInd SeriProofs SeriProofs2.
From Coq Require Import ZifyBool ZifyNat ZifyN.
Local Open Scope out_scope.

Lemma seriLength_ok c n b :
  char_signed c = true -> seriLength c n b = Ok (b ++ venc (u32 n)).
Proof.
  intros Hc. unfold seriLength. rewrite varint_encode_ok; [reflexivity|exact Hc| |lia].
  pose proof (u32_lt n); rewrite W32_val, W64_val in *; lia.
Qed.

(** ** The dictionary table *)
Lemma sm_serialize_loop_ok c l ret :
  char_signed c = true ->
  exists s, sm_serialize_loop c l ret = Ok (ret ++ s) /\
    (len s < W32 -> Forall (fun e => snd e < W32) l ->
     s = concat (map (fun e => venc (len (fst e)) ++ fst e ++ venc (snd e)) l)).
Proof.
  intros Hc; revert ret; induction l as [|[k id] l IH]; intros ret; cbn [sm_serialize_loop].
  - exists []. rewrite app_nil_r. auto.
  - rewrite seriLength_ok by exact Hc. cbn [obind]. rewrite seriLength_ok by exact Hc. cbn [obind].
    destruct (IH (((ret ++ venc (u32 (u32 (len k)))) ++ k) ++ venc (u32 id))) as (s & H1 & H2).
    rewrite H1. eexists. split; [rewrite <- !app_assoc; reflexivity|].
    intros HL HF. rewrite !len_app in HL. inversion HF as [|? ? Hid HF']; subst. cbn in Hid.
    rewrite u32_u32, !u32_small by lia. cbn [map concat fst snd]. rewrite <- !app_assoc.
    rewrite <- H2; [reflexivity|lia|exact HF'].
Qed.

Lemma StringMap_Serialize_ok c m :
  char_signed c = true ->
  exists s, StringMap_Serialize c m = Ok s /\
    (len s < W32 -> len (sm_map m) < W32 -> Permutation (hash_order c (sm_map m)) (sm_map m) ->
     Forall (fun e => snd e < W32) (sm_map m) ->
     s = dict_bytes (hash_order c (sm_map m))).
Proof.
  intros Hc. unfold StringMap_Serialize. rewrite seriLength_ok by exact Hc. cbn [obind app].
  destruct (sm_serialize_loop_ok c (hash_order c (sm_map m)) (venc (u32 (u32 (len (sm_map m))))) Hc) as (s & H1 & H2).
  rewrite H1. eexists; split; [reflexivity|]. intros HL Hn HP HF. rewrite len_app in HL.
  unfold dict_bytes. rewrite u32_u32, u32_small by exact Hn. rewrite (len_perm _ _ HP). f_equal.
  apply H2; [lia|]. eapply Permutation_Forall; [symmetry; exact HP|exact HF].
Qed.

(** ** The split table *)
Lemma seri_numbers_ok c l ret :
  char_signed c = true ->
  seri_numbers c l ret = Ok (ret ++ concat (map (fun n => venc (u32 n)) l)).
Proof.
  intros Hc; revert ret; induction l as [|n l IH]; intros ret; cbn.
  - now rewrite app_nil_r.
  - rewrite seriLength_ok by exact Hc. cbn. rewrite IH. now rewrite <- app_assoc.
Qed.

Definition info_ok (l : list (N * list N)) : Prop :=
  Forall (fun e => fst e < W32 /\ Forall (fun b => b < W32) (snd e) /\ len (snd e) < W32) l.

Lemma si_serialize_loop_ok c l ret :
  char_signed c = true ->
  exists s, si_serialize_loop c l ret = Ok (ret ++ s) /\
    (info_ok l ->
     s = concat (map (fun e => venc (fst e) ++ venc (len (snd e)) ++ concat (map venc (snd e))) l)).
Proof.
  intros Hc; revert ret; induction l as [|[id bl] l IH]; intros ret; cbn [si_serialize_loop].
  - exists []. rewrite app_nil_r. auto.
  - rewrite seriLength_ok by exact Hc. cbn [obind]. rewrite seriLength_ok by exact Hc. cbn [obind].
    rewrite seri_numbers_ok by exact Hc. cbn [obind].
    match goal with |- context [si_serialize_loop c l ?r] => destruct (IH r) as (s & H1 & H2) end.
    rewrite H1. eexists. split; [rewrite <- !app_assoc; reflexivity|].
    intros HF. inversion HF as [|? ? (F1 & F2 & F3) HF']; subst. cbn in F1, F2, F3.
    rewrite u32_u32, !u32_small by assumption. rewrite to_nat_len, firstn_all.
    cbn [map concat fst snd]. rewrite <- !app_assoc. rewrite <- H2 by exact HF'.
    f_equal. f_equal. f_equal. f_equal.
    apply map_ext_in. intros n Hn. rewrite u32_small; [reflexivity|].
    rewrite Forall_forall in F2. auto.
Qed.

Lemma SplitInfo_Serialize_ok c si :
  char_signed c = true ->
  exists s, SplitInfo_Serialize c si = Ok s /\
    (len (si_info si) < W32 -> Permutation (hash_order c (si_info si)) (si_info si) ->
     info_ok (si_info si) -> s = split_bytes (hash_order c (si_info si))).
Proof.
  intros Hc. unfold SplitInfo_Serialize. rewrite seriLength_ok by exact Hc. cbn [obind app].
  match goal with |- context [si_serialize_loop c ?l ?r] =>
    destruct (si_serialize_loop_ok c l r Hc) as (s & H1 & H2) end.
  rewrite H1. eexists; split; [reflexivity|]. intros Hn HP HF.
  unfold split_bytes. rewrite u32_u32, u32_small by exact Hn. rewrite (len_perm _ _ HP). f_equal.
  apply H2. eapply Permutation_Forall; [symmetry; exact HP|exact HF].
Qed.

Lemma assoc_find_perm {V} (a b : list (N * V)) id :
  NoDup (map fst a) -> Permutation b a -> assoc_find N.eqb id b = assoc_find N.eqb id a.
Proof.
  intros Hnd HP.
  assert (Hnd' : NoDup (map fst b)).
  { eapply Permutation_NoDup; [|exact Hnd]. apply Permutation_map. now symmetry. }
  destruct (assoc_find N.eqb id a) as [v|] eqn:Ha.
  - apply assoc_find_In in Ha; [|apply N.eqb_spec].
    apply assoc_find_NoDup; [apply N.eqb_spec|exact Hnd'|].
    eapply Permutation_in; [symmetry; exact HP|exact Ha].
  - apply assoc_find_None in Ha; [|apply N.eqb_spec].
    apply assoc_find_None; [apply N.eqb_spec|]. intros Hin. apply Ha.
    eapply Permutation_in; [apply Permutation_map; exact HP|exact Hin].
Qed.

(** ** Extensionality of [wire] in the table *)
Lemma split_ok_ext T T' sz id chunks fl :
  (forall i, T i = T' i) -> split_ok T sz id chunks fl -> split_ok T' sz id chunks fl.
Proof.
  intros HT. unfold split_ok. destruct fl.
  - intros (g & H1 & H2 & H3). exists g. now rewrite <- HT.
  - now rewrite HT.
Qed.

Lemma wire_ext D T T' sz v : (forall i, T i = T' i) -> forall fl b, wire D T sz v fl b -> wire D T' sz v fl b.
Proof.
  intros HT. induction v as [x|l IH|l IH] using value_ind'; intros fl b H.
  - inversion H; subst. now constructor.
  - inversion H as [|? id ch ? L1 L2 HF HS|]; subst.
    constructor; auto; [|eapply split_ok_ext; eauto].
    eapply Forall2_impl; [|exact HF]. cbn. intros w ch' Hin _ (f & b & Hw & ->).
    exists f, b. split; [|reflexivity]. rewrite Forall_forall in IH. apply IH; auto. now apply in_rev.
  - inversion H as [| |? id ch ? L1 L2 HF HS]; subst.
    constructor; auto; [|eapply split_ok_ext; eauto].
    eapply Forall2_impl; [|exact HF]. cbn. intros w ch' Hin _ (kb & f & b & Hk & Hw & ->).
    exists kb, f, b. split; [exact Hk|]. split; [|reflexivity].
    rewrite Forall_forall in IH. apply IH; auto.
Qed.

(** ** The document *)
Lemma number_from_bound n l : Forall (fun e => snd e < n + len l) (number_from n l).
Proof.
  revert n; induction l as [|x l IH]; intros n; cbn; constructor; cbn; [rewrite len_cons; lia|].
  specialize (IH (n + 1)). eapply Forall_impl; [|exact IH]. cbn; intros. rewrite len_cons; lia.
Qed.

Lemma firstn_app_exact {A} (a b : list A) n : n = length a -> firstn n (a ++ b) = a.
Proof. intros ->. rewrite firstn_app, firstn_all, Nat.sub_diag. cbn. apply app_nil_r. Qed.
Lemma skipn_app_exact {A} (a b : list A) n : n = length a -> skipn n (a ++ b) = b.
Proof. intros ->. rewrite skipn_app, skipn_all, Nat.sub_diag. reflexivity. Qed.

Theorem Serialize_document c mem ty p o v :
  sane c -> denotes mem o v ->
  exists content, Serialize c mem ty p o = Ok content /\
    (len content < W32 -> document (split_block_size c) ty v content).
Proof.
  intros [Hc Hit] Hd. unfold Serialize.
  set (root := OMap p 1 [(root_key, o)]).
  set (ret := repeat x00 8 ++ [n2b (SeriTypeToChar ty)] ++ [x00]).
  set (sm := match ty with NORMAL => None | REPLACE => Some sm_empty end).
  assert (Hroot : denotes mem root (VMap [(root_key, v)])).
  { constructor; [reflexivity|]. constructor; [|constructor]. now split. }
  set (st0 := {| outer := ret; smap := sm; sinfo := Some si_empty |}).
  destruct (valueSeri_ok c mem root _ Hc Hroot st0) as (st & fl & e & He & (O & [Sh1 Sh2] & HI) & _);
    [unfold good; cbn; congruence|].
  rewrite He. cbn [obind].
  assert (Hg : good st) by (apply Sh2; unfold good; cbn; congruence).
  change (outer st0) with ret in O.
  assert (Hout : (if fl then firstn 9 (outer st) ++ n2b 10 :: skipn 10 (outer st) else outer st)
                 = repeat x00 8 ++ [n2b (SeriTypeToChar ty)] ++ [n2b (if fl then 10 else 0)] ++ e).
  { rewrite O. unfold ret. destruct fl; [|reflexivity].
    rewrite (firstn_app_exact (repeat x00 8 ++ [n2b (SeriTypeToChar ty)])
               ([x00] ++ e)) by reflexivity.
    rewrite <- (skipn_app_exact (repeat x00 8 ++ [n2b (SeriTypeToChar ty)] ++ [x00]) e 10 eq_refl) at 2.
    reflexivity. }
  rewrite Hout. clear Hout.
  set (hd2 := [n2b (SeriTypeToChar ty)] ++ [n2b (if fl then 10 else 0)] ++ e).
  unfold SeriTotalSizeToOuter.
  assert (Hl : len (repeat x00 8 ++ hd2) = 10 + len e).
  { unfold hd2. rewrite !len_app, len_repeat, !len_cons, len_nil. lia. }
  rewrite Hl. replace (10 + len e <? 8) with false by lia. cbn [obind].
  rewrite skipn_app_exact, num_to_wire_be by reflexivity.
  set (out1 := be_bytes 8 (10 + len e) ++ hd2).
  destruct (sinfo st) as [si|] eqn:Hsi; [|now elim Hg].
  destruct (SplitInfo_Serialize_ok c si Hc) as (ss & HS1 & HS2).
  assert (Hret : len ret = 10)
    by (unfold ret; rewrite !len_app, len_repeat, !len_cons, len_nil; lia).
  (* the invariants at the end, when the document is small *)
  assert (Hfin : len (outer st) < W32 ->
    Inv st /\ (exists new, keys st = new /\ Forall (strs (VMap [(root_key, v)])) new) /\
    wire (dict_of ty (keys st)) (tbl st) (split_block_size c) (VMap [(root_key, v)]) fl e).
  { intros HL. destruct HI as (HI1 & ((new & Hn & HF) & _ & _) & HI3); [exact HL| |].
    - constructor; unfold keys, next, info; cbn.
      + destruct ty; cbn; auto.
      + destruct ty; cbn; (split; [constructor|rewrite len_nil; lia]).
      + change (1 <= 1 <= len ret). lia.
      + split; constructor.
      + constructor.
    - split; [exact HI1|]. split.
      + exists new. split; [|exact HF]. rewrite Hn. destruct ty; reflexivity.
      + apply HI3. split; [|auto]. destruct ty; cbn [dict_of].
        * left. split; [|reflexivity]. apply Sh1. reflexivity.
        * right. split; [intros H0; apply Sh1 in H0; discriminate|].
          eexists; split; [reflexivity|]. intros i k Hk. cbn. now rewrite Nat2N.id. }
  (* assembling the pieces *)
  assert (Hdone : forall dl mid,
    (len (outer st) < W32 -> len mid < W32 -> Inv st ->
       Permutation dl (number_from 0 (keys st)) /\
       mid = match ty with NORMAL => [] | REPLACE => section (dict_bytes dl) end) ->
    (ty = NORMAL -> keys st = []) ->
    exists content,
      (s <- SplitInfo_Serialize c si ;; SuffixSecondary c (out1 ++ mid) s) = Ok content /\
      (len content < W32 -> document (split_block_size c) ty v content)).
  { intros dl mid Hmid Hnorm. rewrite HS1. cbn [obind]. unfold SuffixSecondary.
    rewrite seriLength_ok by exact Hc. cbn [obind]. eexists; split; [reflexivity|].
    intros HL. rewrite !len_app in HL. unfold out1 in HL. rewrite len_app, be_bytes_len in HL.
    assert (Hl2 : len hd2 = 2 + len e) by (unfold hd2; rewrite !len_app, !len_cons, len_nil; lia).
    assert (HLo : len (outer st) < W32).
    { rewrite O, len_app. unfold ret. rewrite !len_app, len_repeat, !len_cons, len_nil. lia. }
    destruct (Hfin HLo) as (HInv & (new & Hn & HF) & Hw).
    destruct (Hmid HLo) as [HP ->]; [lia|exact HInv|].
    pose proof HInv as [I1 [I2 I2'] I3 [I4 I4'] I5].
    unfold info, next in I3, I4, I4', I5. rewrite Hsi in I3, I4, I4', I5.
    assert (Hil : Forall (fun e => 1 <= fst e < W32 /\ snd e <> [] /\ Forall (fun b => b < W32) (snd e) /\
                     len (snd e) < W32) (si_info si)).
    { rewrite Forall_forall in *. intros x Hx. specialize (I4 x Hx). specialize (I5 x Hx).
      split; [lia|tauto]. }
    assert (Hlen : len (si_info si) < W32).
    { assert (len (si_info si) <= si_next si).
      { clear -I4 I4'. rewrite <- (len_map fst).
        assert (Hincl : incl (map fst (si_info si)) (map N.of_nat (seq 0 (N.to_nat (si_next si))))).
        { intros x Hx. apply in_map_iff in Hx as (y & <- & Hy). rewrite Forall_forall in I4.
          specialize (I4 y Hy). apply in_map_iff. exists (N.to_nat (fst y)). split; [lia|].
          apply in_seq. lia. }
        pose proof (NoDup_incl_length I4' Hincl) as H. rewrite !map_length, seq_length in H.
        unfold len. rewrite map_length. lia. }
      lia. }
    assert (Hss : ss = split_bytes (hash_order c (si_info si))).
    { apply HS2; [exact Hlen|apply Hit|].
      unfold info_ok. eapply Forall_impl; [|exact Hil]. cbn. tauto. }
    rewrite u32_small by lia.
    assert (Hwire : wire (dict_of ty (keys st)) (table_of (hash_order c (si_info si)))
                      (split_block_size c) (VMap [(root_key, v)]) fl e).
    { eapply wire_ext; [|exact Hw]. intros i. unfold tbl, table_of, info. rewrite Hsi.
      symmetry. apply assoc_find_perm; [exact I4'|apply Hit]. }
    rewrite Hss.
    assert (Hd2 : document (split_block_size c) ty v
       (be_bytes 8 (10 + len e) ++ [n2b (SeriTypeToChar ty)] ++ [n2b (if fl then 10 else 0)] ++ e ++
        match ty with NORMAL => [] | REPLACE => section (dict_bytes dl) end ++
        section (split_bytes (hash_order c (si_info si))))).
    { apply doc with (ks := keys st); auto.
      - intros k Hk. rewrite Hn in Hk. rewrite Forall_forall in HF. specialize (HF k Hk).
        inversion HF as [| |? ? Hin|? ? Hin Ho]; subst.
        + destruct Hin as [[= <- _]|[]]; now left.
        + destruct Hin as [<-|[]]; now right.
      - eapply Permutation_NoDup; [apply Permutation_map; symmetry; apply Hit|exact I4'].
      - eapply Permutation_Forall; [symmetry; apply Hit|exact Hil]. }
    unfold out1, hd2, section in *. rewrite <- !app_assoc. exact Hd2. }
  destruct ty.
  - assert (Hm : smap st = None) by (apply Sh1; reflexivity). rewrite Hm. cbn [obind].
    assert (Hk : keys st = []) by (unfold keys; now rewrite Hm).
    destruct (Hdone [] []) as (content & H1 & H2).
    { intros _ _ _. rewrite Hk. split; [constructor|reflexivity]. }
    { auto. }
    rewrite app_nil_r in H1. exists content. split; [exact H1|exact H2].
  - destruct (smap st) as [m|] eqn:Hm; [|destruct Sh1 as [_ Sh1]; specialize (Sh1 eq_refl); discriminate].
    destruct (StringMap_Serialize_ok c m Hc) as (ms & HM1 & HM2). rewrite HM1. cbn [obind].
    unfold SuffixSecondary at 1. rewrite seriLength_ok by exact Hc. cbn [obind].
    destruct (Hdone (hash_order c (sm_map m)) (venc (u32 (len ms)) ++ ms)) as (content & H1 & H2).
    { intros HLo HLm HInv. destruct HInv as [I1 [I2 I2'] _ _ _]. rewrite Hm in I1. destruct I1 as (I1 & _ & _).
      rewrite len_app in HLm. split; [rewrite <- I1; apply Hit|].
      assert (Hms : ms = dict_bytes (hash_order c (sm_map m))).
      { apply HM2; [lia| |apply Hit|].
        - rewrite I1, number_from_len. lia.
        - rewrite I1. eapply Forall_impl; [|apply number_from_bound]. cbn. intros x Hx. lia. }
      rewrite u32_small by lia. unfold section. now rewrite <- Hms. }
    { discriminate. }
    rewrite app_assoc in H1. exists content. split; [exact H1|exact H2].
Qed.
