(** * The serializer produces the documented format. *)
From Verif Require Import Base BaseLemmas ModelVarint ModelData ModelSecondary ModelObject
  ModelWrapper Spec VarintProofs Wire NumProofs ObjInd.
From Coq Require Import ZifyBool ZifyNat ZifyN.
Local Open Scope out_scope.

(** ** Association lists *)
Lemma assoc_find_In {K V} (eqb : K -> K -> bool) (k : K) (l : list (K * V)) v :
  (forall a b, reflect (a = b) (eqb a b)) ->
  assoc_find eqb k l = Some v -> In (k, v) l.
Proof.
  intros Hs; induction l as [|[k' v'] l IH]; cbn; [discriminate|].
  destruct (Hs k k') as [->|]; [intros [= ->]; now left|intros H; right; auto].
Qed.

Lemma assoc_find_None {K V} (eqb : K -> K -> bool) (k : K) (l : list (K * V)) :
  (forall a b, reflect (a = b) (eqb a b)) ->
  assoc_find eqb k l = None <-> ~ In k (map fst l).
Proof.
  intros Hs; induction l as [|[k' v'] l IH]; cbn; [tauto|].
  destruct (Hs k k') as [->|Hn]; [split; [discriminate|tauto]|].
  rewrite IH. split; [intros H [H1|H1]; [congruence|tauto]|tauto].
Qed.

Lemma assoc_find_NoDup {K V} (eqb : K -> K -> bool) (k : K) (l : list (K * V)) v :
  (forall a b, reflect (a = b) (eqb a b)) ->
  NoDup (map fst l) -> In (k, v) l -> assoc_find eqb k l = Some v.
Proof.
  intros Hs; induction l as [|[k' v'] l IH]; cbn; [tauto|].
  intros Hnd [H|H]; inversion Hnd as [|? ? Hni Hnd']; subst.
  - injection H as -> ->. destruct (Hs k k); congruence.
  - destruct (Hs k k') as [->|Hn]; [|auto].
    exfalso; apply Hni. now apply (in_map fst) in H.
Qed.

Lemma assoc_find_app {K V} (eqb : K -> K -> bool) (k : K) (a b : list (K * V)) :
  assoc_find eqb k (a ++ b) =
  match assoc_find eqb k a with Some v => Some v | None => assoc_find eqb k b end.
Proof. induction a as [|[k' v'] a IH]; cbn; [reflexivity|]. destruct (eqb k k'); auto. Qed.

Lemma assoc_set_new {K V} (eqb : K -> K -> bool) (k : K) v (l : list (K * V)) :
  (forall a b, reflect (a = b) (eqb a b)) ->
  ~ In k (map fst l) -> assoc_set eqb k v l = l ++ [(k, v)].
Proof.
  intros Hs; induction l as [|[k' v'] l IH]; cbn; [reflexivity|].
  intros Hn. destruct (Hs k k') as [->|Hk]; [tauto|]. f_equal; apply IH; tauto.
Qed.

Lemma assoc_find_set {K V} (eqb : K -> K -> bool) (k k2 : K) v (l : list (K * V)) :
  (forall a b, reflect (a = b) (eqb a b)) ->
  assoc_find eqb k2 (assoc_set eqb k v l) = if eqb k2 k then Some v else assoc_find eqb k2 l.
Proof.
  intros Hs; induction l as [|[k' v'] l IH]; cbn; [reflexivity|].
  destruct (Hs k k') as [->|Hk]; cbn.
  - destruct (Hs k2 k') as [->|]; reflexivity.
  - destruct (Hs k2 k') as [->|Hk2].
    + destruct (Hs k' k); [congruence|reflexivity].
    + exact IH.
Qed.

(** ** Numbering: the dictionary *)
Lemma number_from_app n a b : number_from n (a ++ b) = number_from n a ++ number_from (n + len a) b.
Proof.
  revert n; induction a as [|x a IH]; intros n; cbn; [now rewrite len_nil, N.add_0_r|].
  rewrite IH, len_cons. do 2 f_equal. f_equal. lia.
Qed.

Lemma number_from_fst n l : map fst (number_from n l) = l.
Proof. revert n; induction l as [|x l IH]; intros n; cbn; congruence. Qed.

Lemma number_from_len n l : len (number_from n l) = len l.
Proof. rewrite <- (len_map fst), number_from_fst. reflexivity. Qed.

Lemma number_from_In n l k i :
  In (k, i) (number_from n l) <-> n <= i /\ nth_error l (N.to_nat (i - n)) = Some k.
Proof.
  revert n; induction l as [|x l IH]; intros n; cbn [number_from].
  - split; [intros []|]. intros [_ H]. now destruct (N.to_nat (i - n)).
  - cbn [In]. rewrite IH. split.
    + intros [[= <- <-]|[H1 H2]]; [split; [lia|]; now rewrite N.sub_diag|].
      split; [lia|]. replace (N.to_nat (i - n)) with (S (N.to_nat (i - (n + 1)))) by lia. exact H2.
    + intros [H1 H2]. destruct (N.eq_dec i n) as [->|Hne].
      * rewrite N.sub_diag in H2. change (N.to_nat 0) with O in H2. cbn in H2. left; congruence.
      * right. split; [lia|].
        replace (N.to_nat (i - n)) with (S (N.to_nat (i - (n + 1)))) in H2 by lia. exact H2.
Qed.

Lemma nth_error_mid {A} (a : list A) x b : nth_error (a ++ x :: b) (length a) = Some x.
Proof. rewrite nth_error_app2, Nat.sub_diag by lia. reflexivity. Qed.

(** ** Serializer state *)
Definition keys (st : sstate) : list bytes :=
  match smap st with Some m => map fst (sm_map m) | None => [] end.
Definition info (st : sstate) : list (N * list N) :=
  match sinfo st with Some si => si_info si | None => [] end.
Definition next (st : sstate) : N :=
  match sinfo st with Some si => si_next si | None => 0 end.
Definition tbl (st : sstate) : table := fun id => assoc_find N.eqb id (info st).

Definition good (st : sstate) : Prop := sinfo st <> None.

Record Inv (st : sstate) : Prop := {
  inv_map : match smap st with
            | None => True
            | Some m => sm_map m = number_from 0 (keys st) /\ sm_next m = len (keys st) /\
                        sm_re m = None
            end;
  inv_keys : NoDup (keys st) /\ len (keys st) <= len (outer st);
  inv_next : 1 <= next st <= len (outer st);
  inv_ids : Forall (fun e => 1 <= fst e < next st) (info st) /\ NoDup (map fst (info st));
  inv_blocks : Forall (fun e => snd e <> [] /\ Forall (fun b => b < W32) (snd e) /\
                                len (snd e) < W32) (info st)
}.

Definition shape (st st' : sstate) : Prop :=
  (smap st = None <-> smap st' = None) /\ (good st -> good st').

Definition ext (S : bytes -> Prop) (st st' : sstate) : Prop :=
  (exists new, keys st' = keys st ++ new /\ Forall S new) /\
  next st <= next st' /\
  (forall id, id < next st -> tbl st' id = tbl st id).

Definition agree (D : dict) (T : table) (st st' : sstate) : Prop :=
  (smap st' = None /\ D = None \/
   smap st' <> None /\ exists d, D = Some d /\
     forall i k, nth_error (keys st') i = Some k -> d (N.of_nat i) = Some k) /\
  (forall id, next st <= id < next st' -> T id = tbl st' id).

(** [st'] is [st] after writing [e]; [S]: strings that may have been registered. *)
Definition post (st st' : sstate) (e : bytes) (S : bytes -> Prop) (P : dict -> table -> Prop) : Prop :=
  outer st' = outer st ++ e /\ shape st st' /\
  (len (outer st') < W32 -> Inv st ->
     Inv st' /\ ext S st st' /\ forall D T, agree D T st st' -> P D T).

Definition none : bytes -> Prop := fun _ => False.

Lemma shape_refl st : shape st st.
Proof. split; tauto. Qed.
Lemma shape_trans a b c : shape a b -> shape b c -> shape a c.
Proof. unfold shape; intros [H1 H2] [H3 H4]; split; tauto. Qed.

Lemma ext_refl S st : ext S st st.
Proof. split; [exists []; rewrite app_nil_r; auto|]. split; [lia|auto]. Qed.

Lemma ext_trans S1 S2 a b c :
  ext S1 a b -> ext S2 b c -> ext (fun k => S1 k \/ S2 k) a c.
Proof.
  intros ([n1 [E1 F1]] & L1 & T1) ([n2 [E2 F2]] & L2 & T2). split; [|split].
  - exists (n1 ++ n2). rewrite E2, E1, app_assoc. split; [reflexivity|].
    apply Forall_app; split; eapply Forall_impl; [|exact F1| |exact F2]; tauto.
  - lia.
  - intros id H. rewrite T2 by lia. now apply T1.
Qed.

Lemma ext_weaken (S S' : bytes -> Prop) a b : (forall k, S k -> S' k) -> ext S a b -> ext S' a b.
Proof.
  intros H ([n1 [E1 F1]] & R). split; [|exact R]. exists n1; split; [exact E1|].
  eapply Forall_impl; [|exact F1]; auto.
Qed.

Lemma agree_split S1 S2 D T a b c :
  shape a b -> shape b c -> ext S1 a b -> ext S2 b c -> agree D T a c -> agree D T a b /\ agree D T b c.
Proof.
  intros [Sh1 _] [Sh2 _] (_ & L1 & _) ([n2 [E2 _]] & L2 & T2) [HD HT]. split; split.
  - destruct HD as [[H1 H2]|[H1 (d & Hd & H2)]]; [left; tauto|right].
    split; [tauto|]. exists d; split; [exact Hd|].
    intros i k Hi. apply H2. rewrite E2. rewrite nth_error_app1; [exact Hi|].
    apply nth_error_Some; congruence.
  - intros id H. rewrite HT by lia. apply T2; lia.
  - exact HD.
  - intros id H. apply HT; lia.
Qed.

Lemma agree_exists a b : exists D T, agree D T a b.
Proof.
  exists (match smap b with None => None | Some _ => Some (fun i => nth_error (keys b) (N.to_nat i)) end).
  exists (tbl b). split; [|auto].
  destruct (smap b) as [m|]; [right|now left]. split; [congruence|].
  eexists; split; [reflexivity|]. intros i k H; cbn. now rewrite Nat2N.id.
Qed.

Lemma post_trans S1 S2 P1 P2 a b c e1 e2 :
  post a b e1 S1 P1 -> post b c e2 S2 P2 ->
  post a c (e1 ++ e2) (fun k => S1 k \/ S2 k) (fun D T => P1 D T /\ P2 D T).
Proof.
  intros (O1 & Sh1 & H1) (O2 & Sh2 & H2). split; [|split].
  - now rewrite O2, O1, app_assoc.
  - eapply shape_trans; eauto.
  - intros HL HI. assert (HLb : len (outer b) < W32).
    { rewrite O2, len_app in HL. lia. }
    destruct (H1 HLb HI) as (HIb & HE1 & HP1).
    destruct (H2 HL HIb) as (HIc & HE2 & HP2).
    split; [exact HIc|]. split; [eapply ext_trans; eauto|].
    intros D T HA. destruct (agree_split _ _ _ _ _ _ _ Sh1 Sh2 HE1 HE2 HA) as [HA1 HA2].
    split; auto.
Qed.

Lemma post_weaken (S S' : bytes -> Prop) (P P' : dict -> table -> Prop) a b e :
  (forall k, S k -> S' k) ->
  (len e < W32 -> forall D T, (smap a = None <-> D = None) -> P D T -> P' D T) ->
  post a b e S P -> post a b e S' P'.
Proof.
  intros HS HP (O & Sh & H). split; [exact O|]. split; [exact Sh|]. intros HL HI.
  destruct (H HL HI) as (H1 & H2 & H3). split; [exact H1|].
  split; [eapply ext_weaken; eauto|]. intros D T HA. apply HP; [| |now apply H3].
  - rewrite O, len_app in HL; lia.
  - destruct Sh as [Sh _], HA as [[[Hn ->]|[Hn (d & -> & _)]] _]; split; intros; try tauto; try congruence.
Qed.

(** Writing bytes only. *)
Lemma post_append st e : post st (with_outer st (outer st ++ e)) e none (fun _ _ => True).
Proof.
  split; [reflexivity|]. split; [split; cbn; tauto|]. intros HL HI. split; [|split].
  - destruct HI as [I1 [I2 I3] [I4 I5] I6 I7]. constructor; unfold keys, next, info in *; cbn in *; auto;
      rewrite len_app; split; auto; lia.
  - split; [exists []; rewrite app_nil_r; auto|]. split; [unfold next; cbn; lia|]. intros; reflexivity.
  - auto.
Qed.

Lemma st_seriLength_ok c n st :
  char_signed c = true ->
  st_seriLength c n st = Ok (with_outer st (outer st ++ venc (u32 n))).
Proof.
  intros Hc. unfold st_seriLength, seriLength.
  rewrite varint_encode_ok; [reflexivity|exact Hc| |lia].
  pose proof (u32_lt n); rewrite W32_val, W64_val in *; lia.
Qed.

(** ** Strings and keys *)
Lemma register_ok m str ks :
  sm_map m = number_from 0 ks -> sm_next m = len ks -> sm_re m = None -> NoDup ks -> len ks + 1 < W32 ->
  exists id m' new,
    RegisterIdFromString str m = (id, m') /\ sm_map m' = number_from 0 (ks ++ new) /\
    sm_next m' = len (ks ++ new) /\ sm_re m' = None /\ NoDup (ks ++ new) /\
    len new <= 1 /\ Forall (eq str) new /\ id < len (ks ++ new) /\
    nth_error (ks ++ new) (N.to_nat id) = Some str.
Proof.
  intros Hm Hn Hre Hnd HW. unfold RegisterIdFromString. rewrite Hm.
  destruct (assoc_find bytes_eqb str (number_from 0 ks)) as [id|] eqn:Hf.
  - apply assoc_find_In in Hf; [|apply bytes_eqb_spec].
    apply number_from_In in Hf as [_ Hi]. rewrite N.sub_0_r in Hi.
    exists id, m, []. rewrite app_nil_r. repeat split; auto; try lia.
    + rewrite len_nil; lia.
    + assert (N.to_nat id < length ks)%nat by (apply nth_error_Some; congruence). unfold len; lia.
  - apply assoc_find_None in Hf; [|apply bytes_eqb_spec]. rewrite number_from_fst in Hf.
    eexists; eexists; exists [str]. split; [reflexivity|]. cbn.
    rewrite number_from_app. cbn [number_from]. rewrite N.add_0_l, Hn.
    change (len [str]) with 1. rewrite len_app. change (len [str]) with 1.
    rewrite u32_small by exact HW.
    repeat split; auto; try lia.
    + 
      apply (Permutation_NoDup (l := str :: ks)); [apply Permutation_cons_append|constructor; auto].
    + now rewrite to_nat_len, nth_error_mid.
Qed.

Definition with_map (st : sstate) (m : string_map bytes) : sstate :=
  {| outer := outer st; smap := Some m; sinfo := sinfo st |}.

(** Registering a string and writing its id. *)
Lemma post_register c st m str :
  char_signed c = true -> smap st = Some m -> good st ->
  let (id, m') := RegisterIdFromString str m in
  exists e st', st_seriLength c id (with_map st m') = Ok st' /\
    post st st' e (eq str) (fun D T => str_wire D str e).
Proof.
  intros Hc Hm Hg.
  destruct (RegisterIdFromString str m) as [id m'] eqn:Hr.
  rewrite st_seriLength_ok by exact Hc.
  eexists _, _; split; [reflexivity|]. split; [reflexivity|].
  split; [split; cbn; [rewrite Hm; split; congruence|auto]|].
  intros HL HI. cbn in HL. rewrite len_app in HL.
  destruct HI as [I1 [I2 I3] [I4 I5] I6 I7]. rewrite Hm in I1. destruct I1 as (I1 & I1' & I1'').
  pose proof (venc_len_pos (u32 id)) as Hp.
  assert (Hlt : len (keys st) + 1 < W32) by (cbn in HL; lia).
  destruct (register_ok m str (keys st) I1 I1' I1'' I2 Hlt) as (id' & m1 & new & Hr' & R1 & R2 & R3 & R4 & R5 & R6 & R7 & R8).
  rewrite Hr in Hr'. injection Hr' as <- <-.
  assert (Hk : keys (with_outer (with_map st m') (outer (with_map st m') ++ venc (u32 id))) = keys st ++ new).
  { unfold keys at 1; cbn. rewrite R1. apply number_from_fst. }
  rewrite len_app in R7.
  assert (Hid : u32 id = id) by (apply u32_small; rewrite W32_val in *; lia).
  split; [|split].
  - constructor.
    + cbn [smap with_outer with_map]. rewrite Hk. auto.
    + rewrite Hk. split; [exact R4|]. cbn. rewrite !len_app. lia.
    + cbn. unfold next in *; cbn. rewrite len_app. lia.
    + exact I6.
    + exact I7.
  - split; [exists new; split; [exact Hk|exact R6]|]. split; [unfold next; cbn; lia|]. intros; reflexivity.
  - intros D T [HD _]. cbn [smap with_outer with_map] in HD.
    destruct HD as [[H _]|[_ (d & -> & Hd)]]; [discriminate|].
    rewrite Hid. constructor.
    + rewrite W32_val in *; lia.
    + rewrite Hk in Hd. specialize (Hd _ _ R8). now rewrite N2Nat.id in Hd.
Qed.

(** A plain length-prefixed string. *)
Lemma post_plain st s :
  post st (with_outer st (outer st ++ venc (u32 (len s)) ++ s)) (venc (u32 (len s)) ++ s) none
    (fun _ _ => len s < W32).
Proof.
  eapply post_weaken; [| |apply post_append]; [auto|].
  intros HL D T _ _. rewrite len_app in HL. lia.
Qed.

Lemma seri_key_ok c key st :
  char_signed c = true -> good st ->
  exists st' e, seri_key c key st = Ok st' /\
    post st st' e (eq key) (fun D T => str_wire D key e).
Proof.
  intros Hc Hg. unfold seri_key. destruct (smap st) as [m|] eqn:Hm.
  - pose proof (post_register c st m key Hc Hm Hg) as H.
    destruct (RegisterIdFromString key m) as [id m']. destruct H as (e & st' & H1 & H2).
    exists st', e. split; [exact H1|exact H2].
  - rewrite st_seriLength_ok by exact Hc. cbn [obind].
    eexists _, _; split; [reflexivity|]. cbn [outer with_outer].
    unfold with_outer; cbn. rewrite <- app_assoc, u32_u32.
    eapply post_weaken; [| |apply (post_plain st key)].
    + intros k [].
    + intros HL D T HD H. replace D with (@None (N -> option bytes)) by (symmetry; now apply HD).
      rewrite u32_small by exact H. now constructor.
Qed.

(** ** Data nodes *)
Definition strs (v : value) (k : bytes) : Prop := occurs k v.

Lemma dt_of_num_not_blob t :
  (dt_of_num t =? BRIDGE_BYTES) = false /\ (dt_of_num t =? BRIDGE_CUSTOM) = false /\
  (dt_of_num t =? BRIDGE_STRING) = false /\ num_of_dt (dt_of_num t) = Some t /\
  valid_data_type (dt_of_num t) = true /\ dt_of_num t < 128.
Proof. destruct t; vm_compute; repeat split. Qed.

Lemma numty_eqb_refl t : numty_eqb t t = true.
Proof. now destruct t. Qed.

Lemma sizeof_num_small t : sizeof_num t <= 8.
Proof. destruct t; cbn; lia. Qed.

Lemma u32_sizeof t : u32 (sizeof_num t) = sizeof_num t.
Proof. apply u32_small; pose proof (sizeof_num_small t); rewrite W32_val; lia. Qed.

Lemma slice_len {A} (l : list A) a n : a + n <= len l -> len (slice l a n) = n.
Proof. intros H. unfold slice, len in *. rewrite firstn_length, skipn_length. lia. Qed.

Lemma read_range_len content a n s : read_range content a n = Ok s -> n = len s.
Proof.
  unfold read_range. destruct (N.eqb_spec n 0) as [->|]; [intros [= <-]; reflexivity|].
  destruct (N.leb_spec (a + n) (len content + 1)); [|discriminate]. intros [= <-].
  symmetry; apply slice_len. rewrite len_app, len_cons, len_nil. lia.
Qed.

Lemma read_view_len mem v s : read_view mem v = Ok s -> v_len v = len s.
Proof. unfold read_view. destruct (mem (v_buf v)); [apply read_range_len|discriminate]. Qed.

Lemma post_push n st : post st (st_push n st) [n2b n] none (fun _ _ => True).
Proof. apply post_append. Qed.

Lemma post_good st st' e S P : good st -> post st st' e S P -> good st'.
Proof. intros Hg (_ & [_ Sh] & _); auto. Qed.

Lemma good_push n st : good st -> good (st_push n st).
Proof. auto. Qed.

Lemma Data_valueSeri_ok c mem dt s x st f :
  char_signed c = true -> good st ->
  (data_denotes dt s x /\ f = Data_valueSeri c dt s \/
   view_denotes mem dt s x /\ f = DataView_valueSeri c mem dt s) ->
  exists st' e, f st = Ok st' /\
    post st st' e (strs (VScalar x)) (fun D T => scalar_wire D x e).
Proof.
  intros Hc Hg Hf.
  (* the shapes common to the cases: the tag, then the payload *)
  assert (Hplain : forall d str str',  str' = str ->
    (forall D, (smap st = None <-> D = None) -> len str < W32 ->
       scalar_wire D x (n2b d :: venc (len str) ++ str)) ->
    exists st' e,
      obind (st_seriLength c (len str) (st_push d st))
        (fun st1 => Ok (with_outer st1 (outer st1 ++ str'))) = Ok st' /\
      post st st' e (strs (VScalar x)) (fun D T => scalar_wire D x e)).
  { intros d str ? -> Hw. rewrite st_seriLength_ok by exact Hc. cbn [obind].
    eexists _, (_ :: _); split; [reflexivity|].
    unfold with_outer; cbn. rewrite <- !app_assoc.
    pose proof (post_trans _ _ _ _ _ _ _ _ _ (post_push d st) (post_plain (st_push d st) str)) as H.
    unfold with_outer in H; cbn in H. rewrite <- app_assoc in H. cbn in H.
    eapply post_weaken; [| |exact H].
    - intros k [[]|[]].
    - intros HL D T HD [_ H1]. rewrite u32_small by exact H1. now apply Hw. }
  assert (Hnum : forall t n, num_ok t n -> x = VNum t n ->
    exists st' e,
      obind (st_seriLength c (sizeof_num t) (st_push (dt_of_num t) st))
        (fun st1 => Ok (with_outer st1 (outer st1 ++ num_to_wire c (sizeof_num t) n))) = Ok st' /\
      post st st' e (strs (VScalar x)) (fun D T => scalar_wire D x e)).
  { intros t n Hn ->. rewrite st_seriLength_ok by exact Hc. cbn [obind].
    eexists _, (_ :: _); split; [reflexivity|].
    unfold with_outer; cbn. rewrite <- !app_assoc.
    pose proof (post_append st ([n2b (dt_of_num t)] ++ venc (u32 (sizeof_num t)) ++
                    num_to_wire c (sizeof_num t) n)) as H.
    eapply post_weaken; [| |exact H].
    - intros k [].
    - intros HL D T _ _. rewrite u32_sizeof, num_to_wire_be. now constructor. }
  assert (Hstr : forall str m, x = VStr str -> smap st = Some m ->
    exists st' e,
      (let (id, m') := RegisterIdFromString str m in
       st_seriLength c id
         {| outer := outer (st_push BRIDGE_STRING st); smap := Some m';
            sinfo := sinfo (st_push BRIDGE_STRING st) |}) = Ok st' /\
      post st st' e (strs (VScalar x)) (fun D T => scalar_wire D x e)).
  { intros str m -> Hm.
    pose proof (post_register c (st_push BRIDGE_STRING st) m str Hc Hm Hg) as H.
    destruct (RegisterIdFromString str m) as [id m']. destruct H as (e & st' & H1 & H2).
    exists st', (n2b BRIDGE_STRING :: e). split; [exact H1|].
    pose proof (post_trans _ _ _ _ _ _ _ _ _ (post_push BRIDGE_STRING st) H2) as H.
    eapply post_weaken; [| |exact H].
    - intros k [[]|<-]. constructor.
    - intros HL D T _ [_ H3]. now constructor. }
  assert (Hw_str : forall str, x = VStr str -> forall D, (smap st = None <-> D = None) ->
            smap st = None -> len str < W32 ->
            scalar_wire D x (n2b BRIDGE_STRING :: venc (len str) ++ str)).
  { intros str -> D HD Hm HL. replace D with (@None (N -> option bytes)) by (symmetry; now apply HD).
    now repeat constructor. }
  destruct Hf as [[Hd ->]|[Hd ->]].
  - destruct Hd as [str|str|str|t n Hn]; unfold Data_valueSeri.
    + replace (negb (valid_data_type BRIDGE_STRING)) with false by reflexivity.
      replace (BRIDGE_STRING =? BRIDGE_STRING) with true by reflexivity.
      destruct (smap st) as [m|] eqn:Hm; [now apply Hstr|].
      apply Hplain; [reflexivity|]. intros D HD HL. now apply Hw_str.
    + replace (negb (valid_data_type BRIDGE_BYTES)) with false by reflexivity.
      replace (BRIDGE_BYTES =? BRIDGE_STRING) with false by reflexivity.
      destruct (smap st) as [m|]; (apply Hplain; [reflexivity|]; intros D HD HL; now constructor).
    + replace (negb (valid_data_type BRIDGE_CUSTOM)) with false by reflexivity.
      replace (BRIDGE_CUSTOM =? BRIDGE_STRING) with false by reflexivity.
      destruct (smap st) as [m|]; (apply Hplain; [reflexivity|]; intros D HD HL; now constructor).
    + destruct (dt_of_num_not_blob t) as (E1 & E2 & E3 & E4 & E5 & _).
      rewrite E5, E3. cbn [negb]. unfold seriData. rewrite E1, E2, E3, E4. cbn [orb get_num].
      rewrite numty_eqb_refl. cbn [obind]. destruct (smap st); now apply Hnum.
  - destruct Hd as [v str Hr|v str Hr|t n Hn]; unfold DataView_valueSeri.
    + replace (negb (valid_data_type BRIDGE_STRING)) with false by reflexivity.
      replace (BRIDGE_STRING =? BRIDGE_STRING) with true by reflexivity.
      destruct (smap st) as [m|] eqn:Hm.
      * cbn [get_view obind]. rewrite Hr. cbn [obind]. now apply Hstr.
      * unfold seriData_view. replace (_ || _) with true by reflexivity.
        cbn [get_view obind]. rewrite Hr. rewrite (read_view_len _ _ _ Hr).
        rewrite st_seriLength_ok by exact Hc. cbn [obind].
        destruct (Hplain BRIDGE_STRING str str eq_refl) as (st' & e & H1 & H2).
        { intros D HD HL. now apply Hw_str. }
        rewrite st_seriLength_ok in H1 by exact Hc. exists st', e. split; [exact H1|exact H2].
    + replace (negb (valid_data_type BRIDGE_BYTES)) with false by reflexivity.
      replace (BRIDGE_BYTES =? BRIDGE_STRING) with false by reflexivity.
      unfold seriData_view. replace (_ || _) with true by reflexivity.
      cbn [get_view obind]. rewrite Hr. rewrite (read_view_len _ _ _ Hr).
      rewrite st_seriLength_ok by exact Hc. cbn [obind].
      destruct (Hplain BRIDGE_BYTES str str eq_refl) as (st' & e & H1 & H2).
      { intros D HD HL. now constructor. }
      rewrite st_seriLength_ok in H1 by exact Hc. exists st', e.
      destruct (smap st); (split; [exact H1|exact H2]).
    + destruct (dt_of_num_not_blob t) as (E1 & E2 & E3 & E4 & E5 & _).
      rewrite E5, E3. cbn [negb]. unfold seriData_view. rewrite E1, E3, E4. cbn [orb get_num].
      rewrite numty_eqb_refl. cbn [obind]. destruct (smap st); now apply Hnum.
Qed.
