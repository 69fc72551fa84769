(** * Properties C28, C29, C49: the dictionary and the split table. *)
From Verif Require Import Base BaseLemmas ModelVarint ModelData ModelSecondary ModelObject
  ModelParse ModelWrapper Spec VarintProofs Wire NumProofs SeriProofs DocProofs
  ParseLemmas NormalProofs SecondaryProofs Samples.
From Coq Require Import ZifyBool ZifyNat ZifyN.

(** ** StringMap *)

(** RegisterIdFromString called on each string of a list, in order. *)
Fixpoint register_all (l : list bytes) (m : string_map bytes) : list N * string_map bytes :=
  match l with
  | [] => ([], m)
  | s :: l' =>
      let (id, m1) := RegisterIdFromString s m in
      let (ids, m2) := register_all l' m1 in (id :: ids, m2)
  end.

Definition number_ok (strings : list bytes) (m : string_map bytes) : Prop :=
  sm_map m = number_from 0 strings /\ sm_next m = u32 (len strings) /\ sm_re m = None /\ NoDup strings.

Lemma register_one strings m s :
  number_ok strings m -> len strings < 2 ^ 32 ->
  exists id m', RegisterIdFromString s m = (id, m') /\
    ((nth_error strings (N.to_nat id) = Some s /\ m' = m) \/
     (~ In s strings /\ id = len strings /\ number_ok (strings ++ [s]) m')).
Proof.
  intros (Hm & Hn & Hre & Hnd) HL. unfold RegisterIdFromString. rewrite Hm.
  destruct (assoc_find bytes_eqb s (number_from 0 strings)) as [id|] eqn:Hf.
  - exists id, m. split; [reflexivity|]. left. split; [|reflexivity].
    apply assoc_find_In in Hf; [|apply bytes_eqb_spec]. apply number_from_In in Hf.
    now rewrite N.sub_0_r in Hf.
  - eexists _, _. split; [reflexivity|]. right.
    apply assoc_find_None in Hf; [|apply bytes_eqb_spec]. rewrite number_from_fst in Hf.
    split; [exact Hf|]. rewrite Hn. split; [now apply u32_small|].
    unfold number_ok. cbn [sm_map sm_next sm_re]. rewrite number_from_app, N.add_0_l. cbn [number_from].
    rewrite u32_small by exact HL. split; [reflexivity|]. rewrite len_app. cbn. split; [reflexivity|].
    split; [exact Hre|]. eapply Permutation_NoDup; [apply Permutation_cons_append|]. now constructor.
Qed.

Lemma register_all_ok l : forall strings m, number_ok strings m ->
  len strings + len l <= 2 ^ 32 ->
  exists ids m' strings', register_all l m = (ids, m') /\ number_ok strings' m' /\
    (exists new, strings' = strings ++ new) /\
    (forall s, In s strings' <-> In s strings \/ In s l) /\
    Forall2 (fun s id => nth_error strings' (N.to_nat id) = Some s) l ids /\
    (forall i id, nth_error ids i = Some id -> forall j, len strings <= j < id -> In j (firstn i ids)).
Proof.
  induction l as [|s l IH]; intros strings m Hok HL; cbn [register_all].
  - exists [], m, strings. split; [reflexivity|]. split; [exact Hok|]. split; [exists []; now rewrite app_nil_r|].
    split; [cbn; tauto|]. split; [constructor|]. intros [|i] id H; discriminate.
  - rewrite len_cons in HL.
    destruct (register_one strings m s Hok) as (id & m1 & Hr & Hc); [lia|]. rewrite Hr.
    assert (exists strings1, number_ok strings1 m1 /\ (exists new, strings1 = strings ++ new) /\
              (forall x, In x strings1 <-> In x strings \/ x = s) /\ nth_error strings1 (N.to_nat id) = Some s /\
              len strings1 <= len strings + 1 /\ id <= len strings /\
              (forall j, len strings <= j < len strings1 -> j = id)) as (strings1 & Hok1 & [new1 Hn1] & Hin1 & Hid & Hl1 & Hid0 & Hj1).
    { destruct Hc as [ [Hi -> ] | (Hni & -> & Hok1) ].
      - exists strings. split; [exact Hok|]. split; [exists []; now rewrite app_nil_r|].
        assert (In s strings) by (now apply nth_error_In in Hi).
        split; [intros x; split; [tauto|]; intros [ | -> ]; assumption|]. split; [exact Hi|].
        assert (N.to_nat id < length strings)%nat by (apply nth_error_Some; congruence).
        unfold len. split; [lia|]. split; lia.
      - exists (strings ++ [s]). split; [exact Hok1|]. split; [eauto|]. split.
        { intros x. rewrite in_app_iff. cbn. intuition. }
        split; [unfold len; rewrite Nat2N.id; apply nth_error_mid|]. rewrite len_app, len_cons, len_nil.
        split; [lia|]. split; [lia|]. intros; lia. }
    destruct (IH strings1 m1 Hok1) as (ids & m2 & strings2 & Hrun & Hok2 & [new2 Hn2] & Hin2 & HF & Hord); [lia|].
    rewrite Hrun. exists (id :: ids), m2, strings2. split; [reflexivity|]. split; [exact Hok2|].
    split; [exists (new1 ++ new2); now rewrite Hn2, Hn1, app_assoc|].
    split. { intros x. rewrite Hin2, Hin1. cbn. intuition. }
    split. { constructor; [|exact HF]. rewrite Hn2. rewrite nth_error_app1; [exact Hid|]. apply nth_error_Some. congruence. }
    intros [|i] id' Hi j Hj.
    + injection Hi as ->. lia.
    + cbn in Hi. cbn [firstn]. destruct (N.ltb_spec j (len strings1)) as [Hlt|Hge].
      * left. symmetry. apply Hj1. lia.
      * right. eapply Hord; [exact Hi|lia].
Qed.

Lemma GetStr_numbered {K} {HK : Hashable K} c (l : list (K * N)) (m : string_map K) strings id :
  sane c -> sm_map m = l -> sm_re m = None ->
  map snd l = map snd (number_from 0 strings) \/ Permutation (map snd l) (map snd (number_from 0 strings)) ->
  (forall k, In (k, id) l -> exists m', GetStr c id m = Ok (k, m')) /\
  (len strings <= id -> GetStr c id m = Throw ERuntime).
Proof.
  intros [_ Hit] <- Hre HP. assert (Permutation (map snd (sm_map m)) (map snd (number_from 0 strings))) as HP'.
  { destruct HP as [->|]; auto. }
  assert (HND : NoDup (map snd (hash_order c (sm_map m)))).
  { eapply Permutation_NoDup; [apply Permutation_map; symmetry; apply Hit|].
    eapply Permutation_NoDup; [symmetry; exact HP'|apply number_from_snd_NoDup]. }
  unfold GetStr. rewrite Hre. destruct (buildReMap_find _ [] id HND) as [H1 H2]. unfold buildReMap. split.
  - intros k Hk. rewrite (H1 k); [eauto|]. eapply Permutation_in; [symmetry; apply Hit|exact Hk].
  - intros Hid. rewrite H2; [reflexivity|]. intros Hin.
    apply (Permutation_in _ (Permutation_map snd (Hit _ _ _ (sm_map m)))) in Hin.
    apply (Permutation_in _ HP') in Hin. apply in_map_iff in Hin as ([k i] & Hi & Hin). cbn in Hi. subst.
    pose proof (number_from_bound 0 strings) as HB. rewrite Forall_forall in HB. specialize (HB _ Hin). cbn in HB. lia.
Qed.

(** C28.  [strings] lists the distinct registered strings by id. *)
Theorem C28_dictionary_ids : forall c l ids m,
  sane c -> len l < 2 ^ 32 -> register_all l sm_empty = (ids, m) ->
  exists strings,
    NoDup strings /\ (forall s, In s strings <-> In s l) /\
    (* each call returned the position of its string: equal strings get equal ids,
       different ones different ids, all below the number of distinct strings *)
    Forall2 (fun s id => nth_error strings (N.to_nat id) = Some s) l ids /\
    (* ids are given in order of first registration: smaller ones came before *)
    (forall i id, nth_error ids i = Some id -> forall j, j < id -> In j (firstn i ids)) /\
    (* lookups, in any iteration order of the hash table *)
    (forall id s, nth_error strings (N.to_nat id) = Some s -> exists m', GetStr c id m = Ok (s, m')) /\
    (forall id, len strings <= id -> GetStr c id m = Throw ERuntime) /\
    (* the same after Serialize and Construct, as views into the bytes *)
    (forall c' table A B buf fuel,
       sane c' -> StringMap_Serialize c m = Ok table -> fits c' (A ++ table ++ B) -> (length table <= fuel)%nat ->
       exists m', StringMap_Construct {| r_cfg := c'; r_content := A ++ table ++ B;
                                         r_base := len A; r_size := len table |} buf fuel = Ok m' /\
         (forall id s, nth_error strings (N.to_nat id) = Some s ->
            exists w m'', GetStr c' id m' = Ok (w, m'') /\ v_buf w = buf /\
                          read_range (A ++ table ++ B) (v_off w) (v_len w) = Ok s) /\
         (forall id, len strings <= id -> GetStr c' id m' = Throw ERuntime)).
Proof.
  intros c l ids m Hc HL Hrun.
  destruct (register_all_ok l [] sm_empty) as (ids' & m' & strings & Hr & (Hm & Hn & Hre & Hnd) & _ & Hin & HF & Hord).
  { repeat split; constructor. }
  { rewrite len_nil. lia. }
  rewrite Hrun in Hr. injection Hr as <- <-. exists strings.
  split; [exact Hnd|]. split; [intros s; rewrite Hin; cbn; tauto|]. split; [exact HF|].
  split; [intros i id Hi j Hj; eapply Hord; [exact Hi|rewrite len_nil; lia]|].
  split; [|split].
  - intros id s Hs. eapply GetStr_numbered; [exact Hc|reflexivity|exact Hre|left; rewrite Hm; reflexivity|].
    rewrite Hm. apply number_from_In. rewrite N.sub_0_r. split; [lia|exact Hs].
  - intros id Hid. eapply GetStr_numbered; [exact Hc|reflexivity|exact Hre|left; rewrite Hm; reflexivity|exact Hid].
  - intros c' table A B buf fuel Hc' Hs Hf Hu. destruct Hc as [Hc Hit].
    destruct (StringMap_Serialize_ok c m Hc) as (t & Hs1 & Hs2). rewrite Hs in Hs1. injection Hs1 as <-.
    assert (HLc : lim c' (len (A ++ table ++ B))) by exact Hf.
    assert (HW : len table < W32) by (apply lim_W32 in HLc; rewrite !len_app in HLc; lia).
    assert (Hls : len strings <= len l).
    { enough (length strings <= length l)%nat by (unfold len; lia). apply NoDup_incl_length; [exact Hnd|]. intros s Hs'. apply Hin in Hs'. destruct Hs' as [[]|]; auto. }
    assert (Ht : table = dict_bytes (hash_order c (sm_map m))).
    { apply Hs2; [exact HW|rewrite Hm, number_from_len, W32_val; lia|apply Hit|].
      rewrite Hm. eapply Forall_impl; [|apply number_from_bound]. cbn. intros x Hx. rewrite W32_val. lia. }
    assert (HP : Permutation (hash_order c (sm_map m)) (number_from 0 strings)) by (rewrite Hm; apply Hit).
    set (E := {| r_cfg := c'; r_content := A ++ table ++ B; r_base := len A; r_size := len table |}).
    destruct (StringMap_Construct_ok E buf fuel (hash_order c (sm_map m)) A B) as (m' & H1 & H2 & H3); try reflexivity; auto.
    + cbn. now rewrite Ht.
    + cbn. now rewrite Ht.
    + eapply lim_le; [|exact HLc]. cbn. rewrite !len_app. lia.
    + eapply Permutation_Forall; [symmetry; exact HP|].
      eapply Forall_impl; [|apply number_from_bound]. cbn. intros x Hx. rewrite W32_val. lia.
    + eapply Permutation_NoDup; [apply Permutation_map; symmetry; exact HP|]. now rewrite number_from_fst.
    + assert (len (hash_order c (sm_map m)) = len strings) as ->.
      { unfold len. rewrite (Permutation_length HP). fold (len (number_from 0 strings)). apply number_from_len. }
      rewrite W32_val. lia.
    + now rewrite <- Ht.
    + assert (Hsnd : Permutation (map snd (sm_map m')) (map snd (number_from 0 strings))).
      { etransitivity; [|apply Permutation_map; exact HP].
        assert (map snd (sm_map m') = map snd (hash_order c (sm_map m))) as ->; [|reflexivity].
        clear -H3. induction H3 as [|x y a b [_ He] HF IH]; cbn; congruence. }
      exists m'. split; [exact H1|]. split.
      * intros id s Hs'.
        assert (Hi : In (s, id) (hash_order c (sm_map m))).
        { eapply Permutation_in; [symmetry; exact HP|]. apply number_from_In. rewrite N.sub_0_r. split; [lia|exact Hs']. }
        apply Forall2_flip in H3. apply In_nth_error in Hi as (n & Hn').
        destruct (Forall2_nth _ _ _ _ _ H3 Hn') as ([w id'] & Hw & [[Hi1 Hi2] Hi3] & Heq). cbn in *. subst id'.
        destruct (proj1 (GetStr_numbered c' _ m' strings id Hc' eq_refl H2 (or_intror Hsnd)) w) as (m'' & Hg);
          [now apply nth_error_In in Hw|]. exists w, m''. auto.
      * intros id Hid. now apply (GetStr_numbered c' _ m' strings id Hc' eq_refl H2 (or_intror Hsnd)).
Qed.

Example C28_met : exists m, register_all [k_id; k_tags; k_id; k_sub; k_tags] sm_empty = ([0; 1; 0; 2; 1], m) /\
  omap fst (GetStr tiny 2 m) = Ok k_sub /\ GetStr tiny 3 m = Throw ERuntime.
Proof. eexists. vm_compute. auto. Qed.

(** C49.  A lookup freezes the inverse table: strings registered afterwards are not
    found under their ids.  (The library itself never registers after a lookup:
    Serialize only registers, Parse only looks up.) *)
Theorem C49_register_after_lookup_refuted : exists m1 m2 m3,
  RegisterIdFromString k_id sm_empty = (0, m1) /\ GetStr x86_debug 0 m1 = Ok (k_id, m2) /\
  RegisterIdFromString k_tags m2 = (1, m3) /\ GetStr x86_debug 1 m3 = Throw ERuntime.
Proof. do 3 eexists. vm_compute. auto. Qed.

(** What holds for every history: once a lookup has built the table it answers
    exactly as it did then, whatever is registered later. *)
Theorem C49_frozen_table_partial : forall c m l ids m' id re,
  sm_re m = Some re -> register_all l m = (ids, m') ->
  omap fst (GetStr c id m') = omap fst (GetStr c id m).
Proof.
  intros c m l. revert m. induction l as [|s l IH]; intros m ids m' id re Hre; cbn.
  - intros [= <- <-]. reflexivity.
  - destruct (RegisterIdFromString s m) as [i m1] eqn:Hr. destruct (register_all l m1) as [is m2] eqn:Hr2.
    intros [= <- <-].
    assert (Hre1 : sm_re m1 = Some re).
    { unfold RegisterIdFromString in Hr. destruct (assoc_find _ _ _); injection Hr as <- <-; exact Hre. }
    rewrite (IH m1 is m2 id re Hre1 Hr2). unfold GetStr. rewrite Hre, Hre1.
    destruct (assoc_find N.eqb id re); reflexivity.
Qed.

Example C49_met : exists m2, GetStr x86_debug 0 (snd (register_all [k_id] sm_empty)) = Ok (k_id, m2) /\ sm_re m2 <> None.
Proof. eexists. vm_compute. split; [reflexivity|discriminate]. Qed.

(** ** SplitInfo *)

(** Histories of a table: requesting an id, registering a block list. *)
Inductive si_op := Request | Register (id : N) (blocks : list N).

Fixpoint si_run (ops : list si_op) (si : split_info) : list N * split_info :=
  match ops with
  | [] => ([], si)
  | Request :: l => let (id, si1) := RequestId si in let (ids, si2) := si_run l si1 in (id :: ids, si2)
  | Register id b :: l => si_run l (RegisterSplitInfo id b si)
  end.

(** The last block list registered under an id. *)
Fixpoint last_registered (id : N) (ops : list si_op) : option (list N) :=
  match ops with
  | [] => None
  | Request :: l => last_registered id l
  | Register id' b :: l =>
      match last_registered id l with
      | Some b' => Some b'
      | None => if id =? id' then Some b else None
      end
  end.

Fixpoint requests (ops : list si_op) : N :=
  match ops with [] => 0 | Request :: l => 1 + requests l | _ :: l => requests l end.

Lemma si_run_ok ops : forall si ids si',
  si_run ops si = (ids, si') -> si_next si + requests ops < 2 ^ 32 ->
  ids = map (fun i => si_next si + N.of_nat i) (seq 0 (N.to_nat (requests ops))) /\
  si_next si' = si_next si + requests ops /\
  (forall id, assoc_find N.eqb id (si_info si') =
     match last_registered id ops with Some b => Some b | None => assoc_find N.eqb id (si_info si) end).
Proof.
  induction ops as [|[|id b] ops IH]; intros si ids si' Hrun HL; cbn in *.
  - injection Hrun as <- <-. split; [reflexivity|]. split; [lia|reflexivity].
  - destruct (si_run ops _) as [ids1 si1] eqn:Hr. injection Hrun as <- <-.
    destruct (IH _ _ _ Hr) as (H1 & H2 & H3); cbn [si_next] in *; rewrite u32_small in * by (rewrite ?W32_val; lia); [lia|].
    split; [|split; [lia|exact H3]].
    replace (N.to_nat (1 + requests ops)) with (S (N.to_nat (requests ops))) by lia. cbn [seq map]. f_equal; [lia|].
    rewrite H1, <- seq_shift, map_map. apply map_ext. intros; lia.
  - destruct (IH _ _ _ Hrun) as (H1 & H2 & H3); [cbn; lia|]. cbn [si_next RegisterSplitInfo si_info] in *.
    split; [exact H1|]. split; [exact H2|]. intros id'. rewrite H3.
    destruct (last_registered id' ops); [reflexivity|]. rewrite assoc_find_set by apply N.eqb_spec. now destruct (id' =? id).
Qed.

(** Registered ids are requested ones, block sizes and counts are 32-bit numbers. *)
Definition ops_ok (ops : list si_op) : Prop :=
  Forall (fun op => match op with
                    | Request => True
                    | Register id b => 1 <= id <= requests ops /\ Forall (fun n => n < 2 ^ 32) b /\ len b < 2 ^ 32
                    end) ops.

Lemma si_run_info ops : forall si ids si' (P : N -> list N -> Prop),
  si_run ops si = (ids, si') ->
  (forall id b, In (Register id b) ops -> P id b) ->
  NoDup (map fst (si_info si)) -> Forall (fun e => P (fst e) (snd e)) (si_info si) ->
  NoDup (map fst (si_info si')) /\ Forall (fun e => P (fst e) (snd e)) (si_info si').
Proof.
  induction ops as [|[|id b] ops IH]; intros si ids si' P Hrun HP Hnd HF; cbn in Hrun.
  - injection Hrun as <- <-. auto.
  - destruct (si_run ops _) as [ids1 si1] eqn:Hr. injection Hrun as <- <-.
    eapply IH; [exact Hr|intros; apply HP; now right|exact Hnd|exact HF].
  - eapply IH; [exact Hrun|intros; apply HP; now right| |]; cbn [si_info RegisterSplitInfo].
    + clear -Hnd. revert Hnd. generalize (si_info si). intros l. induction l as [|[i x] l IH]; intros H; cbn.
      * constructor; [intros []|constructor].
      * inversion H as [|? ? Hni H']; subst. destruct (N.eqb_spec id i) as [->|Hne]; cbn; constructor; auto.
        intros Hin. apply Hni. clear -Hin Hne. induction l as [|[j y] l IH]; cbn in *.
        -- destruct Hin as [->|[]]; congruence.
        -- destruct (N.eqb_spec id j) as [->|]; cbn in *; [exact Hin|]. destruct Hin; auto.
    + assert (Hb : P id b) by (apply HP; now left). clear -HF Hb. induction HF as [|[i x] l Hx HF IH]; cbn.
      * constructor; [exact Hb|constructor].
      * destruct (N.eqb_spec id i) as [->|]; constructor; auto.
Qed.

Lemma length_by_ids (l : list (N * list N)) n :
  NoDup (map fst l) -> Forall (fun e => 1 <= fst e <= n) l -> len l <= n.
Proof.
  intros Hnd HF. rewrite <- (len_map fst).
  assert (Hincl : incl (map fst l) (map (fun i => 1 + N.of_nat i) (seq 0 (N.to_nat n)))).
  { intros x Hx. apply in_map_iff in Hx as (y & <- & Hy). rewrite Forall_forall in HF. specialize (HF y Hy).
    apply in_map_iff. exists (N.to_nat (fst y - 1)). split; [lia|]. apply in_seq. lia. }
  pose proof (NoDup_incl_length Hnd Hincl) as H. rewrite !map_length, seq_length in H.
  unfold len. rewrite map_length. lia.
Qed.

(** C29. *)
Theorem C29_split_table : forall ops ids si,
  si_run ops si_empty = (ids, si) -> requests ops < 2 ^ 32 - 1 ->
  (* ids are never repeated *)
  NoDup ids /\ ids = map (fun i => 1 + N.of_nat i) (seq 0 (N.to_nat (requests ops))) /\
  (* a block list is found under the id it was registered with, and only there *)
  (forall id, si_Find si id = match last_registered id ops with Some _ => true | None => false end) /\
  (forall id, GetBlockInfoFromId si id =
              match last_registered id ops with Some b => Ok b | None => Throw EOutOfRange end) /\
  (* transport, in any iteration order *)
  (ops_ok ops -> forall c c' table A B fuel,
     sane c -> sane c' -> SplitInfo_Serialize c si = Ok table -> fits c' (A ++ table ++ B) -> (length table <= fuel)%nat ->
     exists si', SplitInfo_Construct {| r_cfg := c'; r_content := A ++ table ++ B;
                                        r_base := len A; r_size := len table |} fuel = Ok si' /\
       (forall id, si_Find si' id = si_Find si id /\ GetBlockInfoFromId si' id = GetBlockInfoFromId si id) /\
       si_Find si' (fst (RequestId si')) = false).
Proof.
  intros ops ids si Hrun HL.
  destruct (si_run_ok ops _ _ _ Hrun) as (H1 & H2 & H3); [cbn; lia|]. cbn [si_next si_empty si_info] in *.
  assert (Hnone : forall id, match last_registered id ops with Some b => Some b | None => assoc_find N.eqb id [] end = last_registered id ops).
  { intros id. now destruct (last_registered id ops). }
  split; [|split; [exact H1|split; [|split]]].
  - rewrite H1. apply FinFun.Injective_map_NoDup; [intros a b; lia|apply seq_NoDup].
  - intros id. unfold si_Find. now rewrite H3, Hnone.
  - intros id. unfold GetBlockInfoFromId. now rewrite H3, Hnone.
  - intros Hok c c' table A B fuel [Hc Hit] Hc' Hs Hf Hu.
    destruct (si_run_info ops _ _ _ (fun id b => 1 <= id <= requests ops /\ Forall (fun n => n < 2 ^ 32) b /\ len b < 2 ^ 32) Hrun)
      as [Hnd HF]; [|constructor|constructor|].
    { intros id b Hin. unfold ops_ok in Hok. rewrite Forall_forall in Hok. apply (Hok _ Hin). }
    destruct (SplitInfo_Serialize_ok c si Hc) as (t & Hs1 & Hs2). rewrite Hs in Hs1. injection Hs1 as <-.
    assert (HLc : lim c' (len (A ++ table ++ B))) by exact Hf.
    assert (Hlen : len (si_info si) <= requests ops).
    { apply length_by_ids; [exact Hnd|]. eapply Forall_impl; [|exact HF]. cbn. tauto. }
    assert (Hinfo : info_ok (si_info si)).
    { unfold info_ok. eapply Forall_impl; [|exact HF]. cbn. intros e (He & He2 & He3). rewrite W32_val. split; [lia|]. auto. }
    assert (Ht : table = split_bytes (hash_order c (si_info si))).
    { apply Hs2; [rewrite W32_val; lia|apply Hit|exact Hinfo]. }
    set (E := {| r_cfg := c'; r_content := A ++ table ++ B; r_base := len A; r_size := len table |}).
    destruct (SplitInfo_Construct_ok E fuel (hash_order c (si_info si)) A B) as (si' & C1 & C2 & C3); try reflexivity.
    + cbn. now rewrite Ht.
    + cbn. now rewrite Ht.
    + eapply lim_le; [|exact HLc]. cbn. rewrite !len_app. lia.
    + unfold info_ok. eapply Permutation_Forall; [symmetry; apply Hit|exact Hinfo].
    + eapply Permutation_NoDup; [apply Permutation_map; symmetry; apply Hit|exact Hnd].
    + unfold len. rewrite (Permutation_length (Hit _ _ _ _)). fold (len (si_info si)). rewrite W32_val. lia.
    + now rewrite <- Ht.
    + exists si'. split; [exact C1|]. split.
      * intros id. unfold si_Find, GetBlockInfoFromId. rewrite C2, (assoc_find_perm (si_info si)); [auto|exact Hnd|apply Hit].
      * assert (HB : Forall (fun e => fst e < si_next si') (si_info si')).
        { apply C3. eapply Permutation_Forall; [symmetry; apply Hit|]. eapply Forall_impl; [|exact HF].
          cbn. intros e (He & _). rewrite W32_val. lia. }
        cbn. unfold si_Find. destruct (assoc_find N.eqb (si_next si') (si_info si')) eqn:Ha; [|reflexivity].
        apply assoc_find_In in Ha; [|apply N.eqb_spec]. rewrite Forall_forall in HB. specialize (HB _ Ha). cbn in HB. lia.
Qed.

Example C29_met : exists si table, si_run [Request; Request; Register 2 [7; 300]; Request; Register 1 [9]] si_empty = ([1; 2; 3], si) /\
  SplitInfo_Serialize tiny si = Ok table /\ table = str [2; 1; 1; 9; 2; 2; 7; 172; 2] /\ GetBlockInfoFromId si 2 = Ok [7; 300].
Proof. do 2 eexists. split; [vm_compute; reflexivity|]. split; [vm_compute; reflexivity|]. split; reflexivity. Qed.
