(** * Property C100: the platform that writes a document can only change the order of
    the entries of its tables. *)
From Verif Require Import Base BaseLemmas ModelVarint ModelData ModelSecondary ModelObject
  ModelWrapper Spec VarintProofs Wire NumProofs ObjInd DocProofs EndianProofs SeriPlatform Samples.
From Coq Require Import ZifyBool ZifyNat ZifyN.
Local Open Scope out_scope.

(** ** Specification.  Lengths, ids and block sizes are 32-bit numbers on the wire. *)
Definition lv32 (n : N) : bytes := venc (n mod 2 ^ 32).
(** A dictionary entry: key length, key, id. *)
Definition dict_entry (e : bytes * N) : bytes := lv32 (len (fst e)) ++ fst e ++ lv32 (snd e).
(** A split table entry: id, number of blocks, block sizes. *)
Definition split_entry (e : N * list N) : bytes :=
  lv32 (fst e) ++ lv32 (len (snd e)) ++ concat (map lv32 (firstn (N.to_nat (len (snd e) mod 2 ^ 32)) (snd e))).
(** A table: its size in bytes, the number of entries, the entries. *)
Definition table_section {A} (enc : A -> bytes) (l : list A) : bytes :=
  let s := lv32 (len l) ++ concat (map enc l) in lv32 (len s) ++ s.

(** Two documents with the same header, the same body and the same table entries. *)
Definition same_up_to_order (ty : SeriType) (a b : bytes) : Prop :=
  exists main dict dict' info info',
    Permutation dict dict' /\ Permutation info info' /\
    a = main ++ match ty with NORMAL => [] | REPLACE => table_section dict_entry dict end ++ table_section split_entry info /\
    b = main ++ match ty with NORMAL => [] | REPLACE => table_section dict_entry dict' end ++ table_section split_entry info'.

(** ** Proofs *)
Lemma u32_u32 n : u32 (u32 n) = u32 n.
Proof. unfold u32. apply N.mod_mod. discriminate. Qed.
Lemma lv32_u32 n : venc (u32 n) = lv32 n.
Proof. reflexivity. Qed.

Lemma dchunk_entry e : dchunk e = dict_entry e.
Proof. unfold dchunk, dict_entry. now rewrite u32_u32, !lv32_u32. Qed.
Lemma schunk_entry e : schunk e = split_entry e.
Proof. unfold schunk, split_entry. now rewrite u32_u32, !lv32_u32. Qed.

Lemma len_concat_perm (l l' : list bytes) : Permutation l l' -> len (concat l) = len (concat l').
Proof. induction 1; cbn; rewrite ?len_app; lia. Qed.

Lemma hash_len {K V} {H : Hashable K} c (l : list (K * V)) : sane c -> len (hash_order c l) = len l.
Proof. intros [_ Hp]. unfold len. now rewrite (Permutation_length (Hp K V H l)). Qed.

Lemma suffix_dict c m out : sane c ->
  (s <- StringMap_Serialize c m ;; SuffixSecondary c out s) = Ok (out ++ table_section dict_entry (hash_order c (sm_map m))).
Proof.
  intros Hc. pose proof (proj1 Hc) as Hs. unfold StringMap_Serialize. rewrite seriLength_ok by exact Hs. cbn [obind app].
  rewrite sm_loop_chunks by exact Hs. cbn [obind]. unfold SuffixSecondary. rewrite seriLength_ok by exact Hs. cbn [obind].
  unfold table_section. rewrite hash_len by exact Hc. rewrite u32_u32, !lv32_u32.
  rewrite (map_ext _ _ dchunk_entry). now rewrite <- app_assoc.
Qed.

Lemma suffix_split c si out : sane c ->
  (s <- SplitInfo_Serialize c si ;; SuffixSecondary c out s) = Ok (out ++ table_section split_entry (hash_order c (si_info si))).
Proof.
  intros Hc. pose proof (proj1 Hc) as Hs. unfold SplitInfo_Serialize. rewrite seriLength_ok by exact Hs. cbn [obind app].
  rewrite si_loop_chunks by exact Hs. cbn [obind]. unfold SuffixSecondary. rewrite seriLength_ok by exact Hs. cbn [obind].
  unfold table_section. rewrite hash_len by exact Hc. rewrite u32_u32, !lv32_u32.
  rewrite (map_ext _ _ schunk_entry). now rewrite <- app_assoc.
Qed.

(** The serializer with the tables spelled out. *)
Definition start_state (ty : SeriType) : sstate :=
  {| outer := repeat x00 8 ++ [n2b (SeriTypeToChar ty)] ++ [x00];
     smap := match ty with NORMAL => None | REPLACE => Some sm_empty end; sinfo := Some si_empty |}.
Definition marked (st : sstate) (fl : bool) : bytes :=
  if fl then firstn 9 (outer st) ++ n2b 10 :: skipn 10 (outer st) else outer st.
Definition finish (c : cfg) (st : sstate) (fl : bool) : outcome bytes :=
  if len (marked st fl) <? 8 then Throw ERuntime
  else match sinfo st with
  | None => UB
  | Some si => Ok (be_bytes 8 (len (marked st fl)) ++ skipn 8 (marked st fl) ++
      match smap st with None => [] | Some m => table_section dict_entry (hash_order c (sm_map m)) end ++
      table_section split_entry (hash_order c (si_info si)))
  end.

Lemma Serialize_finish c mem ty p o : sane c ->
  Serialize c mem ty p o = ('(st, fl) <- valueSeri c mem (OMap p 1 [(root_key, o)]) (start_state ty) ;; finish c st fl).
Proof.
  intros Hc. unfold Serialize. fold (start_state ty). apply obind_ext. intros [st fl]. fold (marked st fl).
  unfold finish, SeriTotalSizeToOuter. destruct (_ <? 8); [reflexivity|]. cbn [obind]. rewrite num_to_wire_be.
  destruct (smap st) as [m|].
  - rewrite suffix_dict by exact Hc. cbn [obind]. destruct (sinfo st); [|reflexivity]. rewrite suffix_split by exact Hc.
    now rewrite <- !app_assoc.
  - cbn [obind]. destruct (sinfo st); [|reflexivity]. rewrite suffix_split by exact Hc. cbn [app]. now rewrite <- !app_assoc.
Qed.

(** Whether there is a dictionary is decided by the serialization type. *)
Definition keeps_map (st st' : sstate) : Prop := smap st = None <-> smap st' = None.
Lemma keep_len c n st st' : st_seriLength c n st = Ok st' -> smap st' = smap st.
Proof. unfold st_seriLength. destruct (seriLength _ _ _); cbn; try discriminate. now intros [= <-]. Qed.

Lemma keep_data F c dt s st st' : (F = seriData c dt s \/ exists mem, F = seriData_view c mem dt s) ->
  F st = Ok st' -> smap st' = smap st.
Proof.
  intros [-> | (mem & ->)] H; unfold seriData, seriData_view in H;
    repeat match goal with
    | H : (if ?b then _ else _) = Ok _ |- _ => destruct b
    | H : match num_of_dt ?x with _ => _ end = Ok _ |- _ => destruct (num_of_dt x)
    | H : Throw _ = Ok _ |- _ => discriminate H
    | H : obind (st_seriLength c ?n st) _ = Ok _ |- _ => let E := fresh "E" in destruct (st_seriLength c n st) eqn:E; cbn [obind] in H; try discriminate H
    | H : obind ?x _ = Ok _ |- _ => destruct x; cbn [obind] in H; try discriminate H
    | H : Ok _ = Ok _ |- _ => injection H as <-; cbn [smap with_outer]; eapply keep_len; eauto
    end.
Qed.

Lemma keep_key c k st st' : seri_key c k st = Ok st' -> keeps_map st st'.
Proof.
  unfold seri_key, keeps_map. destruct (smap st) as [m|] eqn:E.
  - destruct (RegisterIdFromString _ _). intros H. apply keep_len in H. rewrite H. cbn. split; discriminate.
  - destruct (st_seriLength _ _ _) eqn:E1; cbn; try discriminate. intros [= <-]. apply keep_len in E1. cbn. rewrite E1, E. tauto.
Qed.

Lemma keep_value c mem o : forall st st' fl, valueSeri c mem o st = Ok (st', fl) -> keeps_map st st'.
Proof.
  assert (KC : forall o, (forall st st' fl, valueSeri c mem o st = Ok (st', fl) -> keeps_map st st') ->
    forall st st', seri_child c o (valueSeri c mem o) st = Ok st' -> keeps_map st st').
  { intros o' Ho st st' H. unfold seri_child in H. destruct (GetType o'); cbn [obind] in H; try discriminate.
    destruct (valueSeri _ _ _ _) as [[st2 fl]| | | |] eqn:E; cbn [obind] in H; try discriminate.
    apply Ho in E. unfold keeps_map in *. cbn in E. destruct fl; [destruct (_ && _)|]; try discriminate; injection H as <-; exact E. }
  assert (KI : forall I (f : I -> sstate -> outcome sstate) l, (forall x, In x l -> forall st st', f x st = Ok st' -> keeps_map st st') ->
    forall st cs bl st' cs' bl', seri_items c f l st cs bl = Ok (st', cs', bl') -> keeps_map st st').
  { intros I f l. induction l as [|x l IH]; intros Hf st cs bl st' cs' bl' H; cbn [seri_items] in H.
    - injection H as <- <- <-. unfold keeps_map. tauto.
    - destruct (f x st) as [st1| | | |] eqn:E; cbn [obind] in H; try discriminate. destruct (cut_block _ _ _ _).
      apply IH in H; [|intros y Hy; apply Hf; now right]. apply Hf in E; [|now left]. unfold keeps_map in *. tauto. }
  assert (KO : forall I size (f : I -> sstate -> outcome sstate) l, (forall x, In x l -> forall st st', f x st = Ok st' -> keeps_map st st') ->
    forall st st' fl, container_valueSeri c size f l st = Ok (st', fl) -> keeps_map st st').
  { intros I size f l Hf st st' fl H. unfold container_valueSeri in H.
    destruct (st_seriLength _ _ _) as [st1| | | |] eqn:E1; cbn [obind] in H; try discriminate. apply keep_len in E1.
    destruct (seri_split_id c st1) as [[id st2]| | | |] eqn:E2; cbn [obind] in H; try discriminate.
    assert (E2' : smap st2 = smap st1).
    { unfold seri_split_id in E2. destruct (sinfo st1); cbn [RequestId] in E2;
        match type of E2 with obind ?x _ = _ => destruct x eqn:E3; cbn [obind] in E2; try discriminate end;
        injection E2 as <- <-; apply keep_len in E3; exact E3. }
    destruct (seri_items _ _ _ _ _ _) as [[[st3 cs] bl]| | | |] eqn:E3; cbn [obind] in H; try discriminate.
    apply KI in E3; [|exact Hf]. assert (E4 : smap st' = smap st3).
    { unfold register_split_info in H. destruct (sinfo st3); [|now injection H as <- <-].
      destruct (last_block st3 cs bl); [now injection H as <- <-|]. destruct (_ || _); now injection H as <- <-. }
    unfold keeps_map in *. rewrite E4. rewrite <- E1, <- E2'. exact E3. }
  induction o as [|dt s|dt s|p n l IH|p n l IH|p n l IH] using obj_ind'; intros st st' fl H; cbn [valueSeri] in H.
  - discriminate.
  - destruct (Data_valueSeri _ _ _ _) as [st1| | | |] eqn:E; cbn [obind] in H; try discriminate. injection H as <- <-.
    unfold Data_valueSeri in E. destruct (negb _); [discriminate|]. unfold keeps_map.
    assert (K : forall x, seriData c dt s (st_push dt st) = Ok x -> smap x = smap st).
    { intros x Hx. apply (keep_data (seriData c dt s) c dt s) in Hx; [exact Hx|auto]. }
    destruct (smap st) as [m|] eqn:Em; [|apply K in E; rewrite E; tauto]. destruct (_ =? _); [|apply K in E; rewrite E; split; congruence].
    destruct (get_str s); cbn [obind] in E; try discriminate. destruct (RegisterIdFromString _ _). apply keep_len in E. rewrite E. cbn. split; discriminate.
  - destruct (DataView_valueSeri _ _ _ _ _) as [st1| | | |] eqn:E; cbn [obind] in H; try discriminate. injection H as <- <-.
    unfold DataView_valueSeri in E. destruct (negb _); [discriminate|]. unfold keeps_map.
    assert (K : forall x, seriData_view c mem dt s (st_push dt st) = Ok x -> smap x = smap st).
    { intros x Hx. apply (keep_data (seriData_view c mem dt s) c dt s) in Hx; [exact Hx|eauto]. }
    destruct (smap st) as [m|] eqn:Em; [|apply K in E; rewrite E; tauto]. destruct (_ =? _); [|apply K in E; rewrite E; split; congruence].
    destruct (get_view s); cbn [obind] in E; try discriminate. destruct (read_view _ _); cbn [obind] in E; try discriminate.
    destruct (RegisterIdFromString _ _). apply keep_len in E. rewrite E. cbn. split; discriminate.
  - eapply KO; [|exact H]. intros x Hx. apply KC. rewrite Forall_forall in IH. now apply IH.
  - eapply KO; [|exact H]. intros [k x] Hx s1 s2 E. destruct (seri_key _ _ _) eqn:Ek; cbn [obind] in E; try discriminate.
    apply keep_key in Ek. rewrite Forall_forall in IH. apply KC in E; [|exact (IH _ Hx)]. unfold keeps_map in *. tauto.
  - eapply KO; [|exact H]. intros [k x] Hx s1 s2 E. destruct (read_view _ _); cbn [obind] in E; try discriminate.
    destruct (seri_key _ _ _) eqn:Ek; cbn [obind] in E; try discriminate.
    apply keep_key in Ek. rewrite Forall_forall in IH. apply KC in E; [|exact (IH _ Hx)]. unfold keeps_map in *. tauto.
Qed.

(** ** C100 *)

(** Any object, complete or not: on two platforms (byte order, asserts, hash tables)
    Serialize ends in the same way, and when it returns, the two documents are the same up
    to the order of the entries of the tables. *)
Theorem C100_same_document : forall c c' mem ty p o,
  sane c -> sane c' -> split_block_size c = split_block_size c' ->
  match Serialize c mem ty p o, Serialize c' mem ty p o with
  | Ok d, Ok d' => same_up_to_order ty d d' /\ length d = length d'
  | r, r' => r = r'
  end.
Proof.
  intros c c' mem ty p o Hc Hc' Hb. rewrite !Serialize_finish by assumption.
  rewrite (pl_valueSeri c c' (proj1 Hc) (proj1 Hc') Hb).
  destruct (valueSeri c' mem _ _) as [[st fl]| | | |] eqn:E; cbn [obind]; try reflexivity.
  apply keep_value in E. unfold keeps_map in E. unfold finish. destruct (_ <? 8); [reflexivity|].
  destruct (sinfo st) as [si|]; [|reflexivity].
  assert (HP : forall K V (H : Hashable K) (l : list (K * V)), Permutation (hash_order c l) (hash_order c' l)).
  { intros K V H l. eapply perm_trans; [apply (proj2 Hc)|]. apply Permutation_sym. apply (proj2 Hc'). }
  assert (HL : forall A (enc : A -> bytes) l l', Permutation l l' -> length (table_section enc l) = length (table_section enc l')).
  { intros A enc l l' H. unfold table_section. pose proof (len_concat_perm _ _ (Permutation_map enc H)) as HL.
    apply Permutation_length in H. unfold len in *. rewrite !app_length, H. replace (length (concat (map enc l'))) with (length (concat (map enc l))) by lia. reflexivity. }
  split.
  - destruct ty; cbn in E.
    + destruct (smap st) as [m|]; [discriminate (proj1 E eq_refl)|].
      exists (be_bytes 8 (len (marked st fl)) ++ skipn 8 (marked st fl)), [], [], (hash_order c (si_info si)), (hash_order c' (si_info si)).
      split; [constructor|]. split; [apply HP|]. split; now rewrite <- app_assoc.
    + destruct (smap st) as [m|]; [|discriminate (proj2 E eq_refl)].
      exists (be_bytes 8 (len (marked st fl)) ++ skipn 8 (marked st fl)), (hash_order c (sm_map m)), (hash_order c' (sm_map m)), (hash_order c (si_info si)), (hash_order c' (si_info si)).
      split; [apply HP|]. split; [apply HP|]. split; now rewrite <- app_assoc.
  - rewrite !app_length. rewrite (HL _ _ _ _ (HP _ _ _ (si_info si))). destruct (smap st) as [m|]; [|reflexivity].
    now rewrite (HL _ _ _ _ (HP _ _ _ (sm_map m))).
Qed.

(** A document without dictionary that is shorter than the split size (10 MiB) is the
    same on every platform, byte for byte; it does not depend on the split size either. *)
Theorem C100_identical : forall c c' mem p o doc,
  sane c -> sane c' -> Serialize c mem NORMAL p o = Ok doc ->
  len doc < split_block_size c -> len doc < split_block_size c' -> len doc < 2 ^ 32 ->
  Serialize c' mem NORMAL p o = Ok doc.
Proof.
  intros c c' mem p o doc Hc Hc' H H1 H2 H3. rewrite Serialize_finish in * by assumption.
  destruct (valueSeri c mem _ _) as [[st fl]| | | |] eqn:E; cbn [obind] in H; try discriminate.
  destruct (valueSeri_tame c c' (proj1 Hc) (proj1 Hc') mem _ _ _ _ E) as [_ HS].
  unfold finish in H. destruct (len (marked st fl) <? 8) eqn:E8; [discriminate|]. destruct (sinfo st) as [si|] eqn:Esi; [|discriminate].
  match type of H with Ok ?x = Ok ?y => assert (Hdoc : x = y) by congruence end. clear H.
  assert (HM : len (marked st fl) <= len doc).
  { rewrite <- Hdoc, !len_app. unfold len at 2. unfold be_bytes. rewrite rev_length, le_bytes_length.
    unfold len in *. rewrite skipn_length. lia. }
  assert (HO : len (outer st) <= len (marked st fl)).
  { unfold marked. destruct fl; [|lia]. unfold len. rewrite app_length, firstn_length. cbn [length]. rewrite skipn_length. lia. }
  destruct HS as (-> & Hi & E'); [unfold small; lia|]. rewrite E'. cbn [obind].
  unfold finish. rewrite E8, Esi. f_equal. rewrite <- Hdoc.
  unfold infos in Hi. rewrite Esi in Hi. cbn in Hi. injection Hi as Hi. rewrite Hi.
  pose proof (keep_value _ _ _ _ _ _ E) as Hk. unfold keeps_map in Hk. cbn in Hk. rewrite (proj1 Hk eq_refl).
  assert (Hn : forall k, sane k -> @hash_order k N (list N) _ [] = []).
  { intros k [_ Hk']. apply Permutation_nil. apply Permutation_sym. apply Hk'. }
  now rewrite !Hn.
Qed.

(** The sample: in plain form four platforms write the same bytes; with a dictionary the
    bytes may differ, in the order of the entries only. *)
Example C100_met :
  (exists d, Serialize x86_debug no_mem NORMAL p0 sample = Ok d /\ len d < split_block_size x86_debug /\
             Serialize x86_release no_mem NORMAL p0 sample = Ok d) /\
  (exists d d', Serialize tiny no_mem REPLACE p0 sample = Ok d /\ Serialize tiny_big_endian no_mem REPLACE p0 sample = Ok d' /\
     d <> d' /\ same_up_to_order REPLACE d d').
Proof.
  split.
  - eexists. split; [vm_compute; reflexivity|]. split; [vm_compute; reflexivity|]. vm_compute. reflexivity.
  - pose proof (C100_same_document tiny tiny_big_endian no_mem REPLACE p0 sample tiny_sane tiny_big_endian_sane eq_refl) as H.
    assert (E1 : exists d d', Serialize tiny no_mem REPLACE p0 sample = Ok d /\
      Serialize tiny_big_endian no_mem REPLACE p0 sample = Ok d' /\ d <> d').
    { do 2 eexists. split; [vm_compute; reflexivity|]. split; [vm_compute; reflexivity|discriminate]. }
    destruct E1 as (d & d' & E1 & E2 & E3). rewrite E1, E2 in H. destruct H as [H _]. exists d, d'. auto.
Qed.
