(** * Property C67: auxiliary tables with repeated entries.

    A table read from the wire need not have been written by this library.  Here
    the wire image of an arbitrary entry list (repetitions allowed) is decoded. *)
From Verif Require Import Base BaseLemmas ModelVarint ModelData ModelSecondary ModelObject
  ModelParse ModelWrapper Spec SpecApi VarintProofs Wire NumProofs SeriProofs DocProofs ObjInd ParseLemmas
  NormalProofs SecondaryProofs RoundTrip GeneralProofs ApiProofs Samples PropRoundTrip PropHostile.
From Coq Require Import ZifyBool ZifyNat ZifyN.
Local Open Scope out_scope.

(** ** Specification *)

(** The block list of the first entry with id [id]; the id of the first entry with key [k]. *)
Fixpoint first_blocks (id : N) (l : list (N * list N)) : option (list N) :=
  match l with
  | [] => None
  | (i, b) :: l' => if id =? i then Some b else first_blocks id l'
  end.
Fixpoint first_id (k : bytes) (l : list (bytes * N)) : option N :=
  match l with
  | [] => None
  | (k', i) :: l' => if bytes_eqb k k' then Some i else first_id k l'
  end.

(** Every number of a table is a 32-bit number. *)
Definition split_entries_ok (l : list (N * list N)) : Prop :=
  len l < 2 ^ 32 /\ Forall (fun e => fst e < 2 ^ 32 /\ Forall (fun n => n < 2 ^ 32) (snd e) /\ len (snd e) < 2 ^ 32) l.
Definition dict_entries_ok (l : list (bytes * N)) : Prop :=
  len l < 2 ^ 32 /\ Forall (fun e => snd e < 2 ^ 32) l.

(** A reader positioned at [table] inside a document. *)
Definition reader_at (c : cfg) (A table B : bytes) : renv :=
  {| r_cfg := c; r_content := A ++ table ++ B; r_base := len A; r_size := len table |}.

(** ** The split table *)
Lemma si_construct_loop_dup E fuel l A B i acc :
  r_content E = A ++ concat (map split_entry l) ++ B -> r_base E + i = len A ->
  i + len (concat (map split_entry l)) <= r_size E -> lim (r_cfg E) (r_size E) ->
  info_ok l -> NoDup (map fst (si_info acc)) -> ~ NoDup (map fst (si_info acc ++ l)) ->
  (length (concat (map split_entry l)) < fuel)%nat ->
  si_construct_loop E fuel (len l) (at_ i) acc = Throw ERuntime.
Proof.
  revert fuel A i acc; induction l as [|[id bl] l IH]; intros fuel A i acc HC HB HS HL HF Hacc HN Hf;
    (destruct fuel as [|fuel]; [lia|]); cbn [si_construct_loop].
  - rewrite app_nil_r in HN. contradiction.
  - inversion HF as [|? ? (Hid & Hbl & Hlen) HF']; subst. cbn [fst snd] in *.
    cbn [map concat] in *.
    assert (Hse : split_entry (id, bl) = venc id ++ venc (len bl) ++ concat (map venc bl)) by reflexivity.
    rewrite Hse in *. clear Hse.
    rewrite len_cons. replace (1 + len l =? 0) with false by lia.
    rewrite <- !app_assoc in HC. rewrite !len_app in HS. rewrite !app_length in Hf.
    rewrite (parseLength_ok E A id (venc (len bl) ++ concat (map venc bl) ++ concat (map split_entry l) ++ B));
      auto; try lia; [|now apply W32_W64].
    cbn [obind].
    rewrite (parseLength_ok E (A ++ venc id) (len bl) (concat (map venc bl) ++ concat (map split_entry l) ++ B));
      auto; try lia; [|now rewrite <- app_assoc|rewrite len_app; lia|now apply W32_W64].
    cbn [obind]. rewrite (u32_small (len bl)) by exact Hlen.
    rewrite (parse_numbers_ok E fuel bl ((A ++ venc id) ++ venc (len bl)) (concat (map split_entry l) ++ B));
      auto; try lia.
    2:{ rewrite <- !app_assoc. exact HC. }
    2:{ rewrite !len_app. lia. }
    2:{ pose proof (concat_venc_length bl). pose proof (venc_pos_nat id). lia. }
    cbn [obind app]. rewrite (u32_small id) by exact Hid.
    destruct (assoc_find N.eqb id (si_info acc)) eqn:Hni; [reflexivity|].
    replace (1 + len l - 1) with (len l) by lia.
    match goal with |- context [si_construct_loop E fuel (len l) ?s ?a] =>
      replace s with (at_ (i + len (venc id ++ venc (len bl) ++ concat (map venc bl)))) by (rewrite !len_app, !N.add_assoc; reflexivity);
      apply (IH fuel (A ++ venc id ++ venc (len bl) ++ concat (map venc bl))
                  (i + len (venc id ++ venc (len bl) ++ concat (map venc bl))) a)
    end; auto; cbn [si_info]; try (rewrite ?len_app; lia).
    + rewrite HC. now rewrite <- !app_assoc.
    + rewrite map_app. cbn [map fst]. apply Permutation_NoDup with (l := id :: map fst (si_info acc)).
      { apply Permutation_cons_append. }
      constructor; [|exact Hacc]. intros Hin.
      apply in_map_iff in Hin as ([j x] & <- & Hin). cbn [fst] in Hni.
      clear -Hni Hin. induction (si_info acc) as [|[j' y] m IHm]; [contradiction|]. cbn in Hni.
      destruct (N.eqb_spec j j'); [discriminate|]. destruct Hin as [[= <- <-]|Hin]; [congruence|auto].
    + rewrite <- app_assoc. exact HN.
    + pose proof (venc_pos_nat id). lia.
Qed.

Lemma first_blocks_assoc id l : assoc_find N.eqb id l = first_blocks id l.
Proof. induction l as [|[i b] l IH]; cbn; [reflexivity|]. now rewrite IH. Qed.

(** C67, split table: decoded exactly, and rejected as soon as an id repeats. *)
Theorem C67_split_table : forall c A B l fuel,
  let table := split_bytes l in
  split_entries_ok l -> fits c (A ++ table ++ B) -> (length table <= fuel)%nat ->
  (NoDup (map fst l) ->
     exists si, SplitInfo_Construct (reader_at c A table B) fuel = Ok si /\
       forall id, si_Find si id = (match first_blocks id l with Some _ => true | None => false end) /\
                  GetBlockInfoFromId si id = (match first_blocks id l with Some b => Ok b | None => Throw EOutOfRange end)) /\
  (~ NoDup (map fst l) -> SplitInfo_Construct (reader_at c A table B) fuel = Throw ERuntime).
Proof.
  intros c A B l fuel table [Hlen HF] Hf Hfuel.
  assert (Hlim : lim c (len (A ++ table ++ B))) by exact Hf.
  assert (Hlim' : lim c (len table)) by (eapply lim_le; [|exact Hlim]; rewrite !len_app; lia).
  assert (Hok : info_ok l) by (unfold info_ok; eapply Forall_impl; [|exact HF]; cbn; intros e (? & ? & ?); rewrite W32_val; auto).
  split; intros HN.
  - destruct (SplitInfo_Construct_ok (reader_at c A table B) fuel l A B) as (si & H1 & H2 & _); try reflexivity; auto.
    exists si. split; [exact H1|]. intros id. unfold si_Find, GetBlockInfoFromId. rewrite H2, first_blocks_assoc. auto.
  - unfold table in *. clear table. rewrite split_bytes_eq in *.
    set (E := reader_at c A (venc (len l) ++ concat (map split_entry l)) B).
    rewrite len_app in Hlim'. rewrite app_length in Hfuel.
    unfold SplitInfo_Construct. change {| idx := 0; off := 0 |} with (at_ 0).
    rewrite (parseLength_ok E A (len l) (concat (map split_entry l) ++ B)); cbn [E reader_at r_content r_base r_size r_cfg];
      rewrite ?len_app, ?N.add_0_r; auto; try lia.
    2:{ now rewrite <- app_assoc. }
    2:{ apply W32_W64. rewrite W32_val. exact Hlen. }
    cbn [obind]. rewrite u32_small by (rewrite W32_val; exact Hlen).
    apply si_construct_loop_dup with (A := A ++ venc (len l)) (B := B); cbn [E reader_at r_content r_base r_size r_cfg];
      rewrite ?len_app; auto; try lia.
    + now rewrite <- !app_assoc.
    + constructor.
    + pose proof (venc_pos_nat (len l)). lia.
Qed.

(** ** The dictionary table *)

(** Entries whose key is not among the earlier ones. *)
Fixpoint keep_new (seen : list bytes) (l : list (bytes * N)) : list (bytes * N) :=
  match l with
  | [] => []
  | (k, i) :: l' => if existsb (bytes_eqb k) seen then keep_new seen l' else (k, i) :: keep_new (seen ++ [k]) l'
  end.

Lemma view_find_Some E buf k acc accs :
  Forall2 (entry_loc (r_content E) buf) acc accs -> existsb (bytes_eqb k) (map fst accs) = true ->
  exists i, view_find E k acc = Ok (Some i).
Proof.
  induction 1 as [|[v id] [k' id'] acc accs [[_ Hl] _] HF IH]; intros Hn; cbn in *; [discriminate|].
  unfold read_local. rewrite Hl. cbn [obind]. destruct (bytes_eqb k k'); cbn in *; eauto.
Qed.

Lemma existsb_keys_In k ks : existsb (bytes_eqb k) ks = true <-> In k ks.
Proof.
  rewrite existsb_exists. split.
  - intros (x & Hx & He). destruct (bytes_eqb_spec k x); [now subst|discriminate].
  - intros H. exists k. split; [exact H|apply bytes_eqb_refl].
Qed.

Lemma sm_construct_loop_any E buf fuel l A B i acc accs :
  r_content E = A ++ concat (map dict_entry l) ++ B -> r_base E + i = len A ->
  i + len (concat (map dict_entry l)) <= r_size E -> lim (r_cfg E) (r_size E) ->
  Forall (fun e => snd e < W32) l -> lim (r_cfg E) (len (r_content E)) ->
  Forall2 (entry_loc (r_content E) buf) acc accs ->
  (length (concat (map dict_entry l)) < fuel)%nat ->
  exists acc', sm_construct_loop E buf fuel (len l) (at_ i) acc = Ok acc' /\
    Forall2 (entry_loc (r_content E) buf) acc' (accs ++ keep_new (map fst accs) l).
Proof.
  revert fuel A i acc accs; induction l as [|[k id] l IH];
    intros fuel A i acc accs HC HB HS HL HF HLc Hacc Hf;
    (destruct fuel as [|fuel]; [lia|]); cbn [sm_construct_loop].
  - exists acc. cbn. rewrite app_nil_r. auto.
  - inversion HF as [|? ? Hid HF']; subst. cbn [fst snd] in *.
    cbn [map concat] in *.
    assert (Hse : dict_entry (k, id) = venc (len k) ++ k ++ venc id) by reflexivity.
    rewrite Hse in *. clear Hse.
    rewrite len_cons. replace (1 + len l =? 0) with false by lia.
    rewrite <- !app_assoc in HC. rewrite !len_app in HS. rewrite !app_length in Hf.
    pose proof (venc_len_pos id).
    assert (Hk64 : len k < W64).
    { apply lim_W32 in HLc. rewrite HC, !len_app in HLc. apply W32_W64. lia. }
    rewrite (parseLength_ok E A (len k) (k ++ venc id ++ concat (map dict_entry l) ++ B));
      auto; try lia.
    cbn [obind]. rewrite curAddr_at by lia. cbn [obind].
    set (i1 := i + len (venc (len k))).
    assert (Hs2 : skip (len k) (add_off (len k) (at_ i1)) = at_ (i1 + len k)).
    { unfold skip, add_off, at_; cbn. apply lim_W32 in HL. rewrite W32_val in HL.
      rewrite u64_small by (rewrite W64_val; unfold i1; lia). reflexivity. }
    rewrite Hs2. clear Hs2.
    rewrite (parseLength_ok E ((A ++ venc (len k)) ++ k) id (concat (map dict_entry l) ++ B));
      auto; unfold i1; try lia;
      [|now rewrite <- !app_assoc|rewrite !len_app; lia|now apply W32_W64].
    cbn [obind].
    assert (Hloc : locates (r_content E) buf {| v_buf := buf; v_off := r_base E + i1; v_len := len k |} k).
    { replace (r_base E + i1) with (len (A ++ venc (len k))) by (rewrite len_app; unfold i1; lia).
      rewrite HC. replace (A ++ venc (len k) ++ k ++ venc id ++ concat (map dict_entry l) ++ B)
        with ((A ++ venc (len k)) ++ k ++ (venc id ++ concat (map dict_entry l) ++ B))
        by (now rewrite <- !app_assoc). apply locates_mid. }
    unfold read_local at 1. cbn [v_off v_len].
    pose proof Hloc as [_ Hr]. cbn [v_off v_len] in Hr. unfold i1 in Hr. rewrite Hr. cbn [obind keep_new].
    rewrite u32_small by exact Hid. replace (1 + len l - 1) with (len l) by lia.
    destruct (existsb (bytes_eqb k) (map fst accs)) eqn:Hex.
    + destruct (view_find_Some E buf k acc accs Hacc Hex) as (i0 & ->). cbn [obind].
    match goal with |- context [sm_construct_loop E buf fuel (len l) ?s ?a] =>
      replace s with (at_ (i + len (venc (len k) ++ k ++ venc id)))
        by (rewrite !len_app, !N.add_assoc; reflexivity) end.
      apply (IH fuel (A ++ venc (len k) ++ k ++ venc id)); auto; try (rewrite ?len_app; lia).
      * rewrite HC. now rewrite <- !app_assoc.
      * pose proof (venc_pos_nat id). lia.
    + rewrite (view_find_None E buf k acc accs Hacc).
      2:{ intros Hin. apply existsb_keys_In in Hin. congruence. }
      cbn [obind].
    match goal with |- context [sm_construct_loop E buf fuel (len l) ?s ?a] =>
      replace s with (at_ (i + len (venc (len k) ++ k ++ venc id)))
        by (rewrite !len_app, !N.add_assoc; reflexivity) end.
      match goal with |- context [sm_construct_loop E buf fuel (len l) ?s ?a] =>
        destruct (IH fuel (A ++ venc (len k) ++ k ++ venc id)
                  (i + len (venc (len k) ++ k ++ venc id)) a (accs ++ [(k, id)])) as (acc' & H1 & H2)
      end; auto; try (rewrite ?len_app; lia).
      * rewrite HC. now rewrite <- !app_assoc.
      * apply Forall2_app; [exact Hacc|]. constructor; [split; [exact Hloc|reflexivity]|constructor].
      * pose proof (venc_pos_nat id). lia.
      * exists acc'. split; [exact H1|]. rewrite map_app in H2. rewrite <- app_assoc in H2. exact H2.
Qed.

Lemma keep_new_In k i l : forall seen,
  In (k, i) (keep_new seen l) <-> ~ In k seen /\ first_id k l = Some i.
Proof.
  induction l as [|[k' i'] l IH]; intros seen; cbn.
  - split; [intros []|intros [_ H]; discriminate].
  - destruct (existsb (bytes_eqb k') seen) eqn:Hex.
    + apply existsb_keys_In in Hex. rewrite IH. destruct (bytes_eqb_spec k k') as [->|]; [|reflexivity]. tauto.
    + assert (Hn : ~ In k' seen) by (intros H; apply existsb_keys_In in H; congruence).
      cbn. rewrite IH. rewrite in_app_iff. cbn. destruct (bytes_eqb_spec k k') as [->|Hne]; split.
      * intros [[= <-]|[H _]]; [auto|]. exfalso; apply H; right; now left.
      * intros [_ [= <-]]. now left.
      * intros [[= -> ->]|[H1 H2]]; [congruence|]. split; [|exact H2]. intros H; apply H1; now left.
      * intros [H1 H2]. right. split; [|exact H2]. intros [H|[H|[]]]; [contradiction|congruence].
Qed.

Lemma buildReMap_any {K} (l : list (K * N)) : forall acc id,
  match assoc_find N.eqb id (fold_left (fun re each => assoc_set N.eqb (snd each) (fst each) re) l acc) with
  | Some k => In (k, id) l \/ (assoc_find N.eqb id acc = Some k /\ ~ In id (map snd l))
  | None => ~ In id (map snd l) /\ assoc_find N.eqb id acc = None
  end.
Proof.
  induction l as [|[k0 i0] l IH]; intros acc id; cbn [fold_left map snd fst].
  - destruct (assoc_find N.eqb id acc) eqn:He; [right|]; split; auto.
  - specialize (IH (assoc_set N.eqb i0 k0 acc) id). rewrite assoc_find_set in IH by apply N.eqb_spec.
    destruct (assoc_find N.eqb id (fold_left _ l _)) eqn:Hf.
    + destruct IH as [IH|[IH1 IH2]]; [left; now right|]. destruct (N.eqb_spec id i0) as [->|Hne].
      * injection IH1 as <-. left; now left.
      * right. split; [exact IH1|]. intros [H|H]; [cbn in H; congruence|contradiction].
    + destruct IH as [IH1 IH2]. destruct (N.eqb_spec id i0) as [->|Hne]; [discriminate|].
      split; [|exact IH2]. intros [H|H]; [cbn in H; congruence|contradiction].
Qed.

(** C67, dictionary: always accepted.  A repeated key keeps its first id; looking
    an id up gives a key that has it, and throws if no key has it.  The entries
    [accepted] are the same whatever the hash order. *)
Theorem C67_dictionary_partial : forall c A B l buf fuel,
  let table := dict_bytes l in
  sane c -> dict_entries_ok l -> fits c (A ++ table ++ B) -> (length table <= fuel)%nat ->
  exists m, StringMap_Construct (reader_at c A table B) buf fuel = Ok m /\
    forall id,
      (exists v m' k, GetStr c id m = Ok (v, m') /\ locates (A ++ table ++ B) buf v k /\ first_id k l = Some id) \/
      (GetStr c id m = Throw ERuntime /\ forall k, first_id k l <> Some id).
Proof.
  intros c A B l buf fuel table [_ Hit] [Hlen HF] Hf Hfuel.
  assert (Hlim : lim c (len (A ++ table ++ B))) by exact Hf.
  assert (Hlim' : lim c (len table)) by (eapply lim_le; [|exact Hlim]; rewrite !len_app; lia).
  assert (HF' : Forall (fun e : bytes * N => snd e < W32) l) by (rewrite W32_val; exact HF).
  unfold table in *. clear table. rewrite dict_bytes_eq in *.
  set (E := reader_at c A (venc (len l) ++ concat (map dict_entry l)) B).
  rewrite len_app in Hlim'. rewrite app_length in Hfuel.
  destruct (sm_construct_loop_any E buf fuel l (A ++ venc (len l)) B (len (venc (len l))) [] []) as (acc & H1 & H2);
    cbn [E reader_at r_content r_base r_size r_cfg]; rewrite ?len_app; auto; try lia.
  { now rewrite <- !app_assoc. }
  { rewrite !len_app in Hlim. exact Hlim. }
  { pose proof (venc_pos_nat (len l)). lia. }
  exists (Build_string_map acc None 0). split.
  - unfold StringMap_Construct. change {| idx := 0; off := 0 |} with (at_ 0).
    rewrite (parseLength_ok E A (len l) (concat (map dict_entry l) ++ B)); cbn [E reader_at r_content r_base r_size r_cfg];
      rewrite ?len_app, ?N.add_0_r; auto; try lia.
    2:{ now rewrite <- app_assoc. }
    2:{ apply W32_W64. rewrite W32_val. exact Hlen. }
    cbn [obind]. rewrite u32_small by (rewrite W32_val; exact Hlen). rewrite N.add_0_l. fold E. rewrite H1. reflexivity.
  - intros id. unfold GetStr, buildReMap. cbn [sm_re sm_map sm_next].
    pose proof (buildReMap_any (hash_order c acc) [] id) as HR. cbn [app map keep_new] in H2.
    assert (Hsnd : forall i, In i (map snd acc) <-> exists k, first_id k l = Some i).
    { intros i. assert (map snd acc = map snd (keep_new [] l)) as ->.
      { clear -H2. induction H2 as [|x y a b [_ He] HF IH]; cbn; congruence. }
      rewrite in_map_iff. split.
      - intros ([k j] & <- & Hin). apply keep_new_In in Hin as [_ Hin]. eauto.
      - intros (k & Hk). exists (k, i). split; [reflexivity|]. apply keep_new_In. split; [intros []|exact Hk]. }
    destruct (assoc_find N.eqb id _) as [v|] eqn:Ha.
    + left. destruct HR as [HR|[HR _]]; [|discriminate].
      apply (Permutation_in _ (Hit _ _ _ _)) in HR. apply In_nth_error in HR as (n & Hn).
      destruct (Forall2_nth _ _ _ _ _ H2 Hn) as ([k j] & Hk & Hl & Hj). cbn [fst snd] in *. subst j.
      do 2 eexists. exists k. split; [reflexivity|]. split; [exact Hl|].
      apply nth_error_In in Hk. apply keep_new_In in Hk. tauto.
    + right. split; [reflexivity|]. destruct HR as [HR _]. intros k Hk. apply HR.
      apply (Permutation_in _ (Permutation_map snd (Permutation_sym (Hit _ _ _ _)))). apply Hsnd. eauto.
Qed.

(** Repeated ids are not rejected, and then what the document says depends on the
    iteration order of [std::unordered_map]: the same bytes are read as two
    different maps by two readers that differ in nothing else. *)
Definition ambiguous_doc : bytes :=
  str [0; 0; 0; 0; 0; 0; 0; 20; 1; 0; 1; 1; 0; 1; 1; 2; 1; 0; 1; 1] ++
  section (dict_bytes [(root_key, 0); (str [107], 1); (str [118], 1)]) ++ section (split_bytes []).

Definition reversed (c : cfg) : cfg :=
  {| little := little c; ndebug := ndebug c; char_signed := char_signed c;
     split_block_size := split_block_size c; iter := fun K V H l => rev (iter c K V H l) |}.

Theorem C67_ambiguous_dictionary_refuted :
  exists content o1 o2 k1 k2,
    sane x86_debug /\ sane (reversed x86_debug) /\
    Parse x86_debug 100 content 7 p1 seq_own = Ok o1 /\
    Parse (reversed x86_debug) 100 content 7 p1 seq_own = Ok o2 /\ k1 <> k2 /\
    api_seen no_mem o1 [Key k1] = Ok (SeenScalar (VStr k1)) /\ api_seen no_mem o1 [Key k2] = Ok Nothing /\
    api_seen no_mem o2 [Key k2] = Ok (SeenScalar (VStr k2)) /\ api_seen no_mem o2 [Key k1] = Ok Nothing.
Proof.
  exists ambiguous_doc. do 2 eexists. exists (str [118]), (str [107]).
  split; [split; [reflexivity|reflexivity]|].
  split; [split; [reflexivity|intros; apply Permutation_sym, Permutation_rev]|].
  split; [vm_compute; reflexivity|]. split; [vm_compute; reflexivity|].
  split; [discriminate|]. repeat split; vm_compute; reflexivity.
Qed.

Example C67_met :
  let good := [(3, [7; 300]); (1, [9])] in let bad := [(3, [7; 300]); (1, [9]); (3, [])] in
  split_entries_ok good /\ NoDup (map fst good) /\ split_entries_ok bad /\ ~ NoDup (map fst bad) /\
  SplitInfo_Construct (reader_at x86_debug [] (split_bytes bad) []) 30 = Throw ERuntime /\
  dict_entries_ok [(str [107], 1); (str [107], 2)] /\ first_id (str [107]) [(str [107], 1); (str [107], 2)] = Some 1.
Proof.
  cbn zeta. repeat split; repeat constructor; cbn; try lia; try (intros [H|H]; [discriminate|contradiction]).
  intros H. inversion H as [|? ? Hn _]; subst. apply Hn. right; now left.
Qed.
