(** * Reading the header and the auxiliary tables of a document. *)
From Verif Require Import Base BaseLemmas ModelVarint ModelData ModelSecondary ModelObject
  ModelParse ModelWrapper Spec VarintProofs Wire NumProofs ObjInd SeriProofs SeriProofs2 DocProofs ParseLemmas NormalProofs.
From Coq Require Import ZifyBool ZifyNat ZifyN.
Local Open Scope out_scope.

Lemma venc_pos_nat n : (1 <= length (venc n))%nat.
Proof. pose proof (venc_len_pos n). unfold len in *; lia. Qed.

Lemma W32_W64 n : n < W32 -> n < W64.
Proof. rewrite W32_val, W64_val; lia. Qed.

(** ** The split table *)
Lemma parse_numbers_ok E fuel l A B i acc :
  r_content E = A ++ concat (map venc l) ++ B -> r_base E + i = len A ->
  i + len (concat (map venc l)) <= r_size E -> lim (r_cfg E) (r_size E) ->
  Forall (fun n => n < W32) l -> (length l < fuel)%nat ->
  parse_numbers E fuel (len l) (at_ i) acc = Ok (acc ++ l, at_ (i + len (concat (map venc l)))).
Proof.
  revert fuel A i acc; induction l as [|n l IH]; intros fuel A i acc HC HB HS HL HF Hf;
    (destruct fuel as [|fuel]; [cbn in Hf; lia|]); cbn [parse_numbers].
  - cbn. rewrite app_nil_r, N.add_0_r. reflexivity.
  - inversion HF as [|? ? Hn HF']; subst. cbn [map concat] in *. rewrite len_app in *.
    rewrite len_cons. replace (1 + len l =? 0) with false by lia.
    rewrite (parseLength_ok E A n (concat (map venc l) ++ B)); auto; try lia.
    2:{ now rewrite <- app_assoc in HC. }
    2:{ now apply W32_W64. }
    cbn [obind]. rewrite u32_small by exact Hn. replace (1 + len l - 1) with (len l) by lia.
    rewrite (IH fuel (A ++ venc n)); auto; try lia.
    + rewrite <- app_assoc. cbn [app]. rewrite N.add_assoc. reflexivity.
    + rewrite HC. now rewrite <- !app_assoc.
    + rewrite len_app. lia.
    + cbn in Hf. lia.
Qed.

Definition split_entry (e : N * list N) : bytes :=
  venc (fst e) ++ venc (len (snd e)) ++ concat (map venc (snd e)).

Lemma concat_venc_length l : (length l <= length (concat (map venc l)))%nat.
Proof.
  induction l as [|n l IH]; cbn; [lia|]. rewrite app_length. pose proof (venc_pos_nat n). lia.
Qed.

Lemma si_construct_loop_ok E fuel l A B i acc :
  r_content E = A ++ concat (map split_entry l) ++ B -> r_base E + i = len A ->
  i + len (concat (map split_entry l)) <= r_size E -> lim (r_cfg E) (r_size E) ->
  info_ok l -> NoDup (map fst (si_info acc ++ l)) ->
  (length (concat (map split_entry l)) < fuel)%nat ->
  exists acc', si_construct_loop E fuel (len l) (at_ i) acc = Ok acc' /\
    si_info acc' = si_info acc ++ l /\
    (Forall (fun e => fst e < si_next acc) (si_info acc) -> Forall (fun e => fst e + 1 < W32) l ->
     si_next acc < W32 ->
     Forall (fun e => fst e < si_next acc') (si_info acc')).
Proof.
  revert fuel A i acc; induction l as [|[id bl] l IH]; intros fuel A i acc HC HB HS HL HF HN Hf;
    (destruct fuel as [|fuel]; [lia|]); cbn [si_construct_loop].
  - exists acc. cbn. rewrite app_nil_r. auto.
  - inversion HF as [|? ? (Hid & Hbl & Hlen) HF']; subst. cbn [fst snd] in *.
    cbn [map concat] in *.
    assert (Hse : split_entry (id, bl) = venc id ++ venc (len bl) ++ concat (map venc bl)) by reflexivity.
    rewrite Hse in *. clear Hse.
    rewrite len_cons. replace (1 + len l =? 0) with false by lia.
    rewrite <- !app_assoc in HC. rewrite !len_app in HS. rewrite !app_length in Hf.
    rewrite (parseLength_ok E A id (venc (len bl) ++ concat (map venc bl) ++ concat (map split_entry l) ++ B));
      auto; try lia; [|now apply W32_W64].
    cbn [obind].
    rewrite (parseLength_ok E (A ++ venc id) (len bl) (concat (map venc bl) ++ concat (map split_entry l) ++ B));
      auto; try lia; [|now rewrite <- app_assoc|rewrite len_app; lia|now apply W32_W64].
    cbn [obind]. rewrite (u32_small (len bl)) by exact Hlen.
    rewrite (parse_numbers_ok E fuel bl ((A ++ venc id) ++ venc (len bl)) (concat (map split_entry l) ++ B));
      auto; try lia.
    2:{ rewrite <- !app_assoc. exact HC. }
    2:{ rewrite !len_app. lia. }
    2:{ pose proof (concat_venc_length bl). pose proof (venc_pos_nat id). lia. }
    cbn [obind app]. rewrite (u32_small id) by exact Hid.
    assert (Hni : assoc_find N.eqb id (si_info acc) = None).
    { apply assoc_find_None; [apply N.eqb_spec|]. rewrite map_app in HN. cbn in HN.
      apply NoDup_remove_2 in HN. intros Hin; apply HN, in_or_app; now left. }
    rewrite Hni. replace (1 + len l - 1) with (len l) by lia.
    match goal with |- context [si_construct_loop E fuel (len l) ?s ?a] =>
      replace s with (at_ (i + len (venc id ++ venc (len bl) ++ concat (map venc bl)))) by (rewrite !len_app, !N.add_assoc; reflexivity);
      destruct (IH fuel (A ++ venc id ++ venc (len bl) ++ concat (map venc bl))
                  (i + len (venc id ++ venc (len bl) ++ concat (map venc bl))) a) as (acc' & H1 & H2 & H3)
    end; auto; cbn [si_info]; try (rewrite ?len_app; lia).
    + rewrite HC. now rewrite <- !app_assoc.
    + rewrite <- app_assoc. exact HN.
    + pose proof (venc_pos_nat id). lia.
    + exists acc'. split; [exact H1|]. cbn [si_info si_next] in *. split; [now rewrite H2, <- app_assoc|].
      intros G1 G2 G3. inversion G2 as [|? ? G2a G2b]; subst. cbn [fst] in G2a.
      apply H3; auto.
      * apply Forall_app. split; [|constructor; [cbn|constructor]].
        -- eapply Forall_impl; [|exact G1]. cbn. intros x Hx.
           destruct (N.leb_spec (si_next acc) id); [rewrite u32_small by exact G2a|]; lia.
        -- destruct (N.leb_spec (si_next acc) id); [rewrite u32_small by exact G2a|]; lia.
      * destruct (si_next acc <=? id); [apply u32_lt|exact G3].
Qed.

Lemma split_bytes_eq l : split_bytes l = venc (len l) ++ concat (map split_entry l).
Proof. reflexivity. Qed.

Lemma SplitInfo_Construct_ok E fuel l A B :
  r_content E = A ++ split_bytes l ++ B -> r_base E = len A -> r_size E = len (split_bytes l) ->
  lim (r_cfg E) (r_size E) -> info_ok l -> NoDup (map fst l) -> len l < W32 ->
  (length (split_bytes l) <= fuel)%nat ->
  exists si, SplitInfo_Construct E fuel = Ok si /\ si_info si = l /\
    (Forall (fun e => fst e + 1 < W32) l -> Forall (fun e => fst e < si_next si) (si_info si)).
Proof.
  intros HC HB HS HL HF HN Hlen Hf. rewrite split_bytes_eq in *. rewrite <- app_assoc in HC.
  rewrite len_app in HS. rewrite app_length in Hf.
  unfold SplitInfo_Construct. change {| idx := 0; off := 0 |} with (at_ 0).
  rewrite (parseLength_ok E A (len l) (concat (map split_entry l) ++ B)); auto; try lia; [|now apply W32_W64].
  cbn [obind]. rewrite u32_small by exact Hlen.
  destruct (si_construct_loop_ok E fuel l (A ++ venc (len l)) B (0 + len (venc (len l))) si_empty)
    as (si & H1 & H2 & H3); auto; try (rewrite ?len_app; lia).
  - now rewrite <- app_assoc.
  - pose proof (venc_pos_nat (len l)). lia.
  - exists si. split; [exact H1|]. split; [exact H2|]. intros G. apply H3; [constructor|exact G|reflexivity].
Qed.

(** ** The dictionary table *)
Definition dict_entry (e : bytes * N) : bytes := venc (len (fst e)) ++ fst e ++ venc (snd e).

Lemma dict_bytes_eq l : dict_bytes l = venc (len l) ++ concat (map dict_entry l).
Proof. reflexivity. Qed.

Definition entry_loc (content : bytes) (buf : nat) (x : view * N) (y : bytes * N) : Prop :=
  locates content buf (fst x) (fst y) /\ snd x = snd y.

Lemma view_find_None E buf k acc accs :
  Forall2 (entry_loc (r_content E) buf) acc accs -> ~ In k (map fst accs) ->
  view_find E k acc = Ok None.
Proof.
  induction 1 as [|[v id] [k' id'] acc accs [[_ Hl] _] HF IH]; intros Hn; cbn; [reflexivity|].
  unfold read_local. cbn in Hl. rewrite Hl. cbn [obind].
  rewrite bytes_eqb_neq by (intros ->; apply Hn; now left). apply IH. intros H; apply Hn; now right.
Qed.

Lemma sm_construct_loop_ok E buf fuel l A B i acc accs :
  r_content E = A ++ concat (map dict_entry l) ++ B -> r_base E + i = len A ->
  i + len (concat (map dict_entry l)) <= r_size E -> lim (r_cfg E) (r_size E) ->
  Forall (fun e => snd e < W32) l -> lim (r_cfg E) (len (r_content E)) ->
  Forall2 (entry_loc (r_content E) buf) acc accs -> NoDup (map fst (accs ++ l)) ->
  (length (concat (map dict_entry l)) < fuel)%nat ->
  exists acc', sm_construct_loop E buf fuel (len l) (at_ i) acc = Ok acc' /\
    Forall2 (entry_loc (r_content E) buf) acc' (accs ++ l).
Proof.
  revert fuel A i acc accs; induction l as [|[k id] l IH];
    intros fuel A i acc accs HC HB HS HL HF HLc Hacc HN Hf;
    (destruct fuel as [|fuel]; [lia|]); cbn [sm_construct_loop].
  - exists acc. cbn. rewrite app_nil_r. auto.
  - inversion HF as [|? ? Hid HF']; subst. cbn [fst snd] in *.
    cbn [map concat] in *.
    assert (Hse : dict_entry (k, id) = venc (len k) ++ k ++ venc id) by reflexivity.
    rewrite Hse in *. clear Hse.
    rewrite len_cons. replace (1 + len l =? 0) with false by lia.
    rewrite <- !app_assoc in HC. rewrite !len_app in HS. rewrite !app_length in Hf.
    pose proof (venc_len_pos id).
    assert (Hk64 : len k < W64).
    { apply lim_W32 in HLc. rewrite HC, !len_app in HLc. apply W32_W64. lia. }
    rewrite (parseLength_ok E A (len k) (k ++ venc id ++ concat (map dict_entry l) ++ B));
      auto; try lia.
    cbn [obind]. rewrite curAddr_at by lia. cbn [obind].
    set (i1 := i + len (venc (len k))).
    assert (Hs2 : skip (len k) (add_off (len k) (at_ i1)) = at_ (i1 + len k)).
    { unfold skip, add_off, at_; cbn. apply lim_W32 in HL. rewrite W32_val in HL.
      rewrite u64_small by (rewrite W64_val; unfold i1; lia). reflexivity. }
    rewrite Hs2. clear Hs2.
    rewrite (parseLength_ok E ((A ++ venc (len k)) ++ k) id (concat (map dict_entry l) ++ B));
      auto; unfold i1; try lia;
      [|now rewrite <- !app_assoc|rewrite !len_app; lia|now apply W32_W64].
    cbn [obind].
    assert (Hloc : locates (r_content E) buf {| v_buf := buf; v_off := r_base E + i1; v_len := len k |} k).
    { replace (r_base E + i1) with (len (A ++ venc (len k))) by (rewrite len_app; unfold i1; lia).
      rewrite HC. replace (A ++ venc (len k) ++ k ++ venc id ++ concat (map dict_entry l) ++ B)
        with ((A ++ venc (len k)) ++ k ++ (venc id ++ concat (map dict_entry l) ++ B))
        by (now rewrite <- !app_assoc). apply locates_mid. }
    unfold read_local at 1. cbn [v_off v_len].
    pose proof Hloc as [_ Hr]. cbn [v_off v_len] in Hr. unfold i1 in Hr. rewrite Hr. cbn [obind].
    rewrite (view_find_None E buf k acc accs Hacc).
    2:{ rewrite map_app in HN. cbn in HN. apply NoDup_remove_2 in HN.
        intros Hin; apply HN, in_or_app; now left. }
    cbn [obind]. rewrite u32_small by exact Hid. replace (1 + len l - 1) with (len l) by lia.
    match goal with |- context [sm_construct_loop E buf fuel (len l) ?s ?a] =>
      replace s with (at_ (i + len (venc (len k) ++ k ++ venc id)))
        by (rewrite !len_app, !N.add_assoc; reflexivity);
      destruct (IH fuel (A ++ venc (len k) ++ k ++ venc id)
                  (i + len (venc (len k) ++ k ++ venc id)) a (accs ++ [(k, id)])) as (acc' & H1 & H2)
    end; auto; try (rewrite ?len_app; lia).
    + rewrite HC. now rewrite <- !app_assoc.
    + apply Forall2_app; [exact Hacc|]. constructor; [split; [exact Hloc|reflexivity]|constructor].
    + rewrite <- app_assoc. exact HN.
    + pose proof (venc_pos_nat id). lia.
    + exists acc'. split; [exact H1|]. now rewrite <- app_assoc in H2.
Qed.

Lemma StringMap_Construct_ok E buf fuel l A B :
  r_content E = A ++ dict_bytes l ++ B -> r_base E = len A -> r_size E = len (dict_bytes l) ->
  lim (r_cfg E) (r_size E) -> lim (r_cfg E) (len (r_content E)) ->
  Forall (fun e => snd e < W32) l -> NoDup (map fst l) -> len l < W32 ->
  (length (dict_bytes l) <= fuel)%nat ->
  exists m, StringMap_Construct E buf fuel = Ok m /\ sm_re m = None /\
    Forall2 (entry_loc (r_content E) buf) (sm_map m) l.
Proof.
  intros HC HB HS HL HLc HF HN Hlen Hf. rewrite dict_bytes_eq in *. rewrite <- app_assoc in HC.
  rewrite len_app in HS. rewrite app_length in Hf.
  unfold StringMap_Construct. change {| idx := 0; off := 0 |} with (at_ 0).
  rewrite (parseLength_ok E A (len l) (concat (map dict_entry l) ++ B)); auto; try lia; [|now apply W32_W64].
  cbn [obind]. rewrite u32_small by exact Hlen.
  destruct (sm_construct_loop_ok E buf fuel l (A ++ venc (len l)) B (0 + len (venc (len l))) [] [])
    as (acc & H1 & H2); auto; try (rewrite ?len_app; lia).
  - now rewrite <- app_assoc.
  - pose proof (venc_pos_nat (len l)). lia.
  - rewrite H1. cbn [obind]. eexists. split; [reflexivity|]. auto.
Qed.

(** ** The inverse table *)
Lemma buildReMap_find {K} (l : list (K * N)) acc id :
  NoDup (map snd l) ->
  (forall k, In (k, id) l ->
     assoc_find N.eqb id (fold_left (fun re each => assoc_set N.eqb (snd each) (fst each) re) l acc) = Some k) /\
  (~ In id (map snd l) ->
     assoc_find N.eqb id (fold_left (fun re each => assoc_set N.eqb (snd each) (fst each) re) l acc)
     = assoc_find N.eqb id acc).
Proof.
  revert acc; induction l as [|[k0 id0] l IH]; intros acc HN; cbn [fold_left map snd fst].
  - split; [intros k []|auto].
  - inversion HN as [|? ? Hni HN']; subst. destruct (IH (assoc_set N.eqb id0 k0 acc) HN') as [I1 I2].
    split.
    + intros k [[= -> ->]|Hin]; [|auto]. rewrite I2 by exact Hni.
      rewrite assoc_find_set by apply N.eqb_spec. now rewrite N.eqb_refl.
    + intros Hn. rewrite I2 by (intros H; apply Hn; now right).
      rewrite assoc_find_set by apply N.eqb_spec.
      destruct (N.eqb_spec id id0); [exfalso; apply Hn; now left|reflexivity].
Qed.

Lemma number_from_snd_NoDup n l : NoDup (map snd (number_from n l)).
Proof.
  revert n; induction l as [|x l IH]; intros n; cbn; constructor; [|apply IH].
  intros Hin. apply in_map_iff in Hin as ([k i] & Hi & Hin). cbn in Hi. subst.
  apply number_from_In in Hin. lia.
Qed.

Lemma getter_answers c content buf m ks dl :
  sane c -> sm_re m = None -> Permutation dl (number_from 0 ks) ->
  Forall2 (entry_loc content buf) (sm_map m) dl ->
  answers content buf (getter c (Some m)) (dict_of REPLACE ks).
Proof.
  intros [_ Hit] Hre HP HF id s Hid Hd. cbn in Hd.
  assert (Hin : In (s, id) dl).
  { eapply Permutation_in; [symmetry; exact HP|]. apply number_from_In.
    split; [lia|]. now rewrite N.sub_0_r. }
  apply Forall2_flip in HF. apply In_nth_error in Hin as (n & Hn).
  destruct (Forall2_nth _ _ _ _ _ HF Hn) as ([v id'] & Hv & Hl & Heq). cbn in Hl, Heq. subst id'.
  exists v. split; [|exact Hl]. unfold getter, GetStr. rewrite Hre.
  assert (Hsnd : map snd (sm_map m) = map snd dl).
  { clear -HF. apply Forall2_flip in HF. induction HF as [|x y a b [_ He] HF IH]; cbn; congruence. }
  assert (HND : NoDup (map snd (hash_order c (sm_map m)))).
  { eapply Permutation_NoDup; [apply Permutation_map; symmetry; apply Hit|]. rewrite Hsnd.
    eapply Permutation_NoDup; [apply Permutation_map; symmetry; exact HP|apply number_from_snd_NoDup]. }
  unfold buildReMap. destruct (buildReMap_find _ [] id HND) as [H1 _].
  rewrite (H1 v); [reflexivity|].
  eapply Permutation_in; [symmetry; apply Hit|]. now apply nth_error_In in Hv.
Qed.

(** ** The header *)
Lemma be8_eval n : exists a, be_bytes 8 n = a /\ length a = 8%nat.
Proof. exists (be_bytes 8 n). split; [reflexivity|]. pose proof (be_bytes_len 8 n). unfold len in *; lia. Qed.

Lemma secondary_env_ok c A s B :
  lim c (len (A ++ section s ++ B)) ->
  exists E, secondary_env c (A ++ section s ++ B) (len A) = Ok (E, len (A ++ section s)) /\
    r_cfg E = c /\ r_content E = A ++ section s ++ B /\ r_base E = len (A ++ venc (len s)) /\ r_size E = len s.
Proof.
  intros HL. pose proof (lim_W32 _ _ HL) as HW. unfold section in *.
  rewrite !len_app in HW. pose proof (venc_len_pos (len s)).
  unfold secondary_env, parseLength_str.
  assert (Hl : len (A ++ (venc (len s) ++ s) ++ B) = len A + (len (venc (len s)) + len s + len B))
    by (rewrite !len_app; reflexivity).
  rewrite Hl. replace (_ <=? len A) with false by lia.
  rewrite sub64_small by (rewrite ?W64_val, ?W32_val in *; lia).
  assert (Hc : A ++ (venc (len s) ++ s) ++ B = A ++ venc (len s) ++ (s ++ B)) by (now rewrite <- app_assoc).
  rewrite Hc. rewrite varint_decode_ok.
  - cbn [obind fst snd].
    rewrite u64_small by (rewrite ?W64_val, ?W32_val in *; lia).
    replace (_ <? len A + len (venc (len s))) with false by lia. cbn [obind fst snd].
    rewrite !u64_small by (rewrite ?W64_val, ?W32_val in *; lia).
    eexists. split; [apply f_equal; apply f_equal2; [reflexivity|rewrite !len_app; lia]|].
    cbn. split; [reflexivity|]. split; [reflexivity|]. split; [|reflexivity].
    rewrite len_app. reflexivity.
  - rewrite ?W64_val, ?W32_val in *; lia.
  - destruct (ndebug c) eqn:Hnd; [now left|right]. unfold lim in HL. rewrite Hnd, Hl in HL.
    change (2 ^ 31) with 2147483648 in HL.
    rewrite to_int64_small by (change (2^63) with 9223372036854775808; lia).
    rewrite to_int32_small by lia. lia.
Qed.

(** What the scheduler knows after reading the metadata of a document with body
    [body], followed by arbitrary bytes [X]. *)
Theorem init_ok c sz ty v content X buf fuel :
  sane c -> document sz ty v content -> lim c (len (content ++ X)) ->
  (length content <= fuel)%nat ->
  exists sc body fl ks info Y,
    initFromContent c fuel (content ++ X) buf = Ok sc /\
    (exists hd, length hd = 10%nat /\ content ++ X = hd ++ body ++ Y) /\ Y <> [] /\
    wire (dict_of ty ks) (table_of info) sz (VMap [(root_key, v)]) fl body /\
    sc_total sc = 10 + len body /\ sc_need_to_split sc = fl /\ si_info (sc_split sc) = info /\
    (sc_map sc = None <-> ty = NORMAL) /\
    answers (content ++ X) buf (getter c (sc_map sc)) (dict_of ty ks) /\
    (length body < length content)%nat.
Proof.
  intros Hsane Hdoc HL Hf.
  destruct Hdoc as [body fl ks dl info Hnd Hnorm Hks HP Hni Hinfo Hw].
  set (mid := match ty with NORMAL => [] | REPLACE => section (dict_bytes dl) end) in *.
  set (hd := be_bytes 8 (10 + len body) ++ [n2b (SeriTypeToChar ty)] ++ [n2b (if fl then 10 else 0)]).
  assert (Hhd : length hd = 10%nat).
  { unfold hd. rewrite !app_length. pose proof (be_bytes_len 8 (10 + len body)). unfold len in *. cbn. lia. }
  assert (Heq : (be_bytes 8 (10 + len body) ++ [n2b (SeriTypeToChar ty)] ++
             [n2b (if fl then 10 else 0)] ++ body ++ mid ++ section (split_bytes info)) ++ X
             = hd ++ body ++ (mid ++ section (split_bytes info) ++ X)).
  { unfold hd. rewrite <- !app_assoc. reflexivity. }
  rewrite Heq in *.
  set (doc := hd ++ body ++ mid ++ section (split_bytes info) ++ X) in *.
  assert (Hld : 10 <= len doc).
  { unfold doc. rewrite len_app. unfold len at 1. rewrite Hhd. lia. }
  assert (Hlen_body : (length body < length (be_bytes 8 (10 + len body) ++ [n2b (SeriTypeToChar ty)] ++
             [n2b (if fl then 10 else 0)] ++ body ++ mid ++ section (split_bytes info)))%nat).
  { rewrite !app_length. cbn. lia. }
  unfold initFromContent, meta_size. replace (len doc <? 10) with false by lia.
  unfold ParseTotalSize. replace (len doc <? 8) with false by lia. cbn [obind].
  assert (Hfirst : firstn 8 doc = be_bytes 8 (10 + len body)).
  { unfold doc, hd. rewrite <- app_assoc. apply firstn_app_exact.
    pose proof (be_bytes_len 8 (10 + len body)). unfold len in *. lia. }
  rewrite Hfirst, num_of_wire_be.
  2:{ apply lim_W32 in HL. unfold doc in HL. rewrite !len_app in HL. rewrite W32_val in HL.
      change (2 ^ (8 * 8)) with 18446744073709551616. lia. }
  assert (H8 : nth 8 doc x00 = n2b (SeriTypeToChar ty) /\ nth 9 doc x00 = n2b (if fl then 10 else 0)).
  { assert (Hb8 : length (be_bytes 8 (10 + len body)) = 8%nat)
      by (pose proof (be_bytes_len 8 (10 + len body)); unfold len in *; lia).
    unfold doc, hd. rewrite <- !app_assoc.
    split; rewrite app_nth2; rewrite Hb8; try lia; reflexivity. }
  destruct H8 as [H8 H9]. rewrite H8, H9.
  assert (Hlen_hd : len (hd ++ body) = 10 + len body) by (rewrite len_app; unfold len at 1; rewrite Hhd; reflexivity).
  assert (Hinfo' : info_ok info).
  { eapply Forall_impl; [|exact Hinfo]. cbn. intros e (H1 & H2 & H3 & H4). split; [lia|auto]. }
  assert (Hflag : forall m, exists sc,
    (let flag := b2n (n2b (if fl then 10 else 0)) in
     let mk b := Ok {| sc_map := fst m; sc_split := snd m; sc_need_to_split := b; sc_total := 10 + len body |} in
     if flag =? 0 then mk false else if flag =? 10 then mk true else Throw ERuntime) = Ok sc /\
    sc_map sc = fst m /\ sc_split sc = snd m /\ sc_need_to_split sc = fl /\ sc_total sc = 10 + len body).
  { intros m. destruct fl; eexists; (split; [reflexivity|]); cbn; auto. }
  assert (Hsplit_section : forall A si_env, doc = A ++ section (split_bytes info) ++ X ->
    r_cfg si_env = c -> r_content si_env = doc -> r_base si_env = len (A ++ venc (len (split_bytes info))) ->
    r_size si_env = len (split_bytes info) ->
    exists si, SplitInfo_Construct si_env fuel = Ok si /\ si_info si = info).
  { intros A se HA E1 E2 E3 E4.
    destruct (SplitInfo_Construct_ok se fuel info (A ++ venc (len (split_bytes info))) X) as (si & S1 & S2 & _).
    - rewrite E2, HA. unfold section. now rewrite <- !app_assoc.
    - exact E3.
    - exact E4.
    - rewrite E1, E4. eapply lim_le; [|exact HL]. rewrite HA. unfold section. rewrite !len_app. lia.
    - exact Hinfo'.
    - exact Hni.
    - apply lim_W32 in HL. rewrite HA in HL. unfold section in HL. rewrite split_bytes_eq, !len_app in HL.
      assert (len info <= len (concat (map split_entry info))).
      { rewrite <- (len_map split_entry). apply concat_len_le. apply Forall_forall. intros x Hx.
        apply in_map_iff in Hx as (y & <- & _). unfold split_entry. pose proof (venc_nonempty (fst y)).
        destruct (venc (fst y)); [congruence|cbn; congruence]. }
      lia.
    - unfold section in Hf. rewrite !app_length in Hf. lia.
    - exists si. auto. }
  destruct ty.
  - cbn [SeriTypeToChar]. change (b2n (n2b 0)) with 0. rewrite N.eqb_refl.
    destruct (secondary_env_ok c (hd ++ body) (split_bytes info) X) as (E & HE & E1 & E2 & E3 & E4).
    { rewrite <- app_assoc. exact HL. }
    rewrite <- app_assoc in HE, E2. cbn [app] in *.
    change (hd ++ body ++ section (split_bytes info) ++ X) with doc in HE, E2.
    rewrite Hlen_hd in HE. rewrite HE. cbn [obind fst snd].
    destruct (Hsplit_section (hd ++ body) E) as (si & S1 & S2); auto.
    rewrite S1. cbn [obind].
    destruct (Hflag (None, si)) as (sc & Hsc & F1 & F2 & F3 & F4). rewrite Hsc.
    exists sc, body, fl, ks, info, (section (split_bytes info) ++ X).
    cbn [fst snd] in *. rewrite F1, F2.
    split; [reflexivity|]. split; [exists hd; split; [exact Hhd|reflexivity]|].
    split; [unfold section; pose proof (venc_nonempty (len (split_bytes info)));
            destruct (venc (len (split_bytes info))); [congruence|cbn; congruence]|].
    repeat (split; [auto; fail|]). split; [tauto|]. split; [exact I|exact Hlen_body].
  - cbn [SeriTypeToChar]. change (b2n (n2b 1)) with 1. change (1 =? 0) with false. change (1 =? 1) with true.
    destruct (secondary_env_ok c (hd ++ body) (dict_bytes dl) (section (split_bytes info) ++ X)) as (E & HE & E1 & E2 & E3 & E4).
    { rewrite <- app_assoc. exact HL. }
    rewrite <- app_assoc in HE, E2.
    change (hd ++ body ++ section (dict_bytes dl) ++ section (split_bytes info) ++ X) with doc in HE, E2.
    rewrite Hlen_hd in HE. rewrite HE. cbn [obind fst snd].
    assert (HWd := lim_W32 _ _ HL). unfold doc in HWd. unfold mid, section in HWd. rewrite !len_app in HWd.
    assert (Hldl : len dl <= len (dict_bytes dl)).
    { rewrite dict_bytes_eq, len_app, <- (len_map dict_entry).
      enough (len (map dict_entry dl) <= len (concat (map dict_entry dl))) by lia.
      apply concat_len_le. apply Forall_forall. intros x Hx.
      apply in_map_iff in Hx as (y & <- & _). unfold dict_entry. pose proof (venc_nonempty (len (fst y))).
      destruct (venc (len (fst y))); [congruence|cbn; congruence]. }
    assert (Hlks : len dl = len ks) by (rewrite (len_perm _ _ HP); apply number_from_len).
    destruct (StringMap_Construct_ok E buf fuel dl ((hd ++ body) ++ venc (len (dict_bytes dl)))
                (section (split_bytes info) ++ X)) as (m & M1 & M2 & M3).
    { rewrite E2. unfold doc, mid, section. now rewrite <- !app_assoc. }
    { exact E3. }
    { exact E4. }
    { rewrite E1, E4. eapply lim_le; [|exact HL]. unfold doc, mid, section. rewrite !len_app. lia. }
    { rewrite E1, E2. exact HL. }
    { eapply Permutation_Forall; [symmetry; exact HP|].
      eapply Forall_impl; [|apply number_from_bound]. cbn. intros; lia. }
    { eapply Permutation_NoDup; [apply Permutation_map; symmetry; exact HP|]. now rewrite number_from_fst. }
    { lia. }
    { unfold mid, section in Hf. rewrite !app_length in Hf. lia. }
    rewrite M1. cbn [obind].
    destruct (secondary_env_ok c ((hd ++ body) ++ section (dict_bytes dl)) (split_bytes info) X) as (E' & HE' & E1' & E2' & E3' & E4').
    { rewrite <- !app_assoc. exact HL. }
    rewrite <- !app_assoc in HE', E2'.
    change (hd ++ body ++ section (dict_bytes dl) ++ section (split_bytes info) ++ X) with doc in HE', E2'.
    rewrite HE'. cbn [obind fst snd].
    destruct (Hsplit_section ((hd ++ body) ++ section (dict_bytes dl)) E') as (si & S1 & S2); auto.
    { unfold doc, mid. now rewrite <- !app_assoc. }
    rewrite S1. cbn [obind].
    destruct (Hflag (Some m, si)) as (sc & Hsc & F1 & F2 & F3 & F4). cbv zeta in Hsc. cbn [fst snd] in Hsc |- *. rewrite Hsc.
    exists sc, body, fl, ks, info, (mid ++ section (split_bytes info) ++ X).
    cbn [fst snd] in *. rewrite F1, F2.
    split; [reflexivity|]. split; [exists hd; split; [exact Hhd|reflexivity]|].
    split; [unfold mid, section; pose proof (venc_nonempty (len (dict_bytes dl)));
            destruct (venc (len (dict_bytes dl))); [congruence|cbn; congruence]|].
    repeat (split; [auto; fail|]). split; [split; discriminate|]. split; [|exact Hlen_body].
    rewrite E2 in M3. eapply getter_answers; eauto.
Qed.
