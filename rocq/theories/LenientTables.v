(** * The tables: what [Construct] accepts, exactly. *)
From Verif Require Import Base BaseLemmas ModelVarint ModelData ModelSecondary ModelObject
  ModelParse ModelWrapper Spec SpecApi VarintProofs Wire NumProofs SeriProofs SeriProofs2 DocProofs ObjInd ParseLemmas
  NormalProofs SecondaryProofs ValueProofs RoundTrip GeneralProofs PropDocument FrameProofs PropTamper Lenient LenientProofs.
From Coq Require Import ZifyBool ZifyNat ZifyN.

Lemma vint_len n b : vint n b -> (1 <= length b)%nat.
Proof. intros (m & Hg & _). apply groups_pos in Hg. unfold len in Hg. lia. Qed.

Lemma nodup_snoc {A} (x : A) l : ~ In x l -> NoDup l -> NoDup (l ++ [x]).
Proof.
  intros Hn H. eapply Permutation_NoDup; [apply Permutation_app_comm|]. now constructor.
Qed.

Section Table.
  Variable R : renv.
  Notation content := (r_content R).
  Notation B := (r_base R).
  Hypothesis Hin : B + r_size R <= len content.
  Hypothesis Hlim : lim (r_cfg R) (len content).

  Lemma tlim : lim (r_cfg R) (r_size R).
  Proof. eapply lim_le; [|exact Hlim]. lia. Qed.
  Lemma tHW : len content < 4294967296.
  Proof. pose proof (lim_W32 _ _ Hlim) as H. rewrite W32_val in H. exact H. Qed.

  Lemma tnonempty i : i <= r_size R -> check_empty R (at_ i) = Ok tt -> i < r_size R.
  Proof.
    intros Hi H. unfold check_empty in H. destruct (Z.leb_spec (remain R (at_ i)) 0) as [|Hr]; [discriminate|].
    rewrite remain_at in Hr by (try exact tlim; lia). lia.
  Qed.

  Lemma tparse_sound i n s : i <= r_size R -> parseLength R (at_ i) = Ok (n, s) ->
    exists b, vint n b /\ stands content (B + i) b /\ s = at_ (i + len b) /\ i + len b <= r_size R.
  Proof.
    intros Hi H. pose proof tHW as HW. unfold parseLength in H. apply obind_ok in H as ([] & He & H). apply tnonempty in He; [|exact Hi].
    rewrite curAddr_at in H by lia. cbn [obind] in H.
    apply obind_ok in H as ([v k] & Hd & H). pose proof (decode_small _ _ _ _ _ _ Hd) as Hk.
    apply obind_ok in H as ([] & Ho & H). unfold check_oor in Ho. cbn [skip idx at_] in Ho. rewrite u64_small in Ho by (rewrite W64_val; lia).
    destruct (N.ltb_spec (r_size R) (i + k)) as [|Hik]; [discriminate|].
    unfold varint_decode in Hd. change 0 with (7 * 0) in Hd at 3.
    apply decode_sound in Hd as (b & m & Hg & Hs & -> & H10 & ->); [|lia|lia]. rewrite N.add_0_l in *.
    injection H as <- <-. exists b. split.
    - exists m. split; [exact Hg|]. split; [lia|]. change (7 * 0) with 0. now rewrite N.pow_0_r, N.mul_1_r.
    - split; [exact Hs|]. rewrite (skip_at R) by (try exact tlim; lia).
      rewrite (add_off_at R) by (try exact tlim; lia). auto.
  Qed.

  Lemma tparse_complete i n b : vint n b -> stands content (B + i) b -> i + len b <= r_size R -> parseLength R (at_ i) = Ok (n, at_ (i + len b)).
  Proof.
    intros (m & Hg & H10 & ->) Hs Hl. pose proof (groups_pos _ _ Hg).
    unfold parseLength. rewrite check_empty_at by (try exact tlim; lia). cbn [obind].
    rewrite curAddr_at by lia. cbn [obind].
    rewrite remain_at by (try exact tlim; lia). unfold varint_decode. change 0 with (7 * 0) at 2.
    rewrite (decode_complete _ _ _ _ b m); auto; try lia; [| |].
    - change (7 * 0) with 0. rewrite N.pow_0_r, N.mul_1_r, !N.add_0_l. cbn [obind].
      rewrite (skip_at R) by (try exact tlim; lia). rewrite ParseLemmas.check_oor_ok by (cbn; lia). cbn [obind].
      rewrite (add_off_at R) by (try exact tlim; lia). reflexivity.
    - unfold len in *. lia.
    - destruct (ndebug (r_cfg R)) eqn:Hnd; [now left|right]. pose proof Hlim as HL. unfold lim in HL. rewrite Hnd in HL.
      change (2 ^ 31) with 2147483648 in HL. rewrite to_int32_small by lia. lia.
  Qed.

  (** ** Block table *)
  Definition lnum x b := exists y, vint y b /\ x = y mod 2 ^ 32.
  Definition lrow (e : N * list N) ch := exists i id m num blocks, vint i id /\ fst e = i mod 2 ^ 32 /\ vint m num /\ m mod 2 ^ 32 = len (snd e) /\
     Forall2 (fun x b => exists y, vint y b /\ x = y mod 2 ^ 32) (snd e) blocks /\ ch = id ++ num ++ concat blocks.

  Lemma numbers_sound fuel : forall n i acc l s, i <= r_size R -> parse_numbers R fuel n (at_ i) acc = Ok (l, s) ->
    exists xs bs, l = acc ++ xs /\ len xs = n /\ Forall2 lnum xs bs /\ stands content (B + i) (concat bs) /\
      s = at_ (i + len (concat bs)) /\ i + len (concat bs) <= r_size R.
  Proof.
    induction fuel as [|f IH]; intros n i acc l s Hi H; cbn [parse_numbers] in H; [discriminate|].
    destruct (N.eqb_spec n 0) as [->|Hn].
    - injection H as <- <-. exists [], []. rewrite app_nil_r. split; [reflexivity|]. split; [reflexivity|]. split; [constructor|].
      split; [apply stands_nil; lia|]. cbn. rewrite N.add_0_r. auto.
    - apply obind_ok in H as ([t s1] & Ht & H). apply tparse_sound in Ht as (b & Hv & Hs & -> & Hl); [|exact Hi].
      apply IH in H as (xs & bs & -> & Hln & HF & Hst & -> & Hl'); [|exact Hl].
      exists (u32 t :: xs), (b :: bs). split; [now rewrite <- app_assoc|]. split; [rewrite len_cons; lia|].
      split; [constructor; [exists t; split; [exact Hv|reflexivity]|exact HF]|]. cbn [concat].
      split; [apply stands_app; [exact Hs|]; now rewrite <- N.add_assoc|]. rewrite len_app. split; [f_equal; lia|lia].
  Qed.

  Lemma rows_sound fuel : forall n i acc si, i <= r_size R -> si_construct_loop R fuel n (at_ i) acc = Ok si ->
    NoDup (map fst (si_info acc)) ->
    exists l chunks, si_info si = si_info acc ++ l /\ len l = n /\ NoDup (map fst (si_info acc ++ l)) /\ Forall2 lrow l chunks /\
      stands content (B + i) (concat chunks) /\ i + len (concat chunks) <= r_size R.
  Proof.
    induction fuel as [|f IH]; intros n i acc si Hi H Hnd; cbn [si_construct_loop] in H; [discriminate|].
    destruct (N.eqb_spec n 0) as [->|Hn].
    - injection H as <-. exists [], []. rewrite app_nil_r. repeat (split; [first [reflexivity|exact Hnd|constructor|apply stands_nil; cbn; lia]|]). cbn [concat]. rewrite len_nil. lia.
    - apply obind_ok in H as ([t s1] & Ht & H). apply tparse_sound in Ht as (b & Hv & Hs & -> & Hl); [|exact Hi].
      apply obind_ok in H as ([t2 s2] & Ht & H). apply tparse_sound in Ht as (b2 & Hv2 & Hs2 & -> & Hl2); [|exact Hl].
      apply obind_ok in H as ([xs s3] & Ht & H). apply numbers_sound in Ht as (ys & bs & -> & Hln & HF & Hst & -> & Hl'); [|exact Hl2].
      cbn [app] in *. destruct (assoc_find N.eqb (u32 t) (si_info acc)) eqn:Ha; [discriminate|].
      assert (Hnew : ~ In (u32 t) (map fst (si_info acc))).
      { intros Hi'. apply in_map_iff in Hi' as ([k z] & Ek & Hin'). cbn in Ek. rewrite <- Ek in Ha. revert Ha Hin'. clear. induction (si_info acc) as [|[k' z'] l IHl]; cbn; [tauto|].
        destruct (N.eqb_spec k k') as [->|Hne]; [discriminate|]. intros Ha [[= -> ->]|Hi]; [congruence|]. now apply IHl. }
      apply IH in H as (l & chunks & E1 & E2 & E3 & E4 & E5 & E6); [|exact Hl'|].
      2:{ cbn. rewrite map_app. apply nodup_snoc; [exact Hnew|exact Hnd]. }
      cbn [si_info] in *. rewrite <- app_assoc in *. cbn [app] in *.
      exists ((u32 t, ys) :: l), ((b ++ b2 ++ concat bs) :: chunks). split; [exact E1|]. split; [rewrite len_cons; lia|]. split; [exact E3|].
      split. { constructor; [|exact E4]. exists t, b, t2, b2, bs. cbn [fst snd]. split; [exact Hv|]. split; [reflexivity|]. split; [exact Hv2|].
        split; [symmetry; exact Hln|]. split; [exact HF|reflexivity]. }
      cbn [concat]. rewrite <- !app_assoc. rewrite !len_app.
      split; [|lia]. apply stands_app; [exact Hs|]. rewrite <- N.add_assoc. apply stands_app; [exact Hs2|]. rewrite <- N.add_assoc.
      apply stands_app; [exact Hst|]. rewrite <- N.add_assoc. exact E5.
  Qed.

  Lemma numbers_complete : forall fuel xs bs i acc, Forall2 lnum xs bs -> stands content (B + i) (concat bs) -> i + len (concat bs) <= r_size R ->
    (length (concat bs) + 1 <= fuel)%nat ->
    parse_numbers R fuel (len xs) (at_ i) acc = Ok (acc ++ xs, at_ (i + len (concat bs))).
  Proof.
    induction fuel as [|f IH]; intros xs bs i acc HF Hs Hl Hf; [lia|]. cbn [parse_numbers].
    destruct HF as [|x b xs bs (y & Hv & ->) HF]; [cbn; now rewrite app_nil_r, N.add_0_r|].
    rewrite len_cons. replace (1 + len xs =? 0) with false by lia. cbn [concat] in *. rewrite len_app in Hl. rewrite app_length in Hf.
    pose proof (vint_len _ _ Hv).
    rewrite (tparse_complete i y b) by (auto; try lia; eapply stands_l; exact Hs). cbn [obind].
    apply stands_r in Hs. rewrite <- N.add_assoc in Hs. replace (1 + len xs - 1) with (len xs) by lia.
    rewrite (IH xs bs) by (auto; lia). rewrite <- app_assoc, len_app. cbn [app]. do 3 f_equal. lia.
  Qed.

  Lemma rows_complete : forall fuel l chunks i acc, Forall2 lrow l chunks -> NoDup (map fst (si_info acc ++ l)) ->
    stands content (B + i) (concat chunks) -> i + len (concat chunks) <= r_size R -> (length (concat chunks) + 1 <= fuel)%nat ->
    exists si, si_construct_loop R fuel (len l) (at_ i) acc = Ok si /\ si_info si = si_info acc ++ l.
  Proof.
    induction fuel as [|f IH]; intros l chunks i acc HF Hnd Hs Hl Hf; [lia|]. cbn [si_construct_loop].
    destruct HF as [|[id xs] ch l chunks (t & b & m & num & bs & Hv & Hid & Hv2 & Hm & HFb & ->) HF]; [eexists; split; [reflexivity|now rewrite app_nil_r]|].
    cbn [fst snd] in *. rewrite len_cons. replace (1 + len l =? 0) with false by lia. cbn [concat] in *. rewrite !len_app in Hl. rewrite !app_length in Hf.
    pose proof (vint_len _ _ Hv). pose proof (vint_len _ _ Hv2). rewrite <- !app_assoc in Hs.
    rewrite (tparse_complete i t b) by (auto; try lia; eapply stands_l; exact Hs). cbn [obind].
    apply stands_r in Hs. rewrite <- N.add_assoc in Hs.
    rewrite (tparse_complete _ m num) by (auto; try lia; eapply stands_l; exact Hs). cbn [obind].
    apply stands_r in Hs. rewrite <- N.add_assoc in Hs. change (u32 m) with (m mod 2 ^ 32). rewrite Hm.
    rewrite (numbers_complete f xs bs) by (auto; try lia; eapply stands_l; exact Hs). cbn [obind].
    apply stands_r in Hs. rewrite <- N.add_assoc in Hs. change (u32 t) with (t mod 2 ^ 32). rewrite <- Hid.
    destruct (assoc_find N.eqb id (si_info acc)) eqn:Ha.
    { exfalso. rewrite map_app in Hnd. cbn in Hnd. apply NoDup_remove_2 in Hnd. apply Hnd. apply in_or_app. left.
      revert Ha. clear. induction (si_info acc) as [|[k' z'] q IHl]; cbn; [discriminate|].
      destruct (N.eqb_spec id k') as [->|Hne]; [now left|]. intros Ha. right. now apply IHl. }
    replace (1 + len l - 1) with (len l) by lia.
    destruct (IH l chunks (i + len b + len num + len (concat bs)) {| si_info := si_info acc ++ [(id, xs)]; si_next := if si_next acc <=? id then u32 (id + 1) else si_next acc |}) as (si & H1 & H2); [exact HF| |exact Hs|lia|lia|].
    - cbn. now rewrite <- app_assoc.
    - exists si. split; [exact H1|]. rewrite H2. cbn. now rewrite <- app_assoc.
  Qed.

  Lemma split_sound fuel si : SplitInfo_Construct R fuel = Ok si ->
    exists l b, lsplit l b /\ stands content B b /\ len b <= r_size R /\ si_info si = l.
  Proof.
    unfold SplitInfo_Construct. intros H. apply obind_ok in H as ([n s] & Hn & H). change {| idx := 0; off := 0 |} with (at_ 0) in Hn.
    apply tparse_sound in Hn as (b & Hv & Hs & -> & Hl); [|lia]. apply rows_sound in H as (l & chunks & E1 & E2 & E3 & E4 & E5 & E6); [|exact Hl|constructor].
    exists l, (b ++ concat chunks ++ []). split.
    - econstructor; [exact Hv|symmetry; exact E2|exact E3|exact E4].
    - rewrite app_nil_r, len_app. rewrite N.add_0_r in *. split; [|split; [lia|exact E1]]. apply stands_app; [exact Hs|]. rewrite <- (N.add_0_l (len b)). exact E5.
  Qed.

  Lemma split_complete fuel l b : lsplit l b -> stands content B b -> len b = r_size R -> (length b <= fuel)%nat ->
    exists si, SplitInfo_Construct R fuel = Ok si /\ si_info si = l.
  Proof.
    intros [n cnt chunks junk Hv Hn Hnd HF] Hs Hl Hf. unfold SplitInfo_Construct. change {| idx := 0; off := 0 |} with (at_ 0).
    rewrite !len_app in Hl. rewrite !app_length in Hf. pose proof (vint_len _ _ Hv).
    rewrite (tparse_complete 0 n cnt) by (rewrite ?N.add_0_r; auto; try lia; eapply stands_l; exact Hs). cbn [obind].
    change (u32 n) with (n mod 2 ^ 32). rewrite Hn. apply stands_r, stands_l in Hs.
    destruct (rows_complete fuel l chunks (0 + len cnt) si_empty) as (si & H1 & H2); [exact HF|exact Hnd|exact Hs|lia|lia|].
    exists si. split; [exact H1|exact H2].
  Qed.

  (** ** Dictionary *)
  Variable buf : nat.
  Definition lkey (e : bytes * N) ch := exists kl i id, vint (len (fst e)) kl /\ vint i id /\ snd e = i mod 2 ^ 32 /\ ch = kl ++ fst e ++ id.
  Definition vref (a : view * N) (e : bytes * N) := read_local R (fst a) = Ok (fst e) /\ snd a = snd e.

  Lemma view_find_spec acc accs k : Forall2 vref acc accs -> view_find R k acc = Ok (id_of k accs).
  Proof using.
    induction 1 as [|[v i] [k' i'] acc accs [H1 H2] HF IH]; [reflexivity|]. cbn [view_find fst snd] in *. rewrite H1. cbn [obind].
    cbn. destruct (bytes_eqb k k'); [now subst|exact IH].
  Qed.

  (** The table after reading [l] behind [accs]. *)
  Fixpoint added (accs l : list (bytes * N)) : list (bytes * N) :=
    match l with
    | [] => accs
    | e :: l' => match id_of (fst e) accs with Some _ => added accs l' | None => added (accs ++ [e]) l' end
    end.

  Lemma keys_sound fuel : forall n i acc accs m, i <= r_size R -> sm_construct_loop R buf fuel n (at_ i) acc = Ok m ->
    Forall2 vref acc accs ->
    exists l chunks, len l = n /\ Forall2 lkey l chunks /\ Forall2 vref m (added accs l) /\
      stands content (B + i) (concat chunks) /\ i + len (concat chunks) <= r_size R.
  Proof.
    induction fuel as [|f IH]; intros n i acc accs m Hi H HA; cbn [sm_construct_loop] in H; [discriminate|].
    destruct (N.eqb_spec n 0) as [->|Hn].
    - injection H as <-. exists [], []. split; [reflexivity|]. split; [constructor|]. split; [exact HA|].
      split; [apply stands_nil; lia|]. cbn [concat]. change (len (@nil byte)) with 0. lia.
    - pose proof tHW as HW. apply obind_ok in H as ([kl s1] & Ht & H). apply tparse_sound in Ht as (b & Hv & Hs & -> & Hl); [|exact Hi].
      apply obind_ok in H as (a & Ha & H). unfold curAddr in Ha. cbn [idx at_] in Ha.
      destruct (N.leb_spec (r_size R) (i + len b)) as [|Hlt]; [discriminate|]. injection Ha as <-.
      apply obind_ok in H as ([id s3] & Ht & H). apply obind_ok in H as (k & Hk & H). apply obind_ok in H as (fd & Hfd & H).
      rewrite (view_find_spec _ _ _ HA) in Hfd. injection Hfd as <-.
      assert (Hkb : kl <= len content + 1).
      { unfold read_local in Hk. cbn in Hk. apply read_range_bound in Hk. lia. }
      assert (Hs2 : skip kl (add_off kl (at_ (i + len b))) = at_ (i + len b + kl)).
      { unfold skip, add_off, at_. cbn. rewrite u64_small by (rewrite W64_val; lia). reflexivity. }
      rewrite Hs2 in Ht.
      assert (Hle : i + len b + kl <= r_size R).
      { unfold parseLength in Ht. apply obind_ok in Ht as ([] & He & Ht). apply obind_ok in Ht as (a & Ha & _). unfold curAddr in Ha. cbn [idx at_] in Ha.
        destruct (N.leb_spec (r_size R) (i + len b + kl)) as [|]; [discriminate|lia]. }
      apply tparse_sound in Ht as (b3 & Hv3 & Hs3 & -> & Hl3); [|exact Hle].
      unfold read_local in Hk. cbn [v_off v_len] in Hk. pose proof Hk as Hk'. apply stands_read in Hk as [Hks Hkl]; [|lia].
      set (e := (k, u32 id)).
      assert (HA' : Forall2 vref (match id_of k accs with Some _ => acc | None => acc ++ [({| v_buf := buf; v_off := B + (i + len b); v_len := kl |}, u32 id)] end)
                                 (match id_of (fst e) accs with Some _ => accs | None => accs ++ [e] end)).
      { cbn [fst e]. destruct (id_of k accs); [exact HA|]. apply Forall2_app; [exact HA|]. constructor; [|constructor]. split; [exact Hk'|reflexivity]. }
      eapply IH in H as (l & chunks & E1 & E2 & E3 & E4 & E5); [|exact Hl3|exact HA'].
      exists (e :: l), ((b ++ k ++ b3) :: chunks). split; [rewrite len_cons; lia|]. split.
      { constructor; [|exact E2]. exists b, id, b3. cbn [fst snd e]. rewrite Hkl. split; [exact Hv|]. split; [exact Hv3|]. split; reflexivity. }
      split. { cbn [added]. destruct (id_of (fst e) accs); exact E3. }
      cbn [concat]. rewrite <- !app_assoc. rewrite !len_app, Hkl. split; [|lia].
      apply stands_app; [exact Hs|]. rewrite <- N.add_assoc. apply stands_app; [exact Hks|]. rewrite Hkl. replace (B + (i + len b) + kl) with (B + (i + len b + kl)) by lia.
      apply stands_app; [exact Hs3|]. rewrite <- N.add_assoc. exact E4.
  Qed.

  Lemma keys_complete : forall fuel l chunks i acc accs, Forall2 lkey l chunks -> Forall2 vref acc accs ->
    stands content (B + i) (concat chunks) -> i + len (concat chunks) <= r_size R -> (length (concat chunks) + 1 <= fuel)%nat ->
    exists m, sm_construct_loop R buf fuel (len l) (at_ i) acc = Ok m /\ Forall2 vref m (added accs l).
  Proof.
    induction fuel as [|f IH]; intros l chunks i acc accs HF HA Hs Hl Hf; [lia|]. cbn [sm_construct_loop].
    destruct HF as [|[k id] ch l chunks (kl & j & idb & Hv & Hv2 & Hid & ->) HF]; [eexists; split; [reflexivity|exact HA]|].
    cbn [fst snd] in *. rewrite len_cons. replace (1 + len l =? 0) with false by lia. cbn [concat] in *. rewrite !len_app in Hl. rewrite !app_length in Hf.
    pose proof (vint_len _ _ Hv). pose proof (vint_len _ _ Hv2). rewrite <- !app_assoc in Hs. pose proof tHW as HW.
    rewrite (tparse_complete i (len k) kl) by (auto; try lia; eapply stands_l; exact Hs). cbn [obind].
    apply stands_r in Hs. rewrite <- N.add_assoc in Hs. rewrite curAddr_at by (unfold len in *; lia). cbn [obind].
    assert (Hs2 : skip (len k) (add_off (len k) (at_ (i + len kl))) = at_ (i + len kl + len k)).
    { unfold skip, add_off, at_. cbn. rewrite u64_small by (rewrite W64_val; lia). reflexivity. }
    rewrite Hs2. pose proof (read_range_stands _ _ _ (stands_l _ _ _ _ Hs)) as Hk.
    apply stands_r in Hs. rewrite <- N.add_assoc in Hs. rewrite (tparse_complete _ j idb) by (auto; try lia; eapply stands_l; exact Hs). cbn [obind].
    unfold read_local at 1. cbn [v_off v_len]. rewrite Hk. cbn [obind]. rewrite (view_find_spec _ _ _ HA). cbn [obind].
    apply stands_r in Hs. rewrite <- N.add_assoc in Hs. replace (1 + len l - 1) with (len l) by lia. cbn [added fst].
    change (u32 j) with (j mod 2 ^ 32). rewrite <- Hid. destruct (id_of k accs).
    - eapply IH; [exact HF|exact HA|exact Hs|lia|lia].
    - eapply IH; [exact HF| |exact Hs|lia|lia]. apply Forall2_app; [exact HA|]. constructor; [|constructor]. split; [exact Hk|reflexivity].
  Qed.

  Lemma id_of_app k a b : id_of k (a ++ b) = match id_of k a with Some i => Some i | None => id_of k b end.
  Proof using. induction a as [|[k' i] a IH]; cbn; [reflexivity|]. destruct (bytes_eqb k k'); [reflexivity|exact IH]. Qed.
  Lemma id_of_added k l : forall accs, id_of k (added accs l) = id_of k (accs ++ l).
  Proof using.
    induction l as [|[k' i] l IH]; intros accs; cbn; [now rewrite app_nil_r|]. destruct (id_of k' accs) eqn:He.
    - rewrite IH, !id_of_app. cbn. destruct (id_of k accs) eqn:Hk; [reflexivity|]. destruct (bytes_eqb_spec k k') as [->|]; [congruence|reflexivity].
    - rewrite IH, <- app_assoc. reflexivity.
  Qed.
  Lemma id_of_none k a : id_of k a = None -> ~ In k (map fst a).
  Proof using.
    induction a as [|[k' i] a IH]; cbn; [tauto|]. destruct (bytes_eqb_spec k k') as [->|Hne]; [discriminate|].
    intros H [H'|H']; [congruence|now apply IH].
  Qed.
  Lemma added_nodup l : forall accs, NoDup (map fst accs) -> NoDup (map fst (added accs l)).
  Proof using.
    induction l as [|[k' i] l IH]; intros accs H; cbn; [exact H|]. destruct (id_of k' accs) eqn:He; apply IH; [exact H|].
    rewrite map_app. apply nodup_snoc; [now apply id_of_none|exact H].
  Qed.
  Lemma id_of_in k i a : NoDup (map fst a) -> In (k, i) a <-> id_of k a = Some i.
  Proof using.
    induction a as [|[k' i'] a IH]; cbn; [split; [tauto|discriminate]|]. intros H. inversion H as [|? ? Hn Hnd]; subst.
    destruct (bytes_eqb_spec k k') as [->|Hne]; split.
    - intros [[= <-]|Hi]; [reflexivity|]. exfalso. apply Hn. change k' with (fst (k', i)). now apply in_map.
    - intros [= <-]. now left.
    - intros [[= -> _]|Hi]; [congruence|]. now apply IH.
    - intros Hi. right. now apply IH.
  Qed.
End Table.
