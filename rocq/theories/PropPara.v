(** * Properties C82 and C83: the parallel parser on arbitrary bytes. *)
From Verif Require Import Base BaseLemmas ModelVarint ModelData ModelSecondary ModelObject
  ModelParse ModelWrapper Spec SpecApi VarintProofs Wire NumProofs SeriProofs SeriProofs2 DocProofs ObjInd ParseLemmas
  NormalProofs SecondaryProofs ValueProofs ParaProofs RoundTrip GeneralProofs ApiProofs Samples PropRoundTrip PropDocument PropHostile FrameProofs PropTamper
  PropContainers PropCanonical Lenient LenientPara LenientProofs LenientTables PropLenient LenientParaProofs.
From Coq Require Import ZifyBool ZifyNat ZifyN.

Notation parallel := {| po_type := Coroutine; po_ref := false |}.

(** What the parallel parser returns for these entries of the root map. *)
Definition pmeaning (entries : list (bytes * value)) : obj :=
  match first_root entries with Some v => tree_of CoroFrame v | None => ONull end.

Lemma take_root_first l :
  fst (Map_take (map (fun e => (fst e, tree_of CoroFrame (snd e))) l) root_key) = pmeaning l.
Proof.
  unfold pmeaning, first_root. induction l as [|[k v] l IH]; [reflexivity|].
  cbn [map fst snd Map_take assoc_find]. destruct (bytes_eqb_spec k root_key) as [->|Hne].
  - destruct (bytes_eqb_spec root_key root_key); [reflexivity|congruence].
  - destruct (bytes_eqb_spec root_key k); [congruence|]. rewrite <- IH. now destruct (Map_take _ _).
Qed.

(** Sizes in a table that was read. *)
Lemma Forall2_in_r {A B} (P : A -> B -> Prop) l l' a : Forall2 P l l' -> In a l -> exists b, In b l' /\ P a b.
Proof. induction 1 as [|x y l l' Hxy HF IH]; cbn; [tauto|]. intros [->|H]; [eauto|]. destruct (IH H) as (b & ? & ?). eauto. Qed.

Lemma concat_len_ge {A} (chs : list (list A)) ch : In ch chs -> len ch <= len (concat chs).
Proof. induction chs as [|c chs IH]; cbn; [tauto|]. intros [->|H]; rewrite len_app; [lia|]. specialize (IH H). lia. Qed.

Lemma blocks_count (xs : list N) (bs : list bytes) :
  Forall2 (fun x b => exists y, vint y b /\ x = y mod 2 ^ 32) xs bs -> len xs <= len (concat bs) /\ Forall (fun x => x < 2 ^ 32) xs.
Proof.
  induction 1 as [|x b xs bs (y & Hy & ->) HF (IH1 & IH2)]; [split; [change (len (@nil N)) with 0; lia|constructor]|].
  apply vlen in Hy. cbn [concat]. rewrite len_app, len_cons. split; [lia|]. constructor; [|exact IH2]. apply N.mod_lt. discriminate.
Qed.

Lemma lsplit_bounds l b : lsplit l b -> forall id xs, In (id, xs) l -> Forall (fun x => x < 2 ^ 32) xs /\ len xs <= len b.
Proof.
  intros [n cnt chunks junk Hn Hc Hnd HF] id xs Hin. apply (Forall2_in_r _ _ _ _ HF) in Hin as (ch & Hch & i & idb & m & num & blocks & _ & _ & _ & _ & HB & ->).
  cbn [snd] in HB. apply blocks_count in HB as [H1 H2]. split; [exact H2|]. apply concat_len_ge in Hch. rewrite !len_app in *. lia.
Qed.

Lemma ptables_bounds clear ty D l rest : ptables clear ty D l rest ->
  NoDup (map fst l) /\ forall id xs, In (id, xs) l -> Forall (fun x => x < 2 ^ 32) xs /\ len xs <= len rest.
Proof.
  intros H. assert (G : exists sb, lsplit l sb /\ len sb <= len rest).
  { destruct H; exists sb; split; auto; rewrite !len_app; lia. }
  destruct G as (sb & Hs & Hl). split; [destruct Hs; assumption|]. intros id xs Hin. destruct (lsplit_bounds _ _ Hs _ _ Hin). split; [assumption|lia].
Qed.

Lemma init_flag c fuel content buf sc : initFromContent c fuel content buf = Ok sc -> sc_need_to_split sc = (b2n (nth 9 content x00) =? 10).
Proof.
  intros H. unfold initFromContent in H. destruct (_ <? _); [discriminate|]. apply obind_ok in H as (t & _ & H). apply obind_ok in H as (x & _ & H).
  destruct (N.eqb_spec (b2n (nth 9 content x00)) 0) as [->|]; [injection H as <-; reflexivity|].
  destruct (N.eqb_spec (b2n (nth 9 content x00)) 10) as [|]; [injection H as <-; reflexivity|discriminate].
Qed.

(** A document that does not say that its root is split is read sequentially. *)
Theorem C82_unsplit_is_sequential : forall c fuel content buf p pr, b2n (nth 9 content x00) <> 10 ->
  Parse c fuel content buf p {| po_type := Coroutine; po_ref := pr |} = Parse c fuel content buf p {| po_type := Normal; po_ref := pr |}.
Proof.
  intros c fuel content buf p pr H. unfold Parse. destruct (initFromContent c fuel content buf) as [sc| | | |] eqn:Hi; try reflexivity.
  cbn [obind]. unfold Parse_prog. cbn [po_type po_ref]. rewrite (init_flag _ _ _ _ _ Hi). apply N.eqb_neq in H. now rewrite H.
Qed.

(** The root map the parallel parser builds, by the positional grammar. *)
Lemma para_root_sound c fuel content buf sc root j : sane c -> fits c content -> announced content ->
  initFromContent c fuel content buf = Ok sc ->
  run (getter c (sc_map sc)) (ParseMap (doc_env c content buf sc) (sc_split sc) fuel false meta_size) = Ok (root, j) ->
  exists ty D blocks main rest entries,
    content = main ++ rest /\ len main = big_endian (firstn 8 content) /\
    b2n (nth 8 content x00) = SeriTypeToChar ty /\ ptables false ty D blocks rest /\
    pmap content (negb (ndebug c)) D blocks 10 entries j /\ root = tree_of CoroFrame (VMap entries).
Proof.
  intros Hsane HL Han Hsc Hv.
  destruct (init_header _ _ _ _ _ Hsc) as (size & t & f & rest0 & Hc & Hsz & Htot & Hlt & Hf & Hm).
  assert (H8 : firstn 8 content = size /\ nth 8 content x00 = t).
  { rewrite Hc. unfold len in *. split.
    - rewrite firstn_app, firstn_all2 by lia. replace (8 - length size)%nat with 0%nat by lia. now rewrite firstn_O, app_nil_r.
    - rewrite app_nth2 by lia. replace (8 - length size)%nat with 0%nat by lia. reflexivity. }
  destruct H8 as [H8 H8t].
  set (main := firstn (N.to_nat (sc_total sc)) content). set (rest := skipn (N.to_nat (sc_total sc)) content).
  assert (Hmr : content = main ++ rest) by (symmetry; apply firstn_skipn).
  assert (Hlm : len main = sc_total sc) by (unfold main, len in *; rewrite firstn_length; lia).
  destruct (init_ptables c fuel content buf sc Hsane HL Han Hsc main rest Hmr Hlm) as (ty & Hty & HT).
  destruct (ptables_bounds _ _ _ _ _ HT) as [_ HB].
  set (E := doc_env c content buf sc) in *. set (D := known_option c content (sc_map sc)) in *.
  assert (Hmap : ModelParse.b_map E = match D with Some _ => true | None => false end) by (unfold D; cbn; now destruct (sc_map sc)).
  assert (Hget : forall d id v s, D = Some d -> getter c (sc_map sc) id = Ok v -> read_local (b_env E) v = Ok s -> d id = Some s).
  { intros d id v s0 Hd Hg Hr. unfold D, known_option in Hd. destruct (sc_map sc) as [m|]; [|discriminate]. injection Hd as <-.
    unfold known_strings. rewrite Hg. change (b_env E) with (root_env c content) in Hr. rewrite Hr. reflexivity. }
  unfold meta_size in Hv.
  destruct (para_sound E (sc_split sc) (getter c (sc_map sc)) D eq_refl eq_refl HL Hmap Hget) with (fuel := fuel) as (_ & PM & _).
  { intros id l Hin. destruct (HB id l Hin) as [B1 B2]. split; [exact B1|]. cbn. rewrite Hmr, len_app. lia. }
  apply PM in Hv as (es & Hes & -> & _).
  exists ty, D, (si_info (sc_split sc)), main, rest, es. split; [exact Hmr|]. split; [rewrite Hlm, Htot, H8; reflexivity|].
  split. { rewrite H8t. destruct Hm as [[-> Hmm]|[-> (m & Hmm)]]; rewrite Hmm in Hty; destruct ty; try reflexivity; exfalso; destruct Hty as [Y1 Y2]; [now specialize (Y2 eq_refl)|now specialize (Y1 eq_refl)]. }
  split; [exact HT|]. split; [exact Hes|reflexivity].
Qed.

(** C82.  Whatever the parallel parser accepts, its result is what the positional
    grammar says of the input, with the block table and the dictionary that stand
    behind the announced end of the body. *)
Theorem C82_parallel_accepted_means : forall c fuel content buf p o, sane c -> fits c content -> announced content ->
  b2n (nth 9 content x00) = 10 ->
  Parse c fuel content buf p parallel = Ok o ->
  exists ty D blocks main rest entries j,
    content = main ++ rest /\ len main = big_endian (firstn 8 content) /\
    b2n (nth 8 content x00) = SeriTypeToChar ty /\ ptables false ty D blocks rest /\
    pmap content (negb (ndebug c)) D blocks 10 entries j /\ o = pmeaning entries.
Proof.
  intros c fuel content buf p o Hsane HL Han H9 H. unfold Parse in H. apply obind_ok in H as (sc & Hsc & H).
  unfold Parse_prog in H. cbn [po_type po_ref] in H. rewrite (init_flag _ _ _ _ _ Hsc), H9 in H. cbn [N.eqb Pos.eqb] in H.
  unfold CoroParse_prog in H. rewrite run_bind in H. apply obind_ok in H as ([root j] & Hv & H).
  destruct (para_root_sound c fuel content buf sc root j Hsane HL Han Hsc Hv) as (ty & D & blocks & main & rest & es & H1 & H2 & H3 & H4 & H5 & ->).
  cbn [tree_of take_root] in H. rewrite run_lift, take_root_first in H. injection H as <-.
  exists ty, D, blocks, main, rest, es, j. auto 10.
Qed.

(** Conversely: if the positional grammar gives the bytes before the last tables a
    meaning, the parallel parser accepts them with that meaning. *)
Theorem C82_parallel_documents_accepted : forall c fuel size t f body rest buf p ty D blocks entries j,
  let main := size ++ [t] ++ [f] ++ body in
  let content := main ++ rest in
  sane c -> fits c content -> (length content <= fuel)%nat ->
  len size = 8 -> big_endian size = len main -> b2n t = SeriTypeToChar ty -> b2n f = 10 ->
  ptables true ty D blocks rest ->
  pmap main (negb (ndebug c)) D blocks 10 entries j ->
  Parse c fuel content buf p parallel = Ok (pmeaning entries).
Proof.
  intros c fuel size t f body rest buf p ty D blocks entries j main content Hsane HL Hfuel Hsz Htot Ht Hf HT HP.
  assert (Hcd : content = size ++ [t] ++ [f] ++ body ++ rest) by (unfold content, main; now rewrite <- !app_assoc).
  assert (Hlm : len main = 10 + len body) by (unfold main; rewrite !len_app, !len_cons, len_nil; lia).
  rewrite Hlm in Htot.
  destruct (init_pcomplete c fuel size t f body rest buf ty D blocks Hsane) as (sc & Hsc & Htt & Hsi & Hfl & HD); auto.
  { rewrite <- Hcd. exact HL. }
  { rewrite <- Hcd. exact Hfuel. }
  rewrite <- Hcd in Hsc, HD. unfold Parse. rewrite Hsc. cbn [obind]. unfold Parse_prog. cbn [po_type po_ref]. rewrite Hfl, Hf.
  cbn [N.eqb Pos.eqb]. unfold CoroParse_prog, meta_size. set (E := doc_env c content buf sc). rewrite run_bind.
  destruct (ptables_bounds _ _ _ _ _ HT) as [Hnd HB].
  destruct (para_complete E (sc_split sc) (getter c (sc_map sc)) D main rest) with (fuel := fuel) as (_ & PM & _); auto.
  { cbn. destruct D as [d|]; [destruct HD as (m & -> & _)|rewrite HD]; reflexivity. }
  { intros d id s -> Hds. destruct HD as (m & -> & HD). apply HD. exact Hds. }
  { intros id l Hin. rewrite Hsi in Hin. destruct (HB id l Hin) as [B1 B2]. split; [exact B1|]. cbn. unfold content. rewrite len_app. lia. }
  { rewrite Hsi. exact Hnd. }
  { assert (G : forall n b, vint n b -> b <> []) by (intros n b Hv ->; apply vlen in Hv; rewrite len_nil in Hv; lia).
    intros Hr. destruct HT as [n sb splits junk Hn _|n db strings d n' sb splits junk Hn _ _ _ _ _]; apply app_eq_nil in Hr as [Hr _]; now apply (G _ _ Hn). }
  rewrite (PM 10 entries j).
  - cbn [obind]. cbn [tree_of take_root]. now rewrite run_lift, take_root_first.
  - rewrite Hsi. exact HP.
  - cbn. unfold len in *. lia.
Qed.

(** ** C83 *)
Section TiledProofs.
  Variables (strict : bool) (D : option (N -> option bytes)) (blocks : list (N * list N)).
  Notation tval := (tval strict D blocks).
  Notation tentry := (fun (e : bytes * value) ch => exists kb b, lstr D (fst e) kb /\ tval (snd e) b /\ ch = kb ++ b).

  Lemma tval_nonempty v b : tval v b -> 1 <= len b.
  Proof using. intros []; rewrite len_cons; lia. Qed.

  Lemma in_concat_len {A} (ch : list A) chs : In ch chs -> (length ch <= length (concat chs))%nat.
  Proof using. induction chs as [|c chs IH]; cbn; [tauto|]. intros [->|H]; rewrite app_length; [lia|]. specialize (IH H). lia. Qed.

  (** Read sequentially. *)
  Lemma tval_wire : forall n v b, (length b <= n)%nat -> tval v b -> exists t b', b = t :: b' /\ tagged v t /\ lwire strict D v b'.
  Proof using.
    induction n as [|n IH]; intros v b Hn H; [apply tval_nonempty in H; unfold len in H; lia|].
    destruct H as [v t b H1 H2 H3|l t cnt id i groups H1 H2 H3 H4 H5|l t cnt id i groups H1 H2 H3 H4 H5].
    - exists t, b. auto.
    - exists t, (cnt ++ id ++ concat (concat groups)). split; [reflexivity|]. split; [unfold tagged; now rewrite H1|].
      cbn [length] in Hn. rewrite !app_length in Hn.
      apply lw_arr with (i := i); auto. eapply Forall2_impl; [|exact H5]. intros v ch _ Hin Hv. apply in_concat_len in Hin.
      destruct (IH v ch ltac:(lia) Hv) as (t' & b' & -> & Ht' & Hw). exists t', b'. auto.
    - exists t, (cnt ++ id ++ concat (concat groups)). split; [reflexivity|]. split; [unfold tagged; now rewrite H1|].
      cbn [length] in Hn. rewrite !app_length in Hn.
      apply lw_map with (i := i); auto. eapply Forall2_impl; [|exact H5]. intros e ch _ Hin (kb & b & Hk & Hv & ->). apply in_concat_len in Hin. rewrite app_length in Hin.
      destruct (IH _ b ltac:(lia) Hv) as (t' & b' & -> & Ht' & Hw). exists kb, t', b'. auto.
  Qed.

  (** Read in parallel, somewhere in an input. *)
  Variable C : bytes.
  Hypothesis HC : len C < 2 ^ 32.
  Notation pval := (pval C strict D blocks).

  Lemma found_l i a b : found C i (a ++ b) -> found C i a.
  Proof using. apply (stands_l C i a b). Qed.
  Lemma found_r i a b : found C i (a ++ b) -> found C (i + len a) b.
  Proof using. apply (stands_r C i a b). Qed.
  Lemma found_len i b : found C i b -> i + len b <= len C.
  Proof using. apply (stands_len C i b). Qed.

  Lemma lstr_pkey i k kb : lstr D k kb -> found C i kb -> pkey C D i k (i + len kb).
  Proof using HC.
    intros [s l HD Hv|d id s l HD Hv Hd] Hf.
    - apply pk_plain with (n := len s); auto. apply N.mod_small. apply found_len in Hf. rewrite len_app in Hf. lia.
    - eapply pk_dict; eauto.
  Qed.

  Definition reads_as (v : value) (b : bytes) : Prop := forall i, found C i b -> exists w, pval i w (i + len b) /\ same_content v w.

  Lemma arr_block_tiled : forall vs g, Forall2 (fun v b => 1 <= len b /\ reads_as v b) vs g -> forall i, found C i (concat g) ->
    exists ws, parr_block C strict D blocks i (i + len (concat g)) ws /\ Forall2 same_content vs ws.
  Proof using.
    clear HC.
    induction 1 as [|v b vs g [Hb Hr] HF IH]; intros i Hf.
    - exists []. split; [|constructor]. constructor. cbn [concat]. rewrite len_nil. lia.
    - cbn [concat] in *. destruct (Hr i) as (w & Hw & Hs); [eapply found_l; exact Hf|]. destruct (IH (i + len b)) as (ws & Hws & HS); [now apply found_r|].
      exists (w :: ws). split; [|now constructor]. rewrite len_app. apply pab_more with (j := i + len b); [lia|exact Hw|].
      now rewrite N.add_assoc.
  Qed.

  Notation same_entry := (fun a b : bytes * value => fst a = fst b /\ same_content (snd a) (snd b)).
  Lemma map_block_tiled : forall es g, Forall2 (fun e ch => exists kb b, lstr D (fst e) kb /\ ch = kb ++ b /\ 1 <= len b /\ reads_as (snd e) b) es g ->
    forall i, found C i (concat g) ->
    exists ws, pmap_block C strict D blocks i (i + len (concat g)) ws /\ Forall2 same_entry es ws.
  Proof using HC.
    induction 1 as [|[k v] ch es g (kb & b & Hk & -> & Hb & Hr) HF IH]; intros i Hf.
    - exists []. split; [|constructor]. constructor. cbn [concat]. rewrite len_nil. lia.
    - cbn [concat fst snd] in *. rewrite <- app_assoc in Hf. pose proof (lstr_pkey i k kb Hk (found_l _ _ _ Hf)) as Hkey. apply found_r in Hf.
      destruct (Hr (i + len kb)) as (w & Hw & Hs); [eapply found_l; exact Hf|].
      destruct (IH (i + len kb + len b)) as (ws & Hws & HS); [now apply found_r|].
      exists ((k, w) :: ws). split; [|constructor; [split; auto|exact HS]]. rewrite !len_app. eapply pmb_more; [lia|exact Hkey|exact Hw|].
      replace (i + (len kb + len b + len (concat g))) with (i + len kb + len b + len (concat g)) by lia. exact Hws.
  Qed.

  Lemma blocks_tiled {V} (RW : V -> bytes -> Prop) (S : V -> V -> Prop) (Q : N -> N -> list V -> Prop) (QS : N -> list N -> list (list V) -> N -> Prop) :
    (forall i, QS i [] [] i) ->
    (forall i n sizes vs vss j, Q i (i + n) vs -> QS (i + n) sizes vss j -> QS i (n :: sizes) (vs :: vss) j) ->
    (forall vs g, Forall2 RW vs g -> forall i, found C i (concat g) -> exists ws, Q i (i + len (concat g)) ws /\ Forall2 S vs ws) ->
    forall vgs groups, Forall2 (Forall2 RW) vgs groups -> forall i, found C i (concat (concat groups)) ->
    exists wss, QS i (sizes_of groups) wss (i + len (concat (concat groups))) /\ Forall2 (Forall2 S) vgs wss.
  Proof using.
    clear HC.
    intros Q0 Q1 HQ. induction 1 as [|vs g vgs groups Hg HF IH]; intros i Hf.
    - exists []. cbn [concat]. rewrite len_nil, N.add_0_r. split; [apply Q0|constructor].
    - cbn [concat] in Hf |- *. rewrite concat_app in Hf |- *. destruct (HQ _ _ Hg i (found_l _ _ _ Hf)) as (ws & H1 & H2).
      destruct (IH (i + len (concat g))) as (wss & H3 & H4); [now apply found_r|].
      exists (ws :: wss). split; [|now constructor]. cbn [sizes_of map]. apply Q1; [exact H1|]. rewrite len_app, N.add_assoc. exact H3.
  Qed.

  Lemma tmap_pmap l cnt id i groups : vint (len l) cnt -> vint i id -> In (i mod 2 ^ 32, sizes_of groups) blocks ->
    Forall2 (fun e ch => exists kb b, lstr D (fst e) kb /\ ch = kb ++ b /\ 1 <= len b /\ reads_as (snd e) b) l (concat groups) ->
    forall k, found C k (cnt ++ id ++ concat (concat groups)) ->
    exists es, pmap C strict D blocks k es (k + len (cnt ++ id ++ concat (concat groups))) /\ same_content (VMap l) (VMap es).
  Proof using HC.
    intros Hc Hi Hin HF k Hf. destruct (Forall2_concat_inv _ _ _ HF) as (vgs & -> & HF').
    rewrite app_assoc in Hf. pose proof (found_r _ _ _ Hf) as Hf2. apply found_l in Hf.
    destruct (blocks_tiled _ same_entry (pmap_block C strict D blocks) (pmaps C strict D blocks) (pms_nil _ _ _ _) (pms_cons _ _ _ _) map_block_tiled vgs groups HF' _ Hf2) as (wss & Hws & HS).
    exists (concat (rev wss)). split.
    - eapply pm; [exact Hc|exact Hi|exact Hf|exact Hin|]. rewrite app_assoc, (len_app (cnt ++ id)), N.add_assoc. exact Hws.
    - apply same_map with (l1 := concat (rev vgs)); [apply perm_concat_rev|]. now apply Forall2_concat_rev.
  Qed.

  Lemma tval_pval : forall n v b, (length b <= n)%nat -> tval v b -> reads_as v b.
  Proof using HC.
    induction n as [|n IH]; intros v b Hn H; [apply tval_nonempty in H; unfold len in H; lia|].
    destruct H as [v t b H1 H2 H3|l t cnt id i groups H1 H2 H3 H4 H5|l t cnt id i groups H1 H2 H3 H4 H5]; intros k Hf.
    - exists (mirror v). split; [now apply pv_whole|apply mirror_same].
    - cbn [length] in Hn. rewrite !app_length in Hn. change (t :: cnt ++ id ++ concat (concat groups)) with ([t] ++ cnt ++ id ++ concat (concat groups)) in Hf |- *.
      pose proof (found_l _ _ _ Hf) as Ht. apply found_r in Hf. change (len [t]) with 1 in Hf. rewrite app_assoc in Hf.
      pose proof (found_r _ _ _ Hf) as Hf2. apply found_l in Hf.
      assert (HF : Forall2 (fun v b => 1 <= len b /\ reads_as v b) (rev l) (concat groups)).
      { eapply Forall2_impl; [|exact H5]. intros v ch _ Hin Hv. apply in_concat_len in Hin. split; [eapply tval_nonempty; exact Hv|apply (IH v ch); [lia|exact Hv]]. }
      destruct (Forall2_concat_inv _ _ _ HF) as (vgs & Hl & HF').
      destruct (blocks_tiled _ same_content (parr_block C strict D blocks) (parrs C strict D blocks) (pas_nil _ _ _ _) (pas_cons _ _ _ _) arr_block_tiled vgs groups HF' _ Hf2) as (wss & Hws & HS).
      exists (VArr (rev (concat wss))). split.
      + eapply pv_array; [exact H1|exact Ht|]. eapply pa; [exact H2|exact H3|exact Hf|exact H4|].
        replace (k + len ([t] ++ cnt ++ id ++ concat (concat groups))) with (k + 1 + len (cnt ++ id) + len (concat (concat groups))) by (rewrite !len_app; change (len [t]) with 1; lia).
        exact Hws.
      + constructor. assert (HX : Forall2 same_content (rev l) (concat wss)).
        { rewrite Hl. clear -HS. induction HS; cbn; [constructor|now apply Forall2_app]. }
        apply Forall2_rev in HX. now rewrite rev_involutive in HX.
    - cbn [length] in Hn. rewrite !app_length in Hn. change (t :: cnt ++ id ++ concat (concat groups)) with ([t] ++ cnt ++ id ++ concat (concat groups)) in Hf |- *.
      pose proof (found_l _ _ _ Hf) as Ht. apply found_r in Hf. change (len [t]) with 1 in Hf.
      destruct (tmap_pmap l cnt id i groups H2 H3 H4) with (k := k + 1) as (es & Hes & HS); [|exact Hf|].
      { eapply Forall2_impl; [|exact H5]. intros e ch _ Hin (kb & b & Hk & Hv & ->). apply in_concat_len in Hin. rewrite app_length in Hin.
        exists kb, b. split; [exact Hk|]. split; [reflexivity|]. split; [eapply tval_nonempty; exact Hv|apply (IH _ b); [lia|exact Hv]]. }
      exists (VMap es). split; [|exact HS]. eapply pv_map; [exact H1|exact Ht|].
      rewrite (len_app [t]). change (len [t]) with 1. rewrite N.add_assoc. exact Hes.
  Qed.

  Lemma tbody_pmap entries body k : tbody strict D blocks entries body -> found C k body ->
    exists es, pmap C strict D blocks k es (k + len body) /\ same_content (VMap entries) (VMap es).
  Proof using HC.
    intros H Hf. inversion H as [? ? ? Hbad| |l t cnt id i groups H1 H2 H3 H4 H5]; subst; [vm_compute in Hbad; discriminate Hbad|].
    apply (tmap_pmap entries cnt id i groups H2 H3 H4); [|exact Hf].
    eapply Forall2_impl; [|exact H5]. intros e ch _ Hin (kb & b & Hk & Hv & ->).
    exists kb, b. split; [exact Hk|]. split; [reflexivity|]. split; [eapply tval_nonempty; exact Hv|apply (tval_pval (length b)); [lia|exact Hv]].
  Qed.

  Lemma tbody_lwire entries body : tbody strict D blocks entries body -> lwire strict D (VMap entries) body.
  Proof using. intros H. destruct (tval_wire (length (n2b 129 :: body)) _ _ (le_n _) H) as (t & b & [= _ <-] & _ & Hw). exact Hw. Qed.
End TiledProofs.

(** The value under "root", whichever way it is looked up, if there is only one. *)
Lemma same_root entries es : same_content (VMap entries) (VMap es) -> NoDup (map fst entries) ->
  match last_root entries, first_root es with
  | Some v, Some w => same_content v w
  | None, None => True
  | _, _ => False
  end.
Proof.
  intros H Hnd. inversion H as [| |l l1 l' HP HF]; subst.
  assert (Hnd1 : NoDup (map fst l1)) by (eapply Permutation_NoDup; [apply Permutation_map; exact HP|exact Hnd]).
  assert (HP' : Permutation (rev entries) l1) by (rewrite <- HP; symmetry; apply Permutation_rev).
  assert (G : forall a b : list (bytes * value), Permutation a b -> NoDup (map fst a) -> assoc_find bytes_eqb root_key a = assoc_find bytes_eqb root_key b).
  { clear. intros a b HP. induction HP as [|[k v] a b HP IH|[k v] [k' v'] a|a b c HP1 IH1 HP2 IH2]; intros Hnd.
    - reflexivity.
    - cbn [assoc_find]. inversion Hnd; subst. destruct (bytes_eqb root_key k); [reflexivity|auto].
    - cbn [assoc_find]. cbn in Hnd. destruct (bytes_eqb_spec root_key k'), (bytes_eqb_spec root_key k); subst; try reflexivity.
      inversion Hnd as [|? ? Hn _]; subst. exfalso. apply Hn. cbn. auto.
    - rewrite IH1 by exact Hnd. apply IH2. eapply Permutation_NoDup; [apply Permutation_map; exact HP1|exact Hnd]. }
  unfold last_root, first_root. rewrite (G _ _ HP').
  2:{ eapply Permutation_NoDup; [apply Permutation_map; symmetry; exact HP'|exact Hnd1]. }
  clear - HF. induction HF as [|[k v] [k' w] l1 l' [Hk Hv] HF IH]; [exact I|]. cbn [fst snd] in *. subst k'. cbn [assoc_find].
  destruct (bytes_eqb root_key k); [exact Hv|exact IH].
Qed.

(** C83, for documents whose blocks fit: both parsers accept them, and whatever a
    user sees along any path is the same. *)
Theorem C83_tiled_documents_agree_partial : forall c fuel size t f body rest buf p ty D blocks entries,
  let content := size ++ [t] ++ [f] ++ body ++ rest in
  sane c -> fits c content -> (length content <= fuel)%nat ->
  len size = 8 -> big_endian size = 10 + len body -> b2n t = SeriTypeToChar ty -> b2n f = 10 ->
  ptables true ty D blocks rest -> tbody (negb (ndebug c)) D blocks entries body ->
  distinct_keys (VMap entries) ->
  exists o_seq o_par,
    Parse c fuel content buf p sequential = Ok o_seq /\ Parse c fuel content buf p parallel = Ok o_par /\
    (o_seq = ONull <-> last_root entries = None) /\ (o_par = ONull <-> last_root entries = None) /\
    forall v, last_root entries = Some v ->
      forall mem path, api_seen mem o_par path = Ok (seen_at v path) /\ api_seen mem o_seq path = Ok (seen_at v path).
Proof.
  intros c fuel size t f body rest buf p ty D blocks entries content Hsane HL Hfuel Hsz Htot Ht Hf HT HB Hdk.
  set (main := size ++ [t] ++ [f] ++ body).
  assert (Hcd : content = main ++ rest) by (unfold content, main; now rewrite <- !app_assoc).
  assert (Hlm : len main = 10 + len body) by (unfold main; rewrite !len_app, !len_cons, len_nil; lia).
  assert (HC32 : len main < 2 ^ 32).
  { pose proof (lim_W32 c (len content) HL) as H. rewrite W32_val, Hcd, len_app in H. change (2 ^ 32) with 4294967296. lia. }
  destruct (tbody_pmap _ _ _ main HC32 entries body 10 HB) as (es & Hes & HS).
  { exists (size ++ [t] ++ [f]), []. rewrite app_nil_r. split; [unfold main; now rewrite <- !app_assoc|]. rewrite !len_app, !len_cons, len_nil. lia. }
  pose proof (C82_parallel_documents_accepted c fuel size t f body rest buf p ty D blocks es (10 + len body)) as HPar.
  cbv zeta in HPar. fold main in HPar. rewrite <- Hcd in HPar. specialize (HPar Hsane HL Hfuel Hsz (eq_trans Htot (eq_sym Hlm)) Ht Hf HT Hes).
  assert (Hne : rest <> []).
  { assert (G : forall n b, vint n b -> b <> []) by (intros n b Hv ->; apply vlen in Hv; rewrite len_nil in Hv; lia).
    intros Hr. destruct HT as [n sb splits junk Hn _|n db strings d n' sb splits junk Hn _ _ _ _ _];
      apply app_eq_nil in Hr as [Hr _]; now apply (G _ _ Hn). }
  assert (HSeq : Parse c fuel content buf p sequential = Ok (meaning p entries)).
  { eapply C73_documents_accepted with (ty := ty) (D := D) (rest := rest); auto.
    - unfold content. constructor; auto. eapply tbody_lwire; exact HB.
    - eapply ptables_ltables; exact HT. }
  exists (meaning p entries), (pmeaning es). split; [exact HSeq|]. split; [exact HPar|].
  assert (Hnd : NoDup (map fst entries)) by (now inversion Hdk).
  pose proof (same_root entries es HS Hnd) as HR. unfold meaning, pmeaning in *.
  assert (Hroot_dk : forall v, last_root entries = Some v -> distinct_keys v).
  { intros v Hv. inversion Hdk as [| |l Hl1 Hl2]; subst. unfold last_root in Hv. rewrite Forall_forall in Hl2.
    assert (Hi : exists k, In (k, v) (rev entries)).
    { revert Hv. clear. induction (rev entries) as [|[k w] q IH]; cbn [assoc_find]; [discriminate|]. destruct (bytes_eqb root_key k); [intros [= <-]; exists k; now left|].
      intros H. destruct (IH H) as (k' & Hk). exists k'. now right. }
    destruct Hi as (k & Hi). apply in_rev in Hi. exact (Hl2 _ Hi). }
  destruct (last_root entries) as [v|] eqn:Hlr, (first_root es) as [w|] eqn:Hfr; try contradiction.
  - split; [split; [destruct v; discriminate|discriminate]|]. split; [split; [destruct w; discriminate|discriminate]|].
    intros v' [= <-] mem path. pose proof (Hroot_dk v eq_refl) as Hvk.
    assert (Hd2 : denotes mem (tree_of CoroFrame w) w).
    { apply C16_result_well_formed in HPar as [HPar|HPar]; [destruct w; discriminate HPar|]. eapply tree_denotes. exact HPar. }
    assert (Hd1 : denotes mem (tree_of p (mirror v)) (mirror v)).
    { apply C16_result_well_formed in HSeq as [HSeq|HSeq]; [destruct v; discriminate HSeq|]. eapply tree_denotes. exact HSeq. }
    rewrite (api_seen_ok mem _ _ path Hd1), (api_seen_ok mem _ _ path Hd2).
    rewrite <- (same_content_seen v w path HR Hvk), <- (same_content_seen v (mirror v) path (mirror_same v) Hvk). auto.
  - split; [split; reflexivity|]. split; [split; reflexivity|]. intros v' [=].
Qed.

(** C83 as a user would like to have it is false.  One family of documents: an array
    of two byte strings under "root", announced as split, possibly followed by
    further bytes of the body, with a block table to choose. *)
Definition two_body (junk : bytes) : bytes :=
  str [1] ++ str [0] ++ (str [4] ++ root_key) ++ str [130; 2; 1] ++ str [0; 0; 1; 97] ++ str [0; 0; 1; 98] ++ junk.
Definition two_main (junk : bytes) : bytes := be_bytes 8 (10 + len (two_body junk)) ++ [n2b 0] ++ [n2b 10] ++ two_body junk.
Definition two_doc (junk : bytes) (info : list (N * list N)) : bytes := two_main junk ++ section (split_bytes info).

(** Documents that both parsers accept need not have the same content: *)
Theorem C83_same_content_refuted :
  ~ (forall c content fuel buf p o_seq o_par mem path, sane c -> fits c content -> announced content -> (length content <= fuel)%nat ->
       Parse c fuel content buf p sequential = Ok o_seq -> Parse c fuel content buf p parallel = Ok o_par ->
       api_seen mem o_seq path = api_seen mem o_par path).
Proof.
  intros H. specialize (H x86_release (two_doc [] [(0, [12]); (1, [4])]) 200%nat 7%nat p1).
  specialize (H (OArray p1 2 [OData 0 (SVec (str [97])); OData 0 (SVec (str [98]))]) (OArray CoroFrame 1 [OData 0 (SVec (str [97]))]) no_mem []).
  specialize (H x86_release_sane). assert (Hx : Ok (SeenArray 2) = Ok (SeenArray 1)); [|discriminate Hx].
  apply H; [vm_compute; reflexivity| |vm_compute; lia|vm_compute; reflexivity|vm_compute; reflexivity].
  refine (an_normal (two_main []) (n2b 0) (str [7]) (split_bytes [(0, [12]); (1, [4])]) [] _ _ _ _ _);
    [vm_compute; discriminate|reflexivity|reflexivity|reflexivity|vint_tac].
Qed.

(** ... and each parser accepts documents that the other one refuses. *)
Theorem C83_same_acceptance_refuted :
  (exists content o, announced content /\ fits x86_release content /\
     Parse x86_release (length content) content 7 p1 parallel = Ok o /\ Parse x86_release (length content) content 7 p1 sequential = Throw ERuntime) /\
  (exists content o, announced content /\ fits x86_release content /\
     Parse x86_release (length content) content 7 p1 sequential = Ok o /\ Parse x86_release (length content) content 7 p1 parallel = Throw EOutOfRange).
Proof.
  split.
  - exists (two_doc [n2b 0] [(0, [16]); (1, [4; 4])]). eexists. split; [|split; [vm_compute; reflexivity|split; vm_compute; reflexivity]].
    refine (an_normal (two_main [n2b 0]) (n2b 0) (str [8]) (split_bytes [(0, [16]); (1, [4; 4])]) [] _ _ _ _ _);
      [vm_compute; discriminate|reflexivity|reflexivity|reflexivity|vint_tac].
  - exists (two_doc [] [(0, [16])]). eexists. split; [|split; [vm_compute; reflexivity|split; vm_compute; reflexivity]].
    refine (an_normal (two_main []) (n2b 0) (str [4]) (split_bytes [(0, [16])]) [] _ _ _ _ _);
      [vm_compute; discriminate|reflexivity|reflexivity|reflexivity|vint_tac].
Qed.

(** The hypotheses of the theorems are met: with the right block table, cut between
    the two elements, the document is tiled ... *)
Definition two_entries : list (bytes * value) := [(root_key, VArr [VScalar (VBytes (str [98])); VScalar (VBytes (str [97]))])].
Example C83_met : tbody true None [(0, [16]); (1, [4; 4])] two_entries (two_body []) /\
  ptables true NORMAL None [(0, [16]); (1, [4; 4])] (section (split_bytes [(0, [16]); (1, [4; 4])])) /\
  big_endian (firstn 8 (two_doc [] [(0, [16]); (1, [4; 4])])) = 10 + len (two_body []) /\ distinct_keys (VMap two_entries).
Proof.
  split; [|split; [|split; [reflexivity|]]].
  - unfold tbody.
    refine (tv_map true None [(0, [16]); (1, [4; 4])] two_entries (n2b 129) (str [1]) (str [0]) 0
              [[(str [4] ++ root_key) ++ (n2b 130 :: str [2] ++ str [1] ++ concat (concat [[str [0; 0; 1; 97]]; [str [0; 0; 1; 98]]]))]] _ _ _ _ _);
      [reflexivity|vint_tac|vint_tac|now left|].
    constructor; [|constructor]. exists (str [4] ++ root_key).
    exists (n2b 130 :: str [2] ++ str [1] ++ concat (concat [[str [0; 0; 1; 97]]; [str [0; 0; 1; 98]]])). split; [constructor; [reflexivity|vint_tac]|]. split; [|reflexivity].
    refine (tv_arr true None [(0, [16]); (1, [4; 4])] [VScalar (VBytes (str [98])); VScalar (VBytes (str [97]))] (n2b 130) (str [2]) (str [1]) 1
              [[str [0; 0; 1; 97]]; [str [0; 0; 1; 98]]] _ _ _ _ _); [reflexivity|vint_tac|vint_tac|right; now left|].
    cbn [rev concat app].
    assert (G : forall x, tval true None [(0, [16]); (1, [4; 4])] (VScalar (VBytes [x])) (n2b 0 :: n2b 0 :: str [1] ++ [x])).
    { intros x. constructor; [reflexivity|reflexivity|]. constructor. constructor. vint_tac. }
    constructor; [apply G|]. constructor; [apply G|constructor].
  - replace (section (split_bytes [(0, [16]); (1, [4; 4])])) with (str [8] ++ split_bytes [(0, [16]); (1, [4; 4])] ++ []) by reflexivity.
    constructor; [vint_tac|].
    replace (split_bytes [(0, [16]); (1, [4; 4])]) with (str [2] ++ concat [str [0] ++ str [1] ++ concat [str [16]]; str [1] ++ str [2] ++ concat [str [4]; str [4]]] ++ []) by reflexivity.
    econstructor; [vint_tac|reflexivity|repeat constructor; cbn; intuition discriminate|].
    assert (Hv4 : vint 4 (str [4])) by vint_tac.
    constructor; [|constructor; [|constructor]].
    + exists 0, (str [0]), 1, (str [1]), [str [16]]. split; [vint_tac|]. split; [reflexivity|]. split; [vint_tac|]. split; [reflexivity|]. split; [|reflexivity].
      constructor; [|constructor]. exists 16. split; [vint_tac|reflexivity].
    + exists 1, (str [1]), 2, (str [2]), [str [4]; str [4]]. split; [vint_tac|]. split; [reflexivity|]. split; [vint_tac|]. split; [reflexivity|]. split; [|reflexivity].
      constructor; [|constructor; [|constructor]]; exists 4; (split; [exact Hv4|reflexivity]).
  - repeat constructor; cbn; intuition.
Qed.

(** ... and C82 speaks about it and about the one with the short table. *)
Example C82_met : b2n (nth 9 (two_doc [] [(0, [12]); (1, [4])]) x00) = 10 /\
  Parse x86_release 200 (two_doc [] [(0, [12]); (1, [4])]) 7 p1 parallel = Ok (OArray CoroFrame 1 [OData 0 (SVec (str [97]))]) /\
  (exists j, pmap (two_main []) true None [(0, [12]); (1, [4])] 10 [(root_key, VArr [VScalar (VBytes (str [97]))])] j) /\
  pmeaning [(root_key, VArr [VScalar (VBytes (str [97]))])] = OArray CoroFrame 1 [OData 0 (SVec (str [97]))].
Proof.
  split; [reflexivity|]. split; [vm_compute; reflexivity|]. split; [|reflexivity].
  assert (F : forall i b, firstn (length b) (skipn (N.to_nat i) (two_main [])) = b -> i <= len (two_main []) -> found (two_main []) i b).
  { intros i b Hb Hi. exists (firstn (N.to_nat i) (two_main [])), (skipn (length b) (skipn (N.to_nat i) (two_main []))). split.
    - rewrite <- Hb at 1. now rewrite firstn_skipn, firstn_skipn.
    - unfold len in *. rewrite firstn_length. lia. }
  exists 24.
  refine (pm _ _ _ _ 10 1 (str [1]) 0 (str [0]) [12] [[(root_key, VArr [VScalar (VBytes (str [97]))])]] 24 _ _ _ _ _);
    [vint_tac|vint_tac|apply F; [reflexivity|vm_compute; discriminate]|now left|].
  refine (pms_cons _ _ _ _ 12 12 [] _ [] 24 _ (pms_nil _ _ _ _ 24)).
  refine (pmb_more _ _ _ _ 12 24 root_key 17 _ 24 [] _ _ _ (pmb_end _ _ _ _ 24 24 ltac:(vm_compute; discriminate))); [reflexivity| |].
  - refine (pk_plain _ _ 12 4 (str [4]) root_key eq_refl _ eq_refl _); [vint_tac|apply F; [reflexivity|vm_compute; discriminate]].
  - refine (pv_array _ _ _ _ 17 (n2b 130) [VScalar (VBytes (str [97]))] 24 eq_refl _ _); [apply F; [reflexivity|vm_compute; discriminate]|].
    refine (pa _ _ _ _ 18 2 (str [2]) 1 (str [1]) [4] [[VScalar (VBytes (str [97]))]] 24 _ _ _ _ _);
      [vint_tac|vint_tac|apply F; [reflexivity|vm_compute; discriminate]|right; now left|].
    refine (pas_cons _ _ _ _ 20 4 [] _ [] 24 _ (pas_nil _ _ _ _ 24)).
    refine (pab_more _ _ _ _ 20 24 _ 24 [] _ _ (pab_end _ _ _ _ 24 24 ltac:(vm_compute; discriminate))); [reflexivity|].
    refine (pv_whole _ _ _ _ 20 (n2b 0) (n2b 0 :: str [1] ++ str [97]) (VScalar (VBytes (str [97]))) _ _ _ _);
      [reflexivity|reflexivity|constructor; constructor; vint_tac|apply F; [reflexivity|vm_compute; discriminate]].
Qed.
