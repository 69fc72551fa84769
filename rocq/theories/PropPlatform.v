(** * Property C74, continued: builds agree whatever the scheduler and the tables. *)
From Verif Require Import Base BaseLemmas ModelVarint ModelData ModelSecondary ModelObject
  ModelParse ModelWrapper Spec SpecApi VarintProofs Wire NumProofs SeriProofs SeriProofs2 DocProofs ObjInd ParseLemmas
  NormalProofs SecondaryProofs ValueProofs ParaProofs RoundTrip GeneralProofs ApiProofs Samples PropRoundTrip PropDocument PropHostile FrameProofs PropTamper
  PropContainers PropCanonical Lenient LenientPara LenientProofs LenientTables PropLenient LenientParaProofs PropPara PropInsitu PropInsituPara GrammarUnique PlatformSim.
From Coq Require Import ZifyBool ZifyNat ZifyN.

(** The dictionary behind the announced end of the body gives no id to two keys. *)
Definition clear_dictionary (content : bytes) : Prop :=
  exists main n table after strings, content = main ++ n ++ table ++ after /\ len main = big_endian (firstn 8 content) /\
    vint (len table) n /\ ldict strings table /\ unambiguous strings.

(** A plain document, or one whose dictionary is clear. *)
Definition clear_strings (content : bytes) : Prop := b2n (nth 8 content x00) = 0 \/ clear_dictionary content.

Lemma tables_unique content main rest main' rest' k k' ty ty' D D' T T' : clear_strings content ->
  content = main ++ rest -> len main = big_endian (firstn 8 content) ->
  content = main' ++ rest' -> len main' = big_endian (firstn 8 content) ->
  b2n (nth 8 content x00) = SeriTypeToChar ty -> b2n (nth 8 content x00) = SeriTypeToChar ty' ->
  ptables k ty D T rest -> ptables k' ty' D' T' rest' -> T = T' /\ agree D D'.
Proof.
  intros Hcl Hc Hl Hc' Hl' Ht Ht' HT HT'.
  assert (Hm : main = main' /\ rest = rest') by (apply app_same_len; congruence). destruct Hm as [<- <-].
  assert (ty' = ty) as -> by (rewrite Ht in Ht'; destruct ty, ty'; try reflexivity; discriminate Ht').
  eapply ptables_unique; [exact HT|exact HT'|]. intros ->. destruct Hcl as [Hp|(m1 & n & table & after & strings & He & Hl1 & Hv & Hd & Hu)].
  - rewrite Hp in Ht. discriminate Ht.
  - assert (G : main = m1 /\ rest = n ++ table ++ after) by (apply app_same_len; congruence). destruct G as [_ ->].
    exists n, table, strings, after. auto.
Qed.

Lemma lenient_parts strict D ty entries content rest : lenient_doc strict D ty entries content rest ->
  exists body, content = firstn 10 content ++ body ++ rest /\ len (firstn 10 content ++ body) = big_endian (firstn 8 content) /\
    b2n (nth 8 content x00) = SeriTypeToChar ty /\ lwire strict D (VMap entries) body.
Proof.
  intros [size t f body rest0 A1 A2 A3 A4 A5 A6]. exists body.
  assert (Hlen : length size = 8%nat) by (unfold len in A1; lia).
  assert (F10 : firstn 10 (size ++ [t] ++ [f] ++ body ++ rest0) = size ++ [t] ++ [f]).
  { rewrite firstn_app, firstn_all2 by lia. rewrite Hlen. reflexivity. }
  assert (F8 : firstn 8 (size ++ [t] ++ [f] ++ body ++ rest0) = size).
  { rewrite firstn_app, firstn_all2 by lia. rewrite Hlen. cbn. apply app_nil_r. }
  rewrite F10, F8. split; [now rewrite <- !app_assoc|]. split; [rewrite !len_app, !len_cons, len_nil; lia|]. split; [|exact A5].
  rewrite app_nth2 by lia. rewrite Hlen. exact A3.
Qed.

(** C74.  Two builds (byte order, debug or release, hash order, char signedness) that
    accept the same bytes with the same scheduler return the same object, unless the
    dictionary gives one id to two keys. *)
Theorem C74_platforms_agree_all_schedulers : forall c1 c2 fuel1 fuel2 content buf1 buf2 p sch o1 o2,
  sane c1 -> sane c2 -> fits c1 content -> fits c2 content -> announced content -> clear_strings content ->
  Parse c1 fuel1 content buf1 p {| po_type := sch; po_ref := false |} = Ok o1 ->
  Parse c2 fuel2 content buf2 p {| po_type := sch; po_ref := false |} = Ok o2 -> o1 = o2.
Proof.
  intros c1 c2 fuel1 fuel2 content buf1 buf2 p sch o1 o2 Hs1 Hs2 HL1 HL2 Han Hcl H1 H2.
  assert (Hseq : forall o1 o2, Parse c1 fuel1 content buf1 p sequential = Ok o1 -> Parse c2 fuel2 content buf2 p sequential = Ok o2 -> o1 = o2).
  { clear o1 o2 H1 H2. intros o1 o2 H1 H2.
    destruct (C73_accepted_documents _ _ _ _ _ _ Hs1 HL1 Han H1) as (ty1 & D1 & e1 & r1 & Hd1 & T1 & ->).
    destruct (C73_accepted_documents _ _ _ _ _ _ Hs2 HL2 Han H2) as (ty2 & D2 & e2 & r2 & Hd2 & T2 & ->).
    apply lenient_parts in Hd1 as (b1 & Hc1 & Hl1 & Ht1 & Hw1). apply lenient_parts in Hd2 as (b2 & Hc2 & Hl2 & Ht2 & Hw2).
    apply PropLenient.ltables_ptables in T1 as (B1 & T1). apply PropLenient.ltables_ptables in T2 as (B2 & T2).
    rewrite app_assoc in Hc1, Hc2.
    destruct (tables_unique _ _ _ _ _ _ _ _ _ _ _ _ _ Hcl Hc1 Hl1 Hc2 Hl2 Ht1 Ht2 T1 T2) as [_ Hag].
    rewrite <- app_assoc in Hc1, Hc2. rewrite Hc1 in Hc2 at 1. apply app_inv_head in Hc2.
    destruct (lwire_unique _ _ Hag _ _ _ _ _ _ _ _ Hw1 Hw2 eq_refl Hc2) as ([= <-] & _ & _). reflexivity. }
  destruct sch; [exact (Hseq _ _ H1 H2)|].
  destruct (N.eq_dec (b2n (nth 9 content x00)) 10) as [H9|H9].
  2:{ rewrite C82_unsplit_is_sequential in H1, H2 by exact H9. eauto. }
  destruct (C82_parallel_accepted_means _ _ _ _ _ _ Hs1 HL1 Han H9 H1) as (ty1 & D1 & T1 & m1 & r1 & e1 & j1 & Hc1 & Hl1 & Ht1 & HT1 & Hp1 & ->).
  destruct (C82_parallel_accepted_means _ _ _ _ _ _ Hs2 HL2 Han H9 H2) as (ty2 & D2 & T2 & m2 & r2 & e2 & j2 & Hc2 & Hl2 & Ht2 & HT2 & Hp2 & ->).
  destruct (tables_unique _ _ _ _ _ _ _ _ _ _ _ _ _ Hcl Hc1 Hl1 Hc2 Hl2 Ht1 Ht2 HT1 HT2) as [<- Hag].
  destruct (ptables_bounds _ _ _ _ _ HT1) as [Hnd _].
  destruct (pmap_unique _ _ Hag _ _ _ _ Hnd _ _ _ _ _ Hp1 Hp2) as [<- _]. reflexivity.
Qed.

(** In place: the same content through every access path, while the buffers hold the
    document.  (As in C77, without nine consecutive bytes above 127.) *)
Theorem C74_platforms_agree_in_place : forall c1 c2 fuel1 fuel2 content buf1 buf2 p sch o1 o2,
  sane c1 -> sane c2 -> fits c1 content -> fits c2 content -> announced content -> clear_strings content ->
  (forall i, exists j, (j < 9)%nat /\ b2n (nth (i + j) content x00) < 128) ->
  Parse c1 fuel1 content buf1 p {| po_type := sch; po_ref := true |} = Ok o1 ->
  Parse c2 fuel2 content buf2 p {| po_type := sch; po_ref := true |} = Ok o2 ->
  forall mem1 mem2 path, mem1 buf1 = Some content -> mem2 buf2 = Some content ->
  exists s, api_seen mem1 o1 path = Ok s /\ api_seen mem2 o2 path = Ok s.
Proof.
  intros c1 c2 fuel1 fuel2 content buf1 buf2 p sch o1 o2 Hs1 Hs2 HL1 HL2 Han Hcl Hshort H1 H2 mem1 mem2 path Hm1 Hm2.
  destruct (C77_views_inside_all_schedulers_partial _ _ _ _ _ _ _ Hs1 HL1 Hshort H1) as (w1 & P1 & E1).
  destruct (C77_views_inside_all_schedulers_partial _ _ _ _ _ _ _ Hs2 HL2 Hshort H2) as (w2 & P2 & E2).
  pose proof (C74_platforms_agree_all_schedulers _ _ _ _ _ _ _ _ _ _ _ Hs1 Hs2 HL1 HL2 Han Hcl P1 P2) as <-.
  destruct (C05_copy_is_independent _ _ _ _ _ _ _ P1) as [_ Hind].
  destruct (E1 mem1 path Hm1) as [S1 (s & S1')]. destruct (E2 mem2 path Hm2) as [S2 _].
  exists s. split; [exact S1'|]. now rewrite S2, (Hind mem2 mem1), <- S1.
Qed.

(** ** The whole outcome *)
Lemma init_plain c fuel content buf sc m : b2n (nth 8 content x00) <> 1 -> initFromContent c fuel content buf = Ok sc -> sc_map sc = Some m -> False.
Proof.
  intros H8 H Hm. destruct (init_header _ _ _ _ _ H) as (size & t & f & rest & Hc & Hsz & _ & _ & _ & [[_ Hn]|[Ht _]]); [congruence|].
  apply H8. rewrite Hc. unfold len in Hsz. rewrite app_nth2 by lia. replace (8 - length size)%nat with 0%nat by lia. exact Ht.
Qed.

Lemma nodup_snd {A} (l : list (A * N)) : NoDup (map fst l) -> (forall a b i, In (a, i) l -> In (b, i) l -> a = b) -> NoDup (map snd l).
Proof.
  induction l as [|[a i] l IH]; cbn; intros Hn Hu; [constructor|]. inversion Hn as [|? ? Hni Hn']; subst. constructor; [|apply IH; [exact Hn'|]; intros; eapply Hu; eauto].
  intros Hi. apply in_map_iff in Hi as ([b j] & Hj & Hin). cbn in Hj. subst j. assert (a = b) as -> by (eapply Hu; eauto).
  apply Hni. change b with (fst (b, i)). now apply in_map.
Qed.

Lemma clear_ids c fuel content buf sc m : sane c -> fits c content -> announced content -> clear_dictionary content ->
  initFromContent c fuel content buf = Ok sc -> sc_map sc = Some m -> sm_re m = None /\ NoDup (map snd (sm_map m)).
Proof.
  intros Hs HL Han (main & n & table & after & strings & Hc & Hl & Hv & Hd & Hu) Hsc Hm.
  destruct (init_header _ _ _ _ _ Hsc) as (size & t & f & rest0 & Hc0 & Hsz & Htot & _ & _ & _).
  assert (H8 : firstn 8 content = size).
  { rewrite Hc0. unfold len in *. rewrite firstn_app, firstn_all2 by lia. replace (8 - length size)%nat with 0%nat by lia. now rewrite firstn_O, app_nil_r. }
  rewrite H8, <- Htot in Hl.
  destruct (init_ptables_keys c fuel content buf sc Hs HL Han Hsc main _ Hc Hl) as [_ HK].
  destruct (HK m Hm) as (Hre & n1 & db & strs & after1 & He & Hv1 & Hd1 & HF). split; [exact Hre|].
  destruct (vint_unique _ _ _ _ _ _ Hv Hv1 He) as (<- & Hl1 & He1). destruct (app_same_len _ _ _ _ He1 Hl1) as [<- _].
  rewrite <- (ldict_unique _ _ _ Hd Hd1) in HF. clear strs Hd1.
  assert (Hsnd : map snd (sm_map m) = map snd (added [] strings)).
  { clear - HF. induction HF as [|x y a b [_ Hxy] HF IH]; cbn; [reflexivity|]. now rewrite Hxy, IH. }
  rewrite Hsnd. pose proof (added_nodup strings [] (NoDup_nil _)) as Hnd. apply nodup_snd; [exact Hnd|].
  intros a b i Ha Hb. apply id_of_in in Ha, Hb; try exact Hnd. rewrite id_of_added in Ha, Hb. eapply Hu; eauto.
Qed.

(** C74, for all bytes whatsoever that do not ask for a dictionary: byte order, hash
    order and signedness of char have no influence on what Parse does - which object
    it returns, which exception it throws, whether it reads outside the input.  Either
    scheduler, copying or in place. *)
Theorem C74_same_outcome : forall c1 c2 fuel content buf p po,
  ndebug c1 = ndebug c2 -> b2n (nth 8 content x00) <> 1 ->
  Parse c1 fuel content buf p po = Parse c2 fuel content buf p po.
Proof.
  intros c1 c2 fuel content buf p po Hnd H8.
  assert (H : orel false (Parse c1 fuel content buf p po) (Parse c2 fuel content buf p po)); [|destruct H as [[H _]|H]; [discriminate H|exact H]].
  apply Parse_rel; [now left|]. intros sc Hsc _ id. destruct (sc_map sc) as [m|] eqn:Hm; [|reflexivity].
  exfalso. exact (init_plain _ _ _ _ _ _ H8 Hsc Hm).
Qed.

(** A build with assertions stops at one of them or does what the other build does. *)
Theorem C74_debug_aborts_or_agrees : forall c1 c2 fuel content buf p po,
  ndebug c1 = false -> ndebug c2 = true -> b2n (nth 8 content x00) <> 1 ->
  Parse c1 fuel content buf p po = Abort \/ Parse c1 fuel content buf p po = Parse c2 fuel content buf p po.
Proof.
  intros c1 c2 fuel content buf p po Hd Hr H8.
  assert (H : orel true (Parse c1 fuel content buf p po) (Parse c2 fuel content buf p po)); [|destruct H as [[_ H]|H]; auto].
  apply Parse_rel; [right; auto|]. intros sc Hsc _ id. destruct (sc_map sc) as [m|] eqn:Hm; [|reflexivity].
  exfalso. exact (init_plain _ _ _ _ _ _ H8 Hsc Hm).
Qed.

(** The same for documents with a dictionary, if it gives no id to two keys. *)
Theorem C74_dictionary_outcome : forall c1 c2 fuel content buf p po,
  sane c1 -> sane c2 -> fits c1 content -> announced content -> clear_dictionary content ->
  (ndebug c1 = ndebug c2 -> Parse c1 fuel content buf p po = Parse c2 fuel content buf p po) /\
  (ndebug c1 = false -> ndebug c2 = true ->
     Parse c1 fuel content buf p po = Abort \/ Parse c1 fuel content buf p po = Parse c2 fuel content buf p po).
Proof.
  intros c1 c2 fuel content buf p po Hs1 Hs2 HL Han Hcl.
  assert (Hg : forall sc, initFromContent c1 fuel content buf = Ok sc -> forall id, getter c1 (sc_map sc) id = getter c2 (sc_map sc) id).
  { intros sc Hsc id. destruct (sc_map sc) as [m|] eqn:Hm; [|reflexivity].
    destruct (clear_ids c1 fuel content buf sc m Hs1 HL Han Hcl Hsc Hm) as [Hre Hnd]. now apply getter_same. }
  split.
  - intros Hnd. assert (H : orel false (Parse c1 fuel content buf p po) (Parse c2 fuel content buf p po)); [|destruct H as [[H _]|H]; [discriminate H|exact H]].
    apply Parse_rel; [now left|]. intros sc Hsc _. now apply Hg.
  - intros Hd Hr. assert (H : orel true (Parse c1 fuel content buf p po) (Parse c2 fuel content buf p po)); [|destruct H as [[_ H]|H]; auto].
    apply Parse_rel; [right; auto|]. intros sc Hsc _. now apply Hg.
Qed.

(** Met: a document with a dictionary of two keys; and a number of three bytes, at
    which a build with assertions stops. *)
Definition dict_doc : bytes :=
  hdr 16 1 0 ++ str [1; 0; 0; 0; 1; 1] ++ str [10] ++ str [2] ++ (str [4] ++ root_key ++ str [0]) ++ (str [1] ++ str [107] ++ str [1]) ++ str [1; 0].
Example C74_dictionary_met : fits x86_debug dict_doc /\ announced dict_doc /\ clear_dictionary dict_doc /\
  Parse x86_debug 100 dict_doc 7 p1 sequential = Ok (OData 1 (SStr (str [107]))) /\
  Parse (reversed tiny_big_endian) 100 dict_doc 7 p1 sequential = Ok (OData 1 (SStr (str [107]))).
Proof.
  split; [reflexivity|]. split.
  { refine (an_replace (hdr 16 1 0 ++ str [1; 0; 0; 0; 1; 1]) (n2b 1) (str [10]) (str [2] ++ (str [4] ++ root_key ++ str [0]) ++ (str [1] ++ str [107] ++ str [1])) (str [1]) (str [0]) [] _ _ _ _ _ _);
      [vm_compute; discriminate|reflexivity|reflexivity|reflexivity|vint_tac|vint_tac]. }
  split; [|split; vm_compute; reflexivity].
  exists (hdr 16 1 0 ++ str [1; 0; 0; 0; 1; 1]), (str [10]), (str [2] ++ (str [4] ++ root_key ++ str [0]) ++ (str [1] ++ str [107] ++ str [1])), (str [1; 0]), [(root_key, 0); (str [107], 1)].
  split; [reflexivity|]. split; [reflexivity|]. split; [vint_tac|]. split.
  - replace (str [2] ++ (str [4] ++ root_key ++ str [0]) ++ (str [1] ++ str [107] ++ str [1])) with
      (str [2] ++ concat [str [4] ++ root_key ++ str [0]; str [1] ++ str [107] ++ str [1]] ++ []) by reflexivity.
    econstructor; [vint_tac|reflexivity|]. constructor; [|constructor; [|constructor]].
    + exists (str [4]), 0, (str [0]). split; [vint_tac|]. split; [vint_tac|]. split; reflexivity.
    + exists (str [1]), 1, (str [1]). split; [vint_tac|]. split; [vint_tac|]. split; reflexivity.
  - intros s1 s2 id. cbn [id_of]. destruct (bytes_eqb_spec s1 root_key), (bytes_eqb_spec s2 root_key), (bytes_eqb_spec s1 (str [107])), (bytes_eqb_spec s2 (str [107])); congruence.
Qed.

Definition short_doc : bytes := hdr 23 0 0 ++ str [1; 0; 4] ++ root_key ++ str [0; 3; 3; 1; 2; 3] ++ str [1; 0].
Example C74_outcome_met :
  Parse x86_debug 100 short_doc 7 p1 sequential = Abort /\
  Parse x86_release 100 short_doc 7 p1 sequential = Ok (OData 3 (SNum U32 16909056)) /\
  Parse tiny_big_endian 100 short_doc 7 p1 sequential = Ok (OData 3 (SNum U32 16909056)) /\ b2n (nth 8 short_doc x00) <> 1.
Proof. repeat split; try (vm_compute; reflexivity). vm_compute. discriminate. Qed.
