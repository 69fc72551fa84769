(** * Properties C12 (cuts in the split table), C13 (exact) and C71: what follows
    the parts of a document that a parse needs has no influence on the result. *)
From Verif Require Import Base BaseLemmas ModelVarint ModelData ModelSecondary ModelObject
  ModelParse ModelWrapper Spec SpecApi VarintProofs Wire NumProofs SeriProofs SeriProofs2 DocProofs ObjInd ParseLemmas
  NormalProofs SecondaryProofs ValueProofs ParaProofs RoundTrip GeneralProofs ApiProofs Samples PropRoundTrip PropDocument
  PropHostile PropTamper FrameProofs.
From Coq Require Import ZifyBool ZifyNat ZifyN.

(** ** Specification *)

(** A byte string that holds everything its header announces: the main part of the
    declared size, then one length-prefixed table (two in a dictionary document),
    then anything. *)
Definition complete (content : bytes) : Prop :=
  (exists main splits t rest,
     content = main ++ t ++ rest /\ declared_size content = len main /\ b2n (nth 8 content x00) = 0 /\ prefixed splits t) \/
  (exists main strings splits t1 t2 rest,
     content = main ++ t1 ++ t2 ++ rest /\ declared_size content = len main /\ b2n (nth 8 content x00) = 1 /\
     prefixed strings t1 /\ prefixed splits t2).

(** ** Varints are read the same wherever they are *)
Lemma decode_loop_shift c1 c2 A B t bl1 bl2 : forall fuel ptr k bits r v n v' n', k + N.of_nat fuel < 256 ->
  varint_decode_loop c1 fuel t ptr k bl1 bits r = Ok (v, n) -> ptr + n <= len t + k ->
  varint_decode_loop c2 fuel (A ++ t ++ B) (len A + ptr) k bl2 bits r = Ok (v', n') -> v' = v /\ n' = n.
Proof.
  induction fuel as [|f IH]; intros ptr k bits r v n v' n' Hk; cbn [varint_decode_loop]; [discriminate|].
  intros H Hn H'. apply obind_ok in H as (b & Hb & H). apply obind_ok in H' as (b' & Hb' & H').
  assert (Hlt : k < n).
  { clear -H Hk. destruct (negb (bits <? 64)); [discriminate|]. destruct (N.land (b2n b) 128 =? 0).
    - injection H as <- <-. rewrite N.mod_small by lia. lia.
    - destruct (_ && _); [discriminate|]. revert H.
      assert (G : forall f ptr k bits r, k + N.of_nat f < 256 -> varint_decode_loop c1 f t ptr k bl1 bits r = Ok (v, n) -> k < n).
      { induction f0 as [|f0 IH0]; intros p0 k0 b0 r0 Hk0; cbn [varint_decode_loop]; [discriminate|].
        intros H. apply obind_ok in H as (c & _ & H). destruct (negb _); [discriminate|]. destruct (N.land (b2n c) 128 =? 0).
        - injection H as <- <-. rewrite N.mod_small by lia. lia.
        - destruct (_ && _); [discriminate|]. apply IH0 in H; lia. }
      intros H. apply G in H; lia. }
  assert (b' = b).
  { unfold read_byte in *. rewrite !len_app in Hb'. replace (ptr <? len t) with true in Hb by lia.
    replace (len A + ptr <? len A + (len t + len B)) with true in Hb' by lia. injection Hb as <-. injection Hb' as <-.
    rewrite app_nth2 by (unfold len in *; lia). unfold len in *. rewrite app_nth1 by lia. f_equal. lia. }
  subst b'. destruct (negb (bits <? 64)); [discriminate|]. destruct (N.land (b2n b) 128 =? 0).
  - injection H as <- <-. injection H' as <- <-. auto.
  - destruct (_ && _); [discriminate|]. destruct (_ && _); [discriminate|].
    eapply IH; [|exact H| |]; [lia|lia|]. rewrite <- H'. f_equal. lia.
Qed.

Lemma secondary_prefixed c main table t rest E q : prefixed table t ->
  secondary_env c (main ++ t ++ rest) (len main) = Ok (E, q) -> lim c (len (main ++ t ++ rest)) ->
  r_base E + r_size E = len main + len t /\ q = len main + len t.
Proof.
  intros Ht H HL. destruct Ht as [table n Hn]. apply lim_W32 in HL. rewrite W32_val, !len_app in HL.
  unfold secondary_env, parseLength_str in H. apply obind_ok in H as ([L k] & HP & H).
  destruct (_ <=? _); [discriminate|]. apply obind_ok in HP as ([v k'] & Hd & HP).
  unfold varint_decode in *. rewrite <- app_assoc in Hd.
  replace (len main) with (len main + 0) in Hd by lia.
  destruct (decode_loop_shift x86_release c main (table ++ rest) n 0 (to_int32 (to_int64 (sub64 (len (main ++ (n ++ table) ++ rest)) (len main)))) 12 0 0 0 0 (len table) (len n) v k') as [-> ->];
    [lia|exact Hn|lia|rewrite <- Hd; f_equal; f_equal; f_equal; f_equal; [now rewrite <- app_assoc|lia]|].
  rewrite N.add_0_r in *. destruct (_ <? _); [discriminate|]. injection HP as <- <-. cbn [fst snd] in H.
  rewrite !u64_small in H by (rewrite ?W64_val, ?u64_small by (rewrite W64_val; lia); lia).
  injection H as <- <-. cbn. rewrite len_app. lia.
Qed.

(** ** The metadata *)
Definition map_views_in (content : bytes) (m : option (string_map view)) : Prop :=
  match m with
  | None => True
  | Some m => sm_re m = None /\ Forall (fun e => v_off (fst e) + v_len (fst e) <= len content) (sm_map m)
  end.

Lemma nth_app_small (content X : bytes) i : (i < length content)%nat -> nth i (content ++ X) x00 = nth i content x00.
Proof. intros H. now apply app_nth1. Qed.

Lemma init_ext c fuel content X buf sc : complete content -> lim c (len (content ++ X)) ->
  initFromContent c fuel content buf = Ok sc ->
  initFromContent c fuel (content ++ X) buf = Ok sc /\ map_views_in content (sc_map sc).
Proof.
  intros Hcomp HL H. pose proof (lim_W32 _ _ HL) as HW. rewrite W32_val, len_app in HW. unfold initFromContent, meta_size in *.
  destruct (N.ltb_spec (len content) 10) as [|Hl]; [discriminate|].
  replace (len (content ++ X) <? 10) with false by (rewrite len_app; lia).
  unfold ParseTotalSize in *. replace (len content <? 8) with false in H by lia.
  replace (len (content ++ X) <? 8) with false by (rewrite len_app; lia). cbn [obind] in *.
  assert (Hl' : (10 <= length content)%nat) by (unfold len in Hl; lia).
  rewrite firstn_app. replace (8 - length content)%nat with 0%nat by lia. rewrite firstn_O, app_nil_r.
  rewrite !nth_app_small by lia.
  rewrite num_of_wire_network in * by (rewrite firstn_length; lia).
  fold (declared_size content) in *. set (d := declared_size content) in *.
  apply obind_ok in H as (x & Hx & H).
  match goal with |- obind ?m _ = _ /\ _ => enough (m = Ok x /\ map_views_in content (fst x)) as [-> Hm] end.
  { cbn [obind]. split; [exact H|].
    destruct (_ =? 0); [injection H as <-; exact Hm|]. destruct (_ =? 10); [injection H as <-; exact Hm|discriminate]. }
  clear H.
  destruct Hcomp as [(main & splits & t & rest & Hc & Hd & Hty & Ht)|(main & strings & splits & t1 & t2 & rest & Hc & Hd & Hty & Ht1 & Ht2)];
    rewrite Hty in *; fold d in Hd; cbn [SeriTypeToChar] in *.
  - change (0 =? 0) with true in *. cbv iota in *.
    apply obind_ok in Hx as ([E q] & HE & Hx). cbn [fst snd] in *. apply obind_ok in Hx as (si & Hsi & Hx). injection Hx as <-.
    destruct (secondary_ext c content X d E q HE HL) as (E' & HE' & H1 & H2 & H3 & H4 & H5 & H6 & H7 & H8 & H9).
    rewrite HE'. cbn [obind fst]. rewrite Hd, Hc in HE.
    apply (secondary_prefixed c main splits t rest E q Ht) in HE as [HB _]; [|eapply lim_le; [|exact HL]; rewrite Hc, !len_app; lia].
    rewrite (tab_SplitInfo E E' X) with (x := si); auto; [|congruence| |].
    + cbn. auto.
    + rewrite H3, HB, Hc, !len_app. lia.
    + rewrite H3. change (2 ^ 32) with 4294967296. lia.
  - change (1 =? 0) with false in *. change (1 =? 1) with true in *. cbv iota in *.
    apply obind_ok in Hx as ([E q] & HE & Hx). cbn [fst snd] in *. apply obind_ok in Hx as (sm & Hsm & Hx).
    apply obind_ok in Hx as ([F q'] & HF & Hx). cbn [fst snd] in *. apply obind_ok in Hx as (si & Hsi & Hx). injection Hx as <-.
    destruct (secondary_ext c content X d E q HE HL) as (E' & HE' & H1 & H2 & H3 & H4 & H5 & H6 & H7 & H8 & H9).
    rewrite HE'. cbn [obind fst snd]. rewrite Hd, Hc in HE.
    apply (secondary_prefixed c main strings t1 (t2 ++ rest) E q Ht1) in HE as [HB Hq]; [|eapply lim_le; [|exact HL]; rewrite Hc, !len_app; lia].
    destruct (tab_StringMap E E' X) with (buf := buf) (fuel := fuel) (m := sm) as (-> & Hv & Hre); auto; [congruence| | |].
    { rewrite H3, HB, Hc, !len_app. lia. }
    { rewrite H3. change (2 ^ 32) with 4294967296. lia. }
    cbn [obind].
    destruct (secondary_ext c content X q F q' HF HL) as (F' & HF' & G1 & G2 & G3 & G4 & G5 & G6 & G7 & G8 & G9).
    rewrite HF'. cbn [obind fst snd].
    replace q with (len (main ++ t1)) in HF by (rewrite len_app; lia).
    replace content with ((main ++ t1) ++ t2 ++ rest) in HF by (rewrite Hc; now rewrite <- app_assoc).
    apply (secondary_prefixed c (main ++ t1) splits t2 rest F q' Ht2) in HF as [HB' _]; [|eapply lim_le; [|exact HL]; rewrite Hc, !len_app; lia].
    rewrite (tab_SplitInfo F F' X) with (x := si); auto; [|congruence| |].
    + cbn. split; [reflexivity|]. split; [exact Hre|]. unfold tab_view in Hv. rewrite H3 in Hv. exact Hv.
    + rewrite G3, HB', Hc, !len_app. lia.
    + rewrite G3. change (2 ^ 32) with 4294967296. lia.
Qed.

Lemma getter_in c content m id v : sane c -> map_views_in content m -> getter c m id = Ok v ->
  v_off v + v_len v <= len content.
Proof.
  intros [_ Hit] Hm H. destruct m as [m|]; [|discriminate]. cbn in Hm. destruct Hm as [Hre Hv]. unfold getter, GetStr in H.
  rewrite Hre in H. apply obind_ok in H as ([w m'] & H & E). injection E as <-.
  destruct (assoc_find N.eqb id (buildReMap c m)) as [k|] eqn:Hk; [|discriminate]. injection H as <- <-. cbn [fst].
  unfold buildReMap in Hk. pose proof (buildReMap_any (hash_order c (sm_map m)) [] id) as HA. rewrite Hk in HA.
  destruct HA as [HA|[HA _]]; [|discriminate HA].
  apply (Permutation_in _ (Hit _ _ _ (sm_map m))) in HA. rewrite Forall_forall in Hv. apply (Hv _ HA).
Qed.

(** C71.  Whatever bytes Parse accepts, in whatever mode, provided everything the
    header announces is there: more bytes behind it change nothing, the returned
    object is identical (views included). *)
Theorem C71_tail_is_ignored : forall c content X buf fuel p po o,
  sane c -> complete content -> fits c (content ++ X) ->
  Parse c fuel content buf p po = Ok o -> Parse c fuel (content ++ X) buf p po = Ok o.
Proof.
  intros c content X buf fuel p po o Hsane Hcomp HL H. unfold Parse in *.
  apply obind_ok in H as (sc & Hsc & H).
  destruct (init_ext c fuel content X buf sc Hcomp HL Hsc) as [-> Hviews]. cbn [obind].
  set (E1 := doc_env c content buf sc). set (E2 := doc_env c (content ++ X) buf sc).
  assert (Hget : forall id v, getter c (sc_map sc) id = Ok v -> getter c (sc_map sc) id = Ok v /\ solid E1 v).
  { intros id v Hv. split; [exact Hv|]. right. left. cbn. eapply getter_in; eauto. }
  assert (HLE : lim (r_cfg (b_env E2)) (len (r_content (b_env E2)))) by exact HL.
  unfold Parse_prog in *. fold E1 in H. fold E2.
  destruct (po_type po); [|destruct (sc_need_to_split sc)].
  - revert H. apply (Normal_ext E1 E2 X); auto.
  - revert H. apply (Coro_ext E1 E2 X); auto.
  - revert H. apply (Normal_ext E1 E2 X); auto.
Qed.

Lemma serialized_complete c mem ty p o v content : sane c -> denotes mem o v -> Serialize c mem ty p o = Ok content ->
  len content < 2 ^ 32 -> complete content.
Proof.
  intros Hc Hd Hs HL. destruct (C11_framing c mem ty p o v content Hc Hd Hs HL) as (size & split & body & aux & Hcont & Hsz & Hnet & _ & Haux).
  set (t := n2b (SeriTypeToChar ty)) in *. set (f := n2b (if split then 10 else 0)) in *.
  assert (Hds : declared_size content = len (size ++ [t] ++ [f] ++ body)).
  { unfold declared_size. rewrite Hcont. rewrite (firstn_app_exact size _ 8) by (unfold len in Hsz; lia). rewrite Hnet, !len_app, Hsz.
    change (len [t]) with 1. change (len [f]) with 1. lia. }
  assert (H8 : nth 8 content x00 = t).
  { rewrite Hcont. unfold len in Hsz. rewrite app_nth2 by lia. replace (8 - length size)%nat with 0%nat by lia. reflexivity. }
  destruct ty.
  - left. destruct Haux as (splits & Hp). exists (size ++ [t] ++ [f] ++ body), splits, aux, [].
    split; [rewrite app_nil_r, Hcont; now rewrite <- !app_assoc|]. split; [exact Hds|]. split; [rewrite H8; reflexivity|exact Hp].
  - right. destruct Haux as (strings & splits & a & b & -> & Ha & Hb). exists (size ++ [t] ++ [f] ++ body), strings, splits, a, b, [].
    split; [rewrite app_nil_r, Hcont; now rewrite <- !app_assoc|]. split; [exact Hds|]. split; [rewrite H8; reflexivity|auto].
Qed.

(** C13, exactly: bytes behind a serialized document make no difference at all, in
    any mode. *)
Theorem C13_same_object : forall cs cp mem ty p o v content X buf fuel p' po,
  sane cs -> sane cp -> denotes mem o v -> (po_ref po = true -> no_custom v) ->
  Serialize cs mem ty p o = Ok content -> fits cp (content ++ X) -> (length content <= fuel)%nat ->
  exists o', Parse cp fuel content buf p' po = Ok o' /\ Parse cp fuel (content ++ X) buf p' po = Ok o'.
Proof.
  intros cs cp mem ty p o v content X buf fuel p' po Hcs Hcp Hd Hnc Hs Hf Hfuel.
  assert (Hf0 : fits cp content) by (unfold fits in *; rewrite len_app in Hf; lia).
  pose proof (transport cs cp mem ty p o v content [] buf fuel p' po) as H. rewrite app_nil_r in H.
  destruct H as (o1 & v1 & HP1 & _); auto. exists o1. split; [exact HP1|].
  apply C71_tail_is_ignored; auto. apply (serialized_complete cs mem ty p o v); auto.
  apply lim_W32 in Hf0. rewrite W32_val in Hf0. exact Hf0.
Qed.

(** ** The sequential reader does not look at the split table *)

(** A well-formed split table: distinct ids, and numbers that fit their fields. *)
Definition table_ok (info : list (N * list N)) : Prop :=
  NoDup (map fst info) /\
  Forall (fun e => 1 <= fst e < W32 /\ snd e <> [] /\ Forall (fun b => b < W32) (snd e) /\ len (snd e) < W32) info.

Lemma SplitInfo_section c A info fuel : lim c (len (A ++ section (split_bytes info))) -> table_ok info ->
  (length (A ++ section (split_bytes info)) <= fuel)%nat ->
  exists E q si, secondary_env c (A ++ section (split_bytes info)) (len A) = Ok (E, q) /\ SplitInfo_Construct E fuel = Ok si.
Proof.
  intros HL [Hnd Hinfo] Hf. destruct (secondary_env_ok c A (split_bytes info) []) as (E & HE & E1 & E2 & E3 & E4);
    rewrite app_nil_r in *; [exact HL|].
  assert (HW := lim_W32 _ _ HL). rewrite W32_val in HW.
  destruct (SplitInfo_Construct_ok E fuel info (A ++ venc (len (split_bytes info))) []) as (si & S1 & _).
  - rewrite E2. unfold section. now rewrite app_nil_r, <- !app_assoc.
  - exact E3.
  - exact E4.
  - rewrite E1, E4. eapply lim_le; [|exact HL]. unfold section. rewrite !len_app. lia.
  - eapply Forall_impl; [|exact Hinfo]. cbn. intros e ((H1 & H2) & H3 & H4 & H5). repeat split; auto.
  - exact Hnd.
  - unfold section in HW. rewrite split_bytes_eq, !len_app in HW.
    assert (len info <= len (concat (map split_entry info))).
    { rewrite <- (len_map split_entry). apply concat_len_le. apply Forall_forall. intros x Hx.
      apply in_map_iff in Hx as (y & <- & _). unfold split_entry. pose proof (venc_nonempty (fst y)).
      destruct (venc (fst y)); [congruence|cbn; congruence]. }
    rewrite W32_val. lia.
  - unfold section in Hf. rewrite !app_length in Hf. lia.
  - eauto.
Qed.

(** What comes before the split table in a document of value [v], and the object
    that a sequential parse builds from it.  (One more byte, [z], is needed: the
    reader rejects an empty string at the very end of the buffer.) *)
Lemma front_ok c sz ty v content buf fuel p pr :
  sane c -> document sz ty v content -> lim c (len content) -> (length content <= fuel)%nat -> (pr = true -> no_custom v) ->
  exists front info,
    content = front ++ section (split_bytes info) /\
    (exists main mid, front = main ++ mid /\ 10 <= len main /\ declared_size content = len main /\
       (forall Z, nth 8 (front ++ Z) x00 = n2b (SeriTypeToChar ty) /\ declared_size (front ++ Z) = len main) /\
       match ty with NORMAL => mid = [] | REPLACE => exists dl, mid = section (dict_bytes dl) end) /\
    table_ok info /\
    forall z, exists o, result_ok buf (front ++ [z]) pr o (mirror v) /\
    (forall Z sc, lim c (len ((front ++ [z]) ++ Z)) -> initFromContent c fuel ((front ++ [z]) ++ Z) buf = Ok sc ->
      Parse c fuel ((front ++ [z]) ++ Z) buf p {| po_type := Normal; po_ref := pr |} = Ok o) /\
    (forall Z info2, (front ++ [z]) ++ Z = front ++ section (split_bytes info2) -> table_ok info2 ->
       lim c (len (front ++ section (split_bytes info2))) -> (length (front ++ section (split_bytes info2)) <= fuel)%nat ->
       exists sc, initFromContent c fuel ((front ++ [z]) ++ Z) buf = Ok sc).
Proof.
  intros Hsane Hdoc HL Hf Hnc.
  destruct Hdoc as [body fl ks dl info Hnd Hnorm Hks HP Hni Hinfo Hw].
  set (mid := match ty with NORMAL => [] | REPLACE => section (dict_bytes dl) end) in *.
  set (hd := be_bytes 8 (10 + len body) ++ [n2b (SeriTypeToChar ty)] ++ [n2b (if fl then 10 else 0)]).
  assert (Hb8 : length (be_bytes 8 (10 + len body)) = 8%nat)
    by (pose proof (be_bytes_len 8 (10 + len body)); unfold len in *; lia).
  assert (Hhd : length hd = 10%nat) by (unfold hd; rewrite !app_length, Hb8; reflexivity).
  set (front0 := hd ++ body ++ mid).
  assert (Heq : be_bytes 8 (10 + len body) ++ [n2b (SeriTypeToChar ty)] ++
             [n2b (if fl then 10 else 0)] ++ body ++ mid ++ section (split_bytes info) = front0 ++ section (split_bytes info)).
  { unfold front0, hd. rewrite <- !app_assoc. reflexivity. }
  rewrite Heq in *. exists front0, info. split; [reflexivity|].
  assert (Hlen_hd : len (hd ++ body) = 10 + len body) by (rewrite len_app; unfold len at 1; rewrite Hhd; reflexivity).
  assert (Hd10 : 10 + len body < 2 ^ 64).
  { assert (HW := lim_W32 _ _ HL). rewrite W32_val in HW.
    rewrite <- Hlen_hd. unfold front0 in HW. rewrite len_app, app_assoc, len_app in HW. change (2 ^ 64) with 18446744073709551616. lia. }
  assert (Hds0 : forall Z, declared_size (front0 ++ Z) = 10 + len body).
  { intros Z. unfold declared_size, front0, hd. rewrite <- !app_assoc. rewrite firstn_app_exact by exact Hb8. now apply of_network_be. }
  assert (H890 : forall Z, nth 8 (front0 ++ Z) x00 = n2b (SeriTypeToChar ty) /\ nth 9 (front0 ++ Z) x00 = n2b (if fl then 10 else 0)).
  { intros Z. unfold front0, hd. rewrite <- !app_assoc. split; rewrite app_nth2; rewrite Hb8; try lia; reflexivity. }
  split.
  { exists (hd ++ body), mid. split; [unfold front0; now rewrite <- app_assoc|]. split; [rewrite Hlen_hd; lia|]. split; [rewrite Hds0, Hlen_hd; reflexivity|].
    split; [intros Z; rewrite Hds0, Hlen_hd; split; [apply H890|reflexivity]|].
    unfold mid. destruct ty; [reflexivity|eauto]. }
  split; [split; assumption|].
  intros z. set (front := front0 ++ [z]).
  assert (Hds : forall Z, declared_size (front ++ Z) = 10 + len body) by (intros Z; unfold front; rewrite <- app_assoc; apply Hds0).
  assert (H89 : forall Z, nth 8 (front ++ Z) x00 = n2b (SeriTypeToChar ty) /\ nth 9 (front ++ Z) x00 = n2b (if fl then 10 else 0))
    by (intros Z; unfold front; rewrite <- app_assoc; apply H890).
  assert (Hf1 : (length front <= fuel)%nat).
  { unfold front. unfold section in Hf. pose proof (venc_pos_nat (len (split_bytes info))). rewrite !app_length in *. cbn. lia. }
  assert (HLf : lim c (len front)).
  { eapply lim_le; [|exact HL]. unfold front, section. rewrite !len_app. pose proof (venc_len_pos (len (split_bytes info))).
    change (len [z]) with 1. lia. }
  assert (HWf := lim_W32 _ _ HLf). rewrite W32_val in HWf.
  assert (Hl10 : forall Z, 10 <= len (front ++ Z)).
  { intros Z. unfold front, front0. rewrite <- !app_assoc, len_app. unfold len at 1. rewrite Hhd. lia. }
  assert (Hdict : exists m0,
    (m0 = None <-> ty = NORMAL) /\ answers front buf (getter c m0) (dict_of ty ks) /\ map_views_in front m0 /\
    (forall Z sc, lim c (len (front ++ Z)) -> initFromContent c fuel (front ++ Z) buf = Ok sc ->
      sc_map sc = m0 /\ sc_total sc = 10 + len body) /\
    (forall Z info2, front ++ Z = front0 ++ section (split_bytes info2) -> table_ok info2 ->
       lim c (len (front0 ++ section (split_bytes info2))) -> (length (front0 ++ section (split_bytes info2)) <= fuel)%nat ->
       exists sc, initFromContent c fuel (front ++ Z) buf = Ok sc)).
  { assert (Hacc : forall Z x,
        (if b2n (n2b (SeriTypeToChar ty)) =? SeriTypeToChar NORMAL
         then obind (secondary_env c (front ++ Z) (10 + len body)) (fun x => obind (SplitInfo_Construct (fst x) fuel) (fun si => Ok (None, si)))
         else if b2n (n2b (SeriTypeToChar ty)) =? SeriTypeToChar REPLACE
         then obind (secondary_env c (front ++ Z) (10 + len body)) (fun x => obind (StringMap_Construct (fst x) buf fuel) (fun sm =>
              obind (secondary_env c (front ++ Z) (snd x)) (fun y => obind (SplitInfo_Construct (fst y) fuel) (fun si => Ok (Some sm, si)))))
         else Throw ERuntime) = Ok x -> exists sc, initFromContent c fuel (front ++ Z) buf = Ok sc).
    { intros Z x Hx. unfold initFromContent, meta_size, ParseTotalSize. specialize (Hl10 Z).
      replace (len (front ++ Z) <? 10) with false by lia. replace (len (front ++ Z) <? 8) with false by lia. cbn [obind].
      rewrite num_of_wire_network by (rewrite firstn_length; unfold len in Hl10; lia).
      fold (declared_size (front ++ Z)). rewrite (Hds Z). destruct (H89 Z) as [H8 H9]. rewrite H8, H9.
      rewrite Hx. cbn [obind]. destruct fl.
      - change (b2n (n2b 10)) with 10. change (10 =? 0) with false. change (10 =? 10) with true. eauto.
      - change (b2n (n2b 0)) with 0. change (0 =? 0) with true. eauto. }
    assert (Hinit : forall m0, (forall Z x, lim c (len (front ++ Z)) ->
        (if b2n (n2b (SeriTypeToChar ty)) =? SeriTypeToChar NORMAL
         then obind (secondary_env c (front ++ Z) (10 + len body)) (fun x => obind (SplitInfo_Construct (fst x) fuel) (fun si => Ok (None, si)))
         else if b2n (n2b (SeriTypeToChar ty)) =? SeriTypeToChar REPLACE
         then obind (secondary_env c (front ++ Z) (10 + len body)) (fun x => obind (StringMap_Construct (fst x) buf fuel) (fun sm =>
              obind (secondary_env c (front ++ Z) (snd x)) (fun y => obind (SplitInfo_Construct (fst y) fuel) (fun si => Ok (Some sm, si)))))
         else Throw ERuntime) = Ok x -> fst x = m0) ->
       forall Z sc, lim c (len (front ++ Z)) -> initFromContent c fuel (front ++ Z) buf = Ok sc ->
         sc_map sc = m0 /\ sc_total sc = 10 + len body).
    { intros m0 Hm Z sc HLZ H. unfold initFromContent, meta_size, ParseTotalSize in H. specialize (Hl10 Z).
      replace (len (front ++ Z) <? 10) with false in H by lia. replace (len (front ++ Z) <? 8) with false in H by lia. cbn [obind] in H.
      rewrite num_of_wire_network in H by (rewrite firstn_length; unfold len in Hl10; lia).
      fold (declared_size (front ++ Z)) in H. rewrite (Hds Z) in H. destruct (H89 Z) as [H8 H9]. rewrite H8, H9 in H.
      apply obind_ok in H as (x & Hx & H). apply (Hm Z x HLZ) in Hx.
      destruct (_ =? 0); [injection H as <-; auto|]. destruct (_ =? 10); [injection H as <-; auto|discriminate]. }
    destruct ty; cbn [SeriTypeToChar] in Hinit.
    - exists None. split; [tauto|]. split; [exact I|]. split; [exact I|]. split.
      { apply Hinit. intros Z x _.
      change (b2n (n2b 0)) with 0. rewrite N.eqb_refl. intros H.
      apply obind_ok in H as (E & _ & H). apply obind_ok in H as (si & _ & H). now injection H as <-.
      }
      { intros Z info2 HZ Hok HL2 Hf2. destruct (SplitInfo_section c front0 info2 fuel HL2 Hok Hf2) as (E & q & si & HE & Hsi).
        assert (Hl0 : len front0 = 10 + len body) by (unfold front0, mid; rewrite app_nil_r; exact Hlen_hd).
        eapply Hacc. rewrite HZ, <- Hl0. cbn [SeriTypeToChar]. change (b2n (n2b 0)) with 0. rewrite N.eqb_refl.
        rewrite HE. cbn [obind fst]. rewrite Hsi. cbn [obind]. reflexivity. }
    - destruct (secondary_env_ok c (hd ++ body) (dict_bytes dl) [z]) as (E & HE & E1 & E2 & E3 & E4).
      { replace ((hd ++ body) ++ section (dict_bytes dl) ++ [z]) with front; [exact HLf|]. unfold front, front0, mid. now rewrite <- !app_assoc. }
      replace ((hd ++ body) ++ section (dict_bytes dl) ++ [z]) with front in E2 by (unfold front, front0, mid; now rewrite <- !app_assoc).
      assert (Hldl : len dl <= len (dict_bytes dl)).
      { rewrite dict_bytes_eq, len_app, <- (len_map dict_entry).
        enough (len (map dict_entry dl) <= len (concat (map dict_entry dl))) by lia.
        apply concat_len_le. apply Forall_forall. intros x Hx.
        apply in_map_iff in Hx as (y & <- & _). unfold dict_entry. pose proof (venc_nonempty (len (fst y))).
        destruct (venc (len (fst y))); [congruence|cbn; congruence]. }
      assert (Hlks : len dl = len ks) by (rewrite (len_perm _ _ HP); apply number_from_len).
      assert (HWd := HWf). unfold front, front0, mid, section in HWd. rewrite !len_app in HWd.
      destruct (StringMap_Construct_ok E buf fuel dl ((hd ++ body) ++ venc (len (dict_bytes dl))) [z]) as (m & M1 & M2 & M3).
      { rewrite E2. unfold front, front0, mid, section. now rewrite <- !app_assoc. }
      { exact E3. }
      { exact E4. }
      { rewrite E1, E4. eapply lim_le; [|exact HLf]. unfold front, front0, mid, section. rewrite !len_app. lia. }
      { rewrite E1, E2. exact HLf. }
      { eapply Permutation_Forall; [symmetry; exact HP|].
        eapply Forall_impl; [|apply number_from_bound]. cbn. intros; rewrite W32_val; lia. }
      { eapply Permutation_NoDup; [apply Permutation_map; symmetry; exact HP|]. now rewrite number_from_fst. }
      { rewrite W32_val. lia. }
      { unfold front, front0, mid, section in Hf1. rewrite !app_length in Hf1. lia. }
      assert (Htab : forall Z E', r_cfg E' = c -> r_content E' = front ++ Z -> r_base E' = r_base E -> r_size E' = r_size E ->
        StringMap_Construct E' buf fuel = Ok m /\ map_views_in front (Some m)).
      { intros Z E' F1 F2 F3 F4. destruct (tab_StringMap E E' Z) with (buf := buf) (fuel := fuel) (m := m) as (HS & Hv & Hre); auto.
        - congruence.
        - now rewrite E2.
        - rewrite E2, E3, E4. unfold front, front0, mid, section. rewrite !len_app. lia.
        - rewrite E2. change (2 ^ 32) with 4294967296. exact HWf.
        - split; [exact HS|]. split; [exact Hre|]. unfold tab_view in Hv. rewrite E2 in Hv. exact Hv. }
      exists (Some m). split; [split; discriminate|]. split; [rewrite E2 in M3; eapply getter_answers; eauto|].
      split; [apply (Htab [] E); auto; now rewrite app_nil_r|].
      split.
      { apply Hinit. intros Z x HLZ. change (b2n (n2b 1)) with 1. change (1 =? 0) with false. change (1 =? 1) with true. cbv iota. intros H.
      destruct (secondary_env_ok c (hd ++ body) (dict_bytes dl) ([z] ++ Z)) as (E' & HE' & F1 & F2 & F3 & F4).
      { replace ((hd ++ body) ++ section (dict_bytes dl) ++ [z] ++ Z) with (front ++ Z); [exact HLZ|]. unfold front, front0, mid. now rewrite <- !app_assoc. }
      replace ((hd ++ body) ++ section (dict_bytes dl) ++ [z] ++ Z) with (front ++ Z) in * by (unfold front, front0, mid; now rewrite <- !app_assoc).
      rewrite Hlen_hd in HE'. rewrite HE' in H. cbn [obind fst snd] in H.
      destruct (Htab Z E') as [HS _]; [exact F1|exact F2|congruence|congruence|]. rewrite HS in H. cbn [obind] in H.
      apply obind_ok in H as (y & _ & H). apply obind_ok in H as (si & _ & H). now injection H as <-. }
      { intros Z info2 HZ Hok HL2 Hf2. destruct (SplitInfo_section c front0 info2 fuel HL2 Hok Hf2) as (F & q & si & HF & Hsi).
        assert (HLZ : lim c (len (front ++ Z))) by (rewrite HZ; exact HL2).
        destruct (secondary_env_ok c (hd ++ body) (dict_bytes dl) ([z] ++ Z)) as (E' & HE' & F1 & F2 & F3 & F4).
        { replace ((hd ++ body) ++ section (dict_bytes dl) ++ [z] ++ Z) with (front ++ Z); [exact HLZ|]. unfold front, front0, mid. now rewrite <- !app_assoc. }
        replace ((hd ++ body) ++ section (dict_bytes dl) ++ [z] ++ Z) with (front ++ Z) in * by (unfold front, front0, mid; now rewrite <- !app_assoc).
        rewrite Hlen_hd in HE'. destruct (Htab Z E') as [HS _]; [exact F1|exact F2|congruence|congruence|].
        eapply Hacc. cbn [SeriTypeToChar]. change (b2n (n2b 1)) with 1. change (1 =? 0) with false. change (1 =? 1) with true. cbv iota.
        rewrite HE'. cbn [obind fst snd]. rewrite HS. cbn [obind].
        replace (len ((hd ++ body) ++ section (dict_bytes dl))) with (len front0) by (unfold front0, mid; now rewrite <- app_assoc).
        rewrite HZ, HF. cbn [obind fst]. rewrite Hsi. cbn [obind]. reflexivity. } }
  destruct Hdict as (m0 & Hm0 & Hans & Hviews & Hinit & Hacc).
  set (sc0 := {| sc_map := m0; sc_split := si_empty; sc_need_to_split := false; sc_total := 10 + len body |}).
  set (E := doc_env c front buf sc0).
  set (mem := fun _ : nat => Some front).
  assert (Hmap : ModelParse.b_map E = match dict_of ty ks with Some _ => true | None => false end).
  { unfold E; cbn. destruct ty; cbn.
    - assert (m0 = None) as -> by (now apply Hm0). reflexivity.
    - destruct m0 eqn:Em; [reflexivity|]. exfalso. destruct Hm0 as [Hm0 _]. discriminate (Hm0 eq_refl). }
  assert (Hlb : (length body <= fuel)%nat).
  { unfold front, front0 in Hf1. rewrite !app_length in Hf1. lia. }
  assert (Hncr : pr = true -> no_custom (VMap [(root_key, v)])).
  { intros Hp. constructor. constructor; [cbn; auto|constructor]. }
  assert (Hnormal : exists o, run (getter c m0) (NormalParse_prog E fuel pr p (10 + len body)) = Ok o /\ result_ok buf front pr o (mirror v)).
  { unfold NormalParse_prog. rewrite run_bind.
    destruct (NormalProofs.valueParse_ok E (getter c m0) (dict_of ty ks) (table_of info) sz mem) with (p := p) (pr := pr) (fuel := fuel)
      as [Hv _]; auto.
    destruct (Hv _ _ _ hd (mid ++ [z]) Hw) as (root & Hrun & Hr); auto.
    { unfold E, front, front0. cbn. now rewrite <- !app_assoc. }
    { destruct mid; discriminate. }
    cbn [type_of] in Hrun. assert (Hlhd : len hd = 10) by (unfold len; now rewrite Hhd). rewrite Hlhd in Hrun. unfold meta_size.
    change {| idx := 10; off := 10 |} with (at_ 10). rewrite Hrun. cbn [obind off at_].
    rewrite N.eqb_refl. cbn [negb]. rewrite run_lift.
    cbn in Hr. destruct (RoundTrip.take_root_ok E mem pr root (mirror v) eq_refl Hr) as (o & Ho & Hro). exists o. split; [exact Ho|]. now apply (reads_result E mem). }
  destruct Hnormal as (o & Ho & Hro). exists o. split; [exact Hro|]. split; [|exact Hacc].
  intros Z sc HLZ Hsc. unfold Parse. rewrite Hsc. cbn [obind].
  destruct (Hinit Z sc HLZ Hsc) as [Hsm Hst]. unfold Parse_prog. cbn [po_type po_ref]. rewrite Hsm, Hst.
  set (E2 := doc_env c (front ++ Z) buf sc) in *.
  pose proof (Normal_ext E E2 Z) as HX.
  specialize (HX eq_refl eq_refl eq_refl eq_refl eq_refl eq_refl eq_refl).
  assert (Hbm : ModelParse.b_map E2 = ModelParse.b_map E) by (unfold E2, E; cbn; now rewrite Hsm).
  specialize (HX Hbm HLZ (getter c m0) (getter c m0)).
  apply HX; [|exact Ho].
  intros id w Hv. split; [exact Hv|]. right. left. cbn. eapply getter_in; eauto.
Qed.

(** ** Cuts inside the dictionary *)
Lemma secondary_decoded c main n L rest E q : varint_decode x86_release n 0 0 = Ok (L, len n) ->
  secondary_env c (main ++ n ++ rest) (len main) = Ok (E, q) -> len (main ++ n ++ rest) < 2 ^ 32 ->
  q = u64 (len main + len n + L).
Proof.
  intros Hn H HL. change (2 ^ 32) with 4294967296 in HL. rewrite !len_app in HL.
  unfold secondary_env, parseLength_str in H. apply obind_ok in H as ([L' k] & HP & H).
  destruct (_ <=? _); [discriminate|]. apply obind_ok in HP as ([v k'] & Hd & HP).
  unfold varint_decode in *.
  destruct (decode_loop_shift x86_release c main rest n 0 (to_int32 (to_int64 (sub64 (len (main ++ n ++ rest)) (len main)))) 12 0 0 0 0 L (len n) v k') as [-> ->];
    [lia|exact Hn|lia|rewrite N.add_0_r; exact Hd|].
  destruct (_ <? _); [discriminate|]. injection HP as <- <-. cbn [fst snd] in H.
  rewrite (u64_small (len main + len n)) in H by (rewrite W64_val; lia). now injection H as <- <-.
Qed.

Lemma cut_dictionary c main s k buf fuel sc :
  let content := main ++ firstn k (section s) in
  declared_size content = len main -> b2n (nth 8 content x00) = 1 -> len main + len (section s) < 2 ^ 32 ->
  initFromContent c fuel content buf <> Ok sc.
Proof.
  intros content Hd Hty HL H. change (2 ^ 32) with 4294967296 in HL.
  assert (Hlc : len content <= len main + len (section s)).
  { unfold content. rewrite len_app. enough (len (firstn k (section s)) <= len (section s)) by lia.
    unfold len. rewrite firstn_length. lia. }
  unfold initFromContent, meta_size in H.
  destruct (N.ltb_spec (len content) 10) as [|Hl]; [discriminate|].
  unfold ParseTotalSize in *. replace (len content <? 8) with false in H by lia. cbn [obind] in *.
  rewrite num_of_wire_network in H by (rewrite firstn_length; unfold len in Hl; lia).
  fold (declared_size content) in H. rewrite Hd, Hty in H. cbn [SeriTypeToChar] in H.
  change (1 =? 0) with false in H. change (1 =? 1) with true in H. cbv iota in H.
  apply obind_ok in H as (x & H & _). apply obind_ok in H as ([E q] & HE & H). apply obind_ok in H as (sm & _ & H).
  apply obind_ok in H as ([F q'] & HF & _). cbn [fst snd] in *.
  assert (Hq : q < len content).
  { unfold secondary_env, parseLength_str in HF. apply obind_ok in HF as (y & HF & _).
    destruct (N.leb_spec (len content) q); [discriminate|lia]. }
  assert (Hls : len s < 4294967296) by (unfold section in HL; rewrite len_app in HL; lia).
  assert (Hdec : varint_decode x86_release (venc (len s)) 0 0 = Ok (len s, len (venc (len s)))).
  { pose proof (varint_decode_ok x86_release [] (len s) [] 0) as Hv. cbn [app] in Hv. rewrite app_nil_r in Hv. apply Hv; [rewrite W64_val; lia|now left]. }
  destruct (Nat.leb_spec (length (venc (len s))) k) as [Hk|Hk].
  - assert (Hc : content = main ++ venc (len s) ++ firstn (k - length (venc (len s))) s).
    { unfold content, section. rewrite firstn_app, firstn_all2 by lia. reflexivity. }
    rewrite Hc in HE. apply (secondary_decoded _ _ _ _ _ _ _ Hdec) in HE; [|rewrite <- Hc; change (2 ^ 32) with 4294967296; lia].
    unfold section in HL, Hlc. rewrite !len_app in HL, Hlc. rewrite u64_small in HE by (rewrite W64_val; lia). lia.
  - unfold secondary_env, parseLength_str in HE. apply obind_ok in HE as ([L n] & HP & _).
    destruct (_ <=? _); [discriminate|]. apply obind_ok in HP as ([v k'] & Hdc & HP).
    pose proof (decode_small _ _ _ _ _ _ Hdc) as Hk'.
    rewrite u64_small in HP by (rewrite W64_val; lia).
    destruct (N.ltb_spec (len content) (len main + k')) as [|Hle]; [discriminate|].
    apply (decode_ext c content (skipn k (section s)) _ _ _ _ _ (or_intror (Z.le_refl _))) in Hdc as [Hdc _]; [|exact Hle].
    replace (content ++ skipn k (section s)) with (main ++ venc (len s) ++ s) in Hdc
      by (unfold content; rewrite <- app_assoc, firstn_skipn; reflexivity).
    unfold varint_decode in *. replace (len main) with (len main + 0) in Hdc by lia.
    destruct (decode_loop_shift x86_release c main s (venc (len s)) 0 _ 12 0 0 0 0 (len s) (len (venc (len s))) v k'
                ltac:(lia) Hdec ltac:(lia) Hdc) as [_ ->].
    unfold content in Hle. rewrite len_app in Hle. unfold len in Hle, Hk. rewrite firstn_length in Hle. unfold section in Hle.
    rewrite app_length in Hle. unfold len in Hle. lia.
Qed.

(** A document that is cut before its split table begins is never accepted. *)
Lemma cut_front c ty content buf fuel p front main mid n :
  len content < 2 ^ 32 -> (exists tl, content = front ++ tl) -> front = main ++ mid ->
  (forall Z, nth 8 (front ++ Z) x00 = n2b (SeriTypeToChar ty) /\ declared_size (front ++ Z) = len main) -> 10 <= len main ->
  match ty with NORMAL => mid = [] | REPLACE => exists dl, mid = section (dict_bytes dl) end ->
  (n <= length front)%nat -> forall po o, Parse c fuel (firstn n front) buf p po <> Ok o.
Proof.
  intros HL [tl Htl] Hfr HZ H10 Hmid Hn po o H. change (2 ^ 32) with 4294967296 in HL.
  destruct (HZ []) as [H8 Hds]. rewrite app_nil_r in H8, Hds.
  assert (Hlf : len (firstn n front) = N.of_nat n) by (unfold len; rewrite firstn_length; lia).
  assert (Hpre : (10 <= n)%nat -> declared_size (firstn n front) = len main /\ nth 8 (firstn n front) x00 = n2b (SeriTypeToChar ty)).
  { intros Hge. split.
    - rewrite <- Hds. unfold declared_size. rewrite firstn_firstn, Nat.min_l by lia. reflexivity.
    - rewrite <- H8. rewrite <- (firstn_skipn n front) at 2. rewrite app_nth1; [reflexivity|]. rewrite firstn_length. lia. }
  destruct (Nat.leb_spec n (length main)) as [Hm|Hm].
  - assert (HR : Parse c fuel (firstn n front) buf p po = Throw ERuntime); [|congruence]. apply reject.
    destruct (Nat.ltb_spec n 10) as [Hlt|Hge]; [left; lia|]. right; left. destruct (Hpre Hge) as [-> _]. unfold len in *. lia.
  - assert (Hge : (10 <= n)%nat) by (unfold len in H10; lia). destruct (Hpre Hge) as [Hd Ht].
    destruct ty; [subst mid; rewrite Hfr, app_nil_r in Hn; lia|]. destruct Hmid as [dl ->].
    unfold Parse in H. apply obind_ok in H as (sc & Hsc & _).
    assert (Hc : firstn n front = main ++ firstn (n - length main) (section (dict_bytes dl))).
    { rewrite Hfr, firstn_app, firstn_all2 by lia. reflexivity. }
    rewrite Hc in *. revert Hsc. apply cut_dictionary; [exact Hd| |].
    + rewrite Ht. reflexivity.
    + change (2 ^ 32) with 4294967296. rewrite Htl, Hfr, !len_app in HL. lia.
Qed.

Lemma firstn_past {A} (a : list A) z b n : (length a < n)%nat ->
  firstn n (a ++ z :: b) = (a ++ [z]) ++ firstn (n - length a - 1) b.
Proof.
  intros H. rewrite firstn_app, firstn_all2 by lia. destruct (n - length a)%nat as [|m] eqn:E; [lia|].
  cbn [firstn]. rewrite <- app_assoc. cbn [app]. replace (S m - 1)%nat with m by lia. reflexivity.
Qed.

(** C12, for the sequential reader: cutting a document anywhere either makes it
    unreadable or changes nothing at all; there is no third outcome in which a
    different object comes back. *)
Theorem C12_sequential_cut_partial : forall cs cp mem ty p o v content buf fuel p' pr,
  sane cs -> sane cp -> denotes mem o v -> (pr = true -> no_custom v) ->
  Serialize cs mem ty p o = Ok content -> fits cp content -> (length content <= fuel)%nat ->
  exists o1, Parse cp fuel content buf p' {| po_type := Normal; po_ref := pr |} = Ok o1 /\
    forall n o', Parse cp fuel (firstn n content) buf p' {| po_type := Normal; po_ref := pr |} = Ok o' -> o' = o1.
Proof.
  intros cs cp mem ty p o v content buf fuel p' pr Hcs Hcp Hd Hnc Hs Hf Hfuel.
  pose proof (transport cs cp mem ty p o v content [] buf fuel p' {| po_type := Normal; po_ref := pr |}) as H. rewrite app_nil_r in H.
  destruct H as (o1 & v1 & HP1 & _); auto. exists o1. split; [exact HP1|].
  assert (HW := lim_W32 _ _ Hf). rewrite W32_val in HW.
  assert (Hdoc : document (split_block_size cs) ty v content).
  { destruct (Serialize_document cs mem ty p o v Hcs Hd) as (content' & Hs' & Hdoc). rewrite Hs in Hs'. injection Hs' as <-.
    apply Hdoc. now rewrite W32_val. }
  destruct (front_ok cp _ ty v content buf fuel p' pr Hcp Hdoc Hf Hfuel Hnc) as (front & info & Hc & (main & mid & Hfr & H10 & Hdm & HZ & Hmid) & _ & Hz).
  intros n o' H.
  destruct (Nat.leb_spec n (length front)) as [Hn|Hn].
  - exfalso. rewrite Hc, firstn_app in H. replace (n - length front)%nat with 0%nat in H by lia. rewrite firstn_O, app_nil_r in H.
    revert H. eapply cut_front with (main := main); eauto.
  - unfold section in Hc. pose proof (venc_nonempty (len (split_bytes info))) as Hne.
    destruct (venc (len (split_bytes info))) as [|z b]; [congruence|]. cbn [app] in Hc.
    destruct (Hz z) as (oz & _ & Hoz' & _).
    assert (Hoz : forall Z o', lim cp (len ((front ++ [z]) ++ Z)) ->
      Parse cp fuel ((front ++ [z]) ++ Z) buf p' {| po_type := Normal; po_ref := pr |} = Ok o' -> o' = oz).
    { intros Z o2 HLZ HZ2. pose proof HZ2 as HZ3. unfold Parse in HZ3. apply obind_ok in HZ3 as (sc & Hsc & _).
      rewrite (Hoz' Z sc HLZ Hsc) in HZ2. now injection HZ2. }
    rewrite Hc in H. rewrite firstn_past in H by exact Hn.
    assert (o' = oz) as ->. { apply (Hoz _ _) in H; [exact H|]. eapply lim_le; [|exact Hf]. rewrite Hc, <- firstn_past by exact Hn. unfold len. rewrite firstn_length. lia. }
    rewrite Hc in HP1. change (z :: b ++ split_bytes info) with ([z] ++ (b ++ split_bytes info)) in HP1. rewrite app_assoc in HP1.
    symmetry. apply (Hoz _ _) in HP1; [exact HP1|]. rewrite <- app_assoc. cbn [app]. rewrite <- Hc. exact Hf.
Qed.

(** The owning object with a given meaning is unique, so two owning sequential
    parses with the same meaning are the same object. *)
Lemma owning_unique c fuel content buf p o v : Parse c fuel content buf p {| po_type := Normal; po_ref := false |} = Ok o ->
  denotes no_mem o v -> o = tree_of p v.
Proof.
  intros HP Hden. apply Parse_wf in HP. destruct HP as [->|HP]; [inversion Hden|].
  eapply tree_of_unique; [|exact Hden]. cbn [po_ref] in HP. clear -HP.
  induction o as [|dt s|dt s|q n l IH|q n l IH|q n l IH] using obj_ind'; inversion HP; subst; econstructor; eauto;
    try (match goal with H : result_pool _ _ _ |- _ => destruct H as [H|[H _]]; [congruence|discriminate] end);
    rewrite Forall_forall in *; auto.
Qed.

Lemma read_view_prefix mem mem' buf A B w : mem buf = Some A -> mem' buf = Some (A ++ B) -> inside buf (len A) w ->
  read_view mem w = read_view mem' w.
Proof.
  intros H1 H2 [Hb Hin]. unfold read_view. rewrite Hb, H1, H2.
  assert (Hr : exists s, read_range A (v_off w) (v_len w) = Ok s).
  { unfold read_range. destruct (_ =? 0); [eauto|]. replace (v_off w + v_len w <=? len A + 1) with true by lia. eauto. }
  destruct Hr as [s Hs]. rewrite Hs. symmetry. eapply read_range_ext; [exact Hs|]. right. exact Hin.
Qed.

Lemma result_longer buf A B pr o v mem' : result_ok buf A pr o v -> (pr = true -> mem' buf = Some (A ++ B)) -> denotes mem' o v.
Proof.
  intros [Hd Hv] Hm. destruct pr.
  - eapply (views_denotes (fun w => inside buf (len A) w) (fun _ => Some A)).
    + intros w Hw. eapply read_view_prefix; [| |exact Hw]; [reflexivity|auto].
    + eapply all_views_impl; [|exact Hv]. cbn. tauto.
    + now apply Hd.
  - apply Hd. discriminate.
Qed.

(** ** C72.  The split table is a hint *)

(** [front] is everything of the document before its split table. *)
Definition parts (ty : SeriType) (content front splits : bytes) : Prop :=
  content = front ++ splits /\ (exists t, prefixed t splits) /\
  match ty with
  | NORMAL => declared_size content = len front
  | REPLACE => exists main strings d, front = main ++ d /\ declared_size content = len main /\ prefixed strings d
  end.

Lemma front_facts cs cp mem ty p o v content buf fuel p' pr :
  sane cs -> sane cp -> denotes mem o v -> (pr = true -> no_custom v) ->
  Serialize cs mem ty p o = Ok content -> fits cp content -> (length content <= fuel)%nat ->
  exists front info, parts ty content front (section (split_bytes info)) /\ content = front ++ section (split_bytes info) /\ table_ok info /\
   (forall Z o', fits cp (front ++ Z) -> Parse cp fuel (front ++ Z) buf p' {| po_type := Normal; po_ref := pr |} = Ok o' ->
      forall mem', (pr = true -> mem' buf = Some (front ++ Z)) -> denotes mem' o' (mirror v)) /\
   (forall info2, table_ok info2 -> fits cp (front ++ section (split_bytes info2)) ->
      (length (front ++ section (split_bytes info2)) <= fuel)%nat ->
      exists o', Parse cp fuel (front ++ section (split_bytes info2)) buf p' {| po_type := Normal; po_ref := pr |} = Ok o').
Proof.
  intros Hcs Hcp Hd Hnc Hs Hf Hfuel.
  assert (HW := lim_W32 _ _ Hf). rewrite W32_val in HW.
  assert (Hdoc : document (split_block_size cs) ty v content).
  { destruct (Serialize_document cs mem ty p o v Hcs Hd) as (content' & Hs' & Hdoc). rewrite Hs in Hs'. injection Hs' as <-.
    apply Hdoc. now rewrite W32_val. }
  destruct (front_ok cp _ ty v content buf fuel p' pr Hcp Hdoc Hf Hfuel Hnc) as (front & info & Hc & (main & mid & Hfr & H10 & Hdm & HZ & Hmid) & Hok & Hz).
  exists front, info. split; [|split; [exact Hc|split; [exact Hok|split]]].
  - split; [exact Hc|]. rewrite Hc in HW. unfold section in HW. rewrite !len_app in HW.
    split; [eexists; apply prefixed_section; rewrite W64_val; lia|].
    destruct ty; [subst mid; rewrite app_nil_r in Hfr; congruence|]. destruct Hmid as [dl ->].
    rewrite Hfr in HW. unfold section in HW. rewrite !len_app in HW.
    exists main, (dict_bytes dl), (section (dict_bytes dl)). split; [exact Hfr|]. split; [exact Hdm|]. apply prefixed_section. rewrite W64_val. lia.
  - intros Z o' HLZ HP mem' Hm. destruct Z as [|z Z].
    + exfalso. rewrite app_nil_r in HP. rewrite <- (firstn_all front) in HP. revert HP.
      apply (cut_front cp ty content) with (main := main) (mid := mid); eauto.
    + change (z :: Z) with ([z] ++ Z) in *. rewrite app_assoc in *. destruct (Hz z) as (oz & Hr & Ho & _).
      pose proof HP as HP'. unfold Parse in HP'. apply obind_ok in HP' as (sc & Hsc & _).
      rewrite (Ho Z sc HLZ Hsc) in HP. injection HP as <-. eapply result_longer; eauto.
  - intros info2 Hok2 HL2 Hf2. unfold section in *. pose proof (venc_nonempty (len (split_bytes info2))) as Hne.
    destruct (venc (len (split_bytes info2))) as [|z b] eqn:Ev; [congruence|]. clear Hne.
    destruct (Hz z) as (oz & _ & Ho & Hacc).
    assert (Heq : front ++ (z :: b) ++ split_bytes info2 = (front ++ [z]) ++ (b ++ split_bytes info2)) by (now rewrite <- app_assoc).
    rewrite Heq in *. destruct (Hacc (b ++ split_bytes info2) info2) as (sc & Hsc); auto.
    + rewrite Ev. symmetry. exact Heq.
    + rewrite Ev, Heq. exact HL2.
    + rewrite Ev, Heq. exact Hf2.
    + exists oz. eapply Ho; eauto.
Qed.

(** C72.  Replace the split table of a document by any bytes whatever: if the
    sequential reader accepts the result, it returns the original content (the
    very same object in owning mode). *)
Theorem C72_split_table_unused : forall cs cp mem ty p o v content buf fuel p' pr,
  sane cs -> sane cp -> denotes mem o v -> distinct_keys v -> (pr = true -> no_custom v) ->
  Serialize cs mem ty p o = Ok content -> fits cp content -> (length content <= fuel)%nat ->
  exists front splits, parts ty content front splits /\
    forall Z o', fits cp (front ++ Z) -> Parse cp fuel (front ++ Z) buf p' {| po_type := Normal; po_ref := pr |} = Ok o' ->
      (pr = false -> Parse cp fuel content buf p' {| po_type := Normal; po_ref := pr |} = Ok o') /\
      (forall mem', (pr = true -> mem' buf = Some (front ++ Z)) ->
       forall path, api_seen mem' o' path = Ok (seen_at v path)).
Proof.
  intros cs cp mem ty p o v content buf fuel p' pr Hcs Hcp Hd Hk Hnc Hs Hf Hfuel.
  destruct (front_facts cs cp mem ty p o v content buf fuel p' pr) as (front & info & Hp & Hc & Hok & Hseq & _); auto.
  exists front, (section (split_bytes info)). split; [exact Hp|]. intros Z o' HLZ HP. specialize (Hseq Z o' HLZ HP). split.
  - intros ->. pose proof (transport cs cp mem ty p o v content [] buf fuel p' {| po_type := Normal; po_ref := false |}) as H. rewrite app_nil_r in H.
    destruct H as (o1 & v1 & HP1 & _ & Hn1 & Hr1 & _); auto. rewrite HP1. f_equal. specialize (Hn1 eq_refl). subst v1.
    rewrite (owning_unique _ _ _ _ _ _ _ HP (Hseq no_mem ltac:(discriminate))).
    apply (owning_unique _ _ _ _ _ _ _ HP1). apply Hr1. discriminate.
  - intros mem' Hm path. rewrite (api_seen_ok mem' o' (mirror v) path (Hseq mem' Hm)). f_equal.
    symmetry. apply same_content_seen; [apply mirror_same|exact Hk].
Qed.

(** The split tables of two documents can be exchanged: the sequential reader
    still accepts both and returns the same objects as before. *)
Theorem C72_tables_exchanged : forall cs1 cs2 cp mem1 mem2 ty1 ty2 p1 p2 o1 o2 v1 v2 content1 content2 buf fuel p',
  sane cs1 -> sane cs2 -> sane cp -> denotes mem1 o1 v1 -> denotes mem2 o2 v2 -> distinct_keys v1 -> distinct_keys v2 ->
  Serialize cs1 mem1 ty1 p1 o1 = Ok content1 -> Serialize cs2 mem2 ty2 p2 o2 = Ok content2 ->
  fits cp (content1 ++ content2) -> (length (content1 ++ content2) <= fuel)%nat ->
  exists front1 splits1 front2 splits2,
    parts ty1 content1 front1 splits1 /\ parts ty2 content2 front2 splits2 /\
    exists r1 r2, Parse cp fuel content1 buf p' {| po_type := Normal; po_ref := false |} = Ok r1 /\
      Parse cp fuel (front1 ++ splits2) buf p' {| po_type := Normal; po_ref := false |} = Ok r1 /\
      Parse cp fuel content2 buf p' {| po_type := Normal; po_ref := false |} = Ok r2 /\
      Parse cp fuel (front2 ++ splits1) buf p' {| po_type := Normal; po_ref := false |} = Ok r2.
Proof.
  intros cs1 cs2 cp mem1 mem2 ty1 ty2 p1 p2 o1 o2 v1 v2 content1 content2 buf fuel p' Hc1 Hc2 Hcp Hd1 Hd2 Hk1 Hk2 Hs1 Hs2 Hf Hfuel.
  assert (Hf1 : fits cp content1) by (unfold fits in *; rewrite len_app in Hf; lia).
  assert (Hf2 : fits cp content2) by (unfold fits in *; rewrite len_app in Hf; lia).
  rewrite app_length in Hfuel.
  destruct (front_facts cs1 cp mem1 ty1 p1 o1 v1 content1 buf fuel p' false) as (front1 & info1 & P1 & E1 & T1 & S1 & A1); auto; try lia; try discriminate.
  destruct (front_facts cs2 cp mem2 ty2 p2 o2 v2 content2 buf fuel p' false) as (front2 & info2 & P2 & E2 & T2 & S2 & A2); auto; try lia; try discriminate.
  exists front1, (section (split_bytes info1)), front2, (section (split_bytes info2)). split; [exact P1|]. split; [exact P2|].
  assert (W : forall front Z v r, (forall Z o', fits cp (front ++ Z) -> Parse cp fuel (front ++ Z) buf p' {| po_type := Normal; po_ref := false |} = Ok o' ->
      forall mem', (false = true -> mem' buf = Some (front ++ Z)) -> denotes mem' o' (mirror v)) ->
      fits cp (front ++ Z) -> Parse cp fuel (front ++ Z) buf p' {| po_type := Normal; po_ref := false |} = Ok r -> r = tree_of p' (mirror v)).
  { intros front Z v r HS HZ HP. eapply owning_unique; [exact HP|]. apply (HS Z r HZ HP no_mem). discriminate. }
  assert (Hx1 : fits cp (front1 ++ section (split_bytes info2)))
    by (unfold fits in *; rewrite E1, E2, !len_app in Hf; rewrite len_app; lia).
  assert (Hx2 : fits cp (front2 ++ section (split_bytes info1)))
    by (unfold fits in *; rewrite E1, E2, !len_app in Hf; rewrite len_app; lia).
  rewrite E1, E2, !app_length in Hfuel.
  destruct (A1 info1 T1) as [r1 R1]; [rewrite <- E1; exact Hf1|rewrite app_length; lia|].
  destruct (A1 info2 T2 Hx1) as [r1' R1']; [rewrite app_length; lia|].
  destruct (A2 info2 T2) as [r2 R2]; [rewrite <- E2; exact Hf2|rewrite app_length; lia|].
  destruct (A2 info1 T1 Hx2) as [r2' R2']; [rewrite app_length; lia|].
  exists r1, r2.
  assert (r1 = r1') by (rewrite (W _ _ v1 _ S1 ltac:(rewrite <- E1; exact Hf1) R1); symmetry; exact (W _ _ v1 _ S1 Hx1 R1')).
  assert (r2 = r2') by (rewrite (W _ _ v2 _ S2 ltac:(rewrite <- E2; exact Hf2) R2); symmetry; exact (W _ _ v2 _ S2 Hx2 R2')).
  subst r1' r2'. rewrite E1, E2. auto.
Qed.

(** C12, all modes: a document cut anywhere before its split table begins (body and
    dictionary included) never yields an object. *)
Theorem C12_cut_before_split_table_partial : forall cs cp mem ty p o v content,
  sane cs -> denotes mem o v -> Serialize cs mem ty p o = Ok content -> len content < 2 ^ 32 ->
  exists front splits, parts ty content front splits /\
    forall n fuel buf p' po o', (n <= length front)%nat -> Parse cp fuel (firstn n content) buf p' po <> Ok o'.
Proof.
  intros cs cp mem ty p o v content Hcs Hd Hs HL.
  assert (Hdoc : document (split_block_size cs) ty v content).
  { destruct (Serialize_document cs mem ty p o v Hcs Hd) as (content' & Hs' & Hdoc). rewrite Hs in Hs'. injection Hs' as <-.
    apply Hdoc. rewrite W32_val. exact HL. }
  change (2 ^ 32) with 4294967296 in HL.
  assert (Hf : fits x86_release content) by (unfold fits; cbn; exact HL).
  destruct (front_ok x86_release _ ty v content 0%nat (length content) p false x86_release_sane Hdoc Hf (le_n _) ltac:(discriminate))
    as (front & info & Hc & (main & mid & Hfr & H10 & Hdm & HZ & Hmid) & Hok & _).
  exists front, (section (split_bytes info)). split.
  - split; [exact Hc|]. rewrite Hc in HL. unfold section in HL. rewrite !len_app in HL.
    split; [eexists; apply prefixed_section; rewrite W64_val; lia|].
    destruct ty; [subst mid; rewrite app_nil_r in Hfr; congruence|]. destruct Hmid as [dl ->].
    rewrite Hfr in HL. unfold section in HL. rewrite !len_app in HL.
    exists main, (dict_bytes dl), (section (dict_bytes dl)). split; [exact Hfr|]. split; [exact Hdm|]. apply prefixed_section. rewrite W64_val. lia.
  - intros n fuel buf p' po o' Hn. rewrite Hc, firstn_app. replace (n - length front)%nat with 0%nat by lia. rewrite firstn_O, app_nil_r.
    apply (cut_front cp ty content) with (main := main) (mid := mid); eauto.
Qed.

(** ** Data loss in Coroutine mode *)

(** A writer with 130-byte blocks, and an array of a short string and of an array
    that holds a string of 122 zero bytes. *)
Definition lossy_cfg : cfg :=
  {| little := true; ndebug := false; char_signed := true; split_block_size := 130; iter := fun _ _ _ l => rev l |}.
Definition lossy_value : value := VArr [VArr [VScalar (VStr (repeat x00 122))]; VScalar (VStr (str [65]))].
Definition lossy_obj : obj := OArray p0 2 [data_of_string (str [65]); OArray p0 1 [data_of_string (repeat x00 122)]].

(** C12 fails worst here: the document is cut by its last byte (of the split table),
    and the Coroutine reader returns an array of one element instead of two, without
    any error; nor does it agree with the sequential reader.  (It relies on the byte
    behind the buffer, the terminating zero of a [std::string], and does not check
    that the blocks it followed cover the body.) *)
Theorem C12_silent_loss_refuted :
  exists content full lost,
    sane lossy_cfg /\ denotes no_mem lossy_obj lossy_value /\ distinct_keys lossy_value /\
    Serialize lossy_cfg no_mem NORMAL p0 lossy_obj = Ok content /\
    Parse lossy_cfg 200 content 7 p1 par_own = Ok full /\
    Parse lossy_cfg 200 (removelast content) 7 p1 par_own = Ok lost /\
    api_seen no_mem full [] = Ok (SeenArray 2) /\ api_seen no_mem lost [] = Ok (SeenArray 1).
Proof.
  exists (bytes_of (Serialize lossy_cfg no_mem NORMAL p0 lossy_obj)).
  eexists. eexists. split; [|split; [|split; [|split; [vm_compute; reflexivity|]]]].
  - split; [reflexivity|]. intros. symmetry. apply Permutation_rev.
  - repeat (first [ apply den_array | apply den_data | apply dd_str | apply Forall2_cons | apply Forall2_nil | reflexivity ]).
  - unfold lossy_value. repeat (first [ apply dk_arr | apply dk_scalar | apply Forall_cons | apply Forall_nil ]).
  - split; [vm_compute; reflexivity|]. split; [vm_compute; reflexivity|]. split; vm_compute; reflexivity.
Qed.

(** ** The hypotheses are met *)

Example C71_met : complete (sample_doc x86_debug REPLACE) /\ complete (hdr 17 0 0 ++ str [1; 0; 4] ++ root_key ++ str [1; 0; 9; 9]) /\
  exists o, Parse tiny_big_endian 200 (sample_doc x86_debug REPLACE ++ str [255; 255; 255]) 7 p1 par_ref = Ok o /\ o <> ONull.
Proof.
  split; [|split].
  - eapply (serialized_complete x86_debug no_mem REPLACE p0 sample sample_value); [apply x86_debug_sane|apply sample_denotes|
      apply sample_serialized; cbn; tauto|vm_compute; reflexivity].
  - left. exists (hdr 17 0 0 ++ str [1; 0; 4] ++ root_key), (str [0]), (str [1] ++ str [0]), (str [9; 9]).
    split; [reflexivity|]. split; [vm_compute; reflexivity|]. split; [vm_compute; reflexivity|]. constructor. vm_compute. reflexivity.
  - eexists. vm_compute. split; [reflexivity|discriminate].
Qed.

(** A table of garbage of the right shape, and a cut table: accepted, same object.
    A cut that is accepted (C12). *)
Example C72_met : let content := sample_doc tiny NORMAL in
  let front := firstn 82 content in
  exists o, Parse x86_debug 200 content 7 p1 seq_own = Ok o /\ Parse x86_debug 200 (front ++ str [1; 0]) 7 p1 seq_own = Ok o /\
    Parse x86_debug 200 (front ++ str [6; 2; 7; 1; 9; 8; 0]) 7 p1 seq_own = Ok o /\ o <> ONull.
Proof. eexists. vm_compute. split; [reflexivity|]. split; [reflexivity|]. split; [reflexivity|discriminate]. Qed.
