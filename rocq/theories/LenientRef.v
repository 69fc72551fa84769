(** * The in-place parser on the documents of Lenient.v. *)
From Verif Require Import Base BaseLemmas ModelVarint ModelData ModelSecondary ModelObject
  ModelParse ModelWrapper Spec VarintProofs Wire Lenient NumProofs SeriProofs ObjInd ParseLemmas NormalProofs
  GeneralProofs DocProofs PropDocument FrameProofs LenientProofs.
From Coq Require Import ZifyBool ZifyNat ZifyN.

(** Does a value contain custom data? *)
Fixpoint has_custom (v : value) : bool :=
  match v with
  | VScalar (VCustom _) => true
  | VScalar _ => false
  | VArr l => existsb has_custom l
  | VMap l => existsb (fun e => has_custom (snd e)) l
  end.

Lemma rvint_pos n b : vint n b -> (1 <= length b)%nat.
Proof. intros (m & Hg & _). apply groups_pos in Hg. unfold len in Hg. lia. Qed.

Section Ref.
  Variable E : penv.
  Variable get : N -> outcome view.
  Variable D : option (N -> option bytes).
  Variable p : pool.
  Variable mem : memory.
  Notation R := (b_env E).
  Notation content := (r_content (b_env E)).
  Notation strict := (negb (ndebug (r_cfg (b_env E)))).
  Hypothesis Hbase : r_base R = 0.
  Hypothesis Hsize : r_size R = len content.
  Hypothesis Hlim : lim (r_cfg R) (len content).
  Hypothesis Hmap : b_map E = match D with Some _ => true | None => false end.
  Hypothesis Hget : forall d id s, D = Some d -> d id = Some s -> exists v, get id = Ok v /\ read_local R v = Ok s /\ v_buf v = b_buf E.
  Hypothesis Hmem : mem (b_buf E) = Some content.

  Lemma rcheck_skip i n : i + n <= len content ->
    check_oor R (skip n (at_ i)) = Ok tt /\ add_off n (skip n (at_ i)) = at_ (i + n).
  Proof.
    intros H. rewrite (skip_at R) by (rewrite ?Hsize; auto). rewrite ParseLemmas.check_oor_ok by (cbn; rewrite Hsize; lia).
    rewrite (add_off_at R) by (rewrite ?Hsize; auto). auto.
  Qed.

  Lemma data_ref i x b : lscalar strict D x b -> stands content i b -> i + len b < len content ->
    if has_custom (VScalar x) then run get (Data_valueParse E true (at_ i)) = Throw ERuntime
    else exists o, run get (Data_valueParse E true (at_ i)) = Ok (o, at_ (i + len b)) /\ denotes mem o (VScalar x).
  Proof.
    intros Hx Hs Hl.
    (* a spelled-out payload *)
    assert (Hpay : forall d l s q, b = n2b d :: l ++ s -> d < 256 -> valid_data_type d = true -> ((d =? BRIDGE_STRING) && b_map E = false) ->
      vint (len s) l -> (forall a, read_range content a (len s) = Ok s -> parseData_view (r_cfg R) content (b_buf E) d a (len s) = q a) ->
      exists a, read_range content a (len s) = Ok s /\
      run get (Data_valueParse E true (at_ i)) = obind (q a) (fun d' => Ok (ODataView d d', at_ (i + len b)))).
    { intros d l s q -> Hd Hv Hm Hvl Hp. change (n2b d :: l ++ s) with ([n2b d] ++ l ++ s) in Hs.
      rewrite len_cons, len_app in Hl.
      unfold Data_valueParse. rewrite run_bind, run_lift.
      rewrite (parseDataType_complete E Hbase Hsize Hlim i (n2b d)) by (eapply stands_l; exact Hs). cbn [obind].
      rewrite b2n_n2b by exact Hd. rewrite Hv, Hm. cbn [negb]. rewrite run_bind, run_lift.
      pose proof (stands_r _ _ _ _ Hs) as Hs1. rewrite len_cons, len_nil in Hs1. replace (i + (1 + 0)) with (i + 1) in Hs1 by lia.
      rewrite (parseLength_complete E Hbase Hsize Hlim (i + 1) (len s) l) by (auto; eapply stands_l; exact Hs1). cbn [obind].
      rewrite run_bind, run_lift. rewrite curAddr_at by (rewrite Hsize; lia). cbn [obind]. rewrite Hbase, N.add_0_l.
      apply stands_r in Hs1. pose proof (read_range_stands _ _ _ Hs1) as Hr. exists (i + 1 + len l). split; [exact Hr|].
      rewrite run_bind, run_lift, (Hp _ Hr). destruct (q (i + 1 + len l)); try reflexivity. cbn [obind].
      rewrite run_bind, run_lift. destruct (rcheck_skip (i + 1 + len l) (len s)) as [C1 C2]; [lia|]. rewrite C1. cbn [obind run]. rewrite C2.
      rewrite len_cons, len_app. do 3 f_equal. lia. }
    destruct Hx as [s b Hb|s l Hv|s l Hv|t m l Hv Hm Hst]; cbn [has_custom].
    - destruct Hb as [s l HD Hv|d id s l HD Hv Hd].
      + destruct (Hpay BRIDGE_STRING l s (fun a => Ok (SView {| v_buf := b_buf E; v_off := a; v_len := len s |}))) as (a & Ha & ->); auto; try reflexivity.
        { now rewrite Hmap, HD. }
        cbn [obind]. eexists. split; [reflexivity|]. constructor. constructor. unfold read_view. cbn [v_buf]. rewrite Hmem. exact Ha.
      + change (n2b BRIDGE_STRING :: l) with ([n2b BRIDGE_STRING] ++ l) in Hs. rewrite len_cons in Hl.
        unfold Data_valueParse. rewrite run_bind, run_lift.
        rewrite (parseDataType_complete E Hbase Hsize Hlim i (n2b BRIDGE_STRING)) by (eapply stands_l; exact Hs). cbn [obind].
        change (b2n (n2b BRIDGE_STRING)) with BRIDGE_STRING. rewrite Hmap, HD.
        change (negb (valid_data_type BRIDGE_STRING)) with false. change ((BRIDGE_STRING =? BRIDGE_STRING) && true) with true. cbv iota.
        rewrite run_bind, run_lift. apply stands_r in Hs. change (len [n2b BRIDGE_STRING]) with 1 in Hs.
        rewrite (parseLength_complete E Hbase Hsize Hlim (i + 1) id l) by auto. cbn [obind run].
        destruct (Hget d (id mod 2 ^ 32) s HD Hd) as (v & G1 & G2 & G3). change (u32 id) with (id mod 2 ^ 32). rewrite G1. cbn [obind].
        cbn [run]. rewrite len_cons. eexists. split; [do 3 f_equal; lia|]. constructor. constructor. unfold read_view. rewrite G3, Hmem. exact G2.
    - destruct (Hpay BRIDGE_BYTES l s (fun a => Ok (SView {| v_buf := b_buf E; v_off := a; v_len := len s |}))) as (a & Ha & ->); auto; try reflexivity.
      cbn [obind]. eexists. split; [reflexivity|]. constructor. constructor. unfold read_view. cbn [v_buf]. rewrite Hmem. exact Ha.
    - destruct (Hpay BRIDGE_CUSTOM l s (fun a => Throw ERuntime)) as (a & Ha & ->); auto; try reflexivity.
    - change width with sizeof_num in *. destruct (dt_of_num_not_blob t) as (E1 & E2 & E3 & E4 & E5 & E6).
      set (n := big_endian (m ++ repeat x00 (N.to_nat (sizeof_num t - len m)))).
      assert (Hlm : len (m ++ repeat x00 (N.to_nat (sizeof_num t - len m))) = sizeof_num t).
      { rewrite len_app. unfold len at 2. rewrite repeat_length. lia. }
      destruct (Hpay (dt_of_num t) l m (fun a => Ok (SNum t n))) as (a & Ha & ->); auto.
      + destruct t; reflexivity.
      + now rewrite E3.
      + intros a Ha. unfold parseData_view. rewrite E1, E3. cbn [orb]. rewrite E4. unfold parse_num.
        replace (strict && negb (sizeof_num t =? len m)) with false.
        2:{ destruct (ndebug (r_cfg R)); [reflexivity|]. cbn. rewrite (Hst eq_refl), N.eqb_refl. reflexivity. }
        replace (sizeof_num t <? len m) with false by lia. rewrite Ha. cbn [obind]. rewrite num_of_wire_any by exact Hlm. reflexivity.
      + cbn [obind]. eexists. split; [reflexivity|]. constructor. constructor. unfold num_ok. fold n. pose proof (big_endian_bound (m ++ repeat x00 (N.to_nat (sizeof_num t - len m)))) as Hb. rewrite Hlm in Hb. exact Hb.
  Qed.

  Lemma key_ref i k kb : lstr D k kb -> stands content i kb -> i + len kb < len content ->
    exists kv, run get (parse_key E (at_ i)) = Ok (kv, at_ (i + len kb)) /\ read_view mem kv = Ok k.
  Proof.
    intros Hk Hs Hl. unfold parse_key. rewrite Hmap. destruct Hk as [s l HD Hv|d id s l HD Hv Hd]; rewrite HD.
    - rewrite len_app in Hl. rewrite run_bind, run_lift.
      rewrite (parseLength_complete E Hbase Hsize Hlim i (len s) l) by (auto; eapply stands_l; exact Hs). cbn [obind].
      rewrite run_bind, run_lift. rewrite curAddr_at by (rewrite Hsize; lia). cbn [obind]. rewrite Hbase, N.add_0_l.
      apply stands_r in Hs. rewrite run_bind, run_lift. destruct (rcheck_skip (i + len l) (len s)) as [C1 C2]; [lia|]. rewrite C1. cbn [obind run]. rewrite C2.
      eexists. rewrite len_app, N.add_assoc. split; [reflexivity|]. unfold read_view. cbn. rewrite Hmem. now apply read_range_stands.
    - rewrite run_bind, run_lift. rewrite (parseLength_complete E Hbase Hsize Hlim i id l) by auto. cbn [obind run].
      destruct (Hget d (id mod 2 ^ 32) s HD Hd) as (v & G1 & G2 & G3). change (u32 id) with (id mod 2 ^ 32). rewrite G1. cbn [obind run].
      exists v. split; [reflexivity|]. unfold read_view. now rewrite G3, Hmem.
  Qed.

  Notation lelem := (lelem E D).
  Notation lentry := (lentry E D).

  Lemma values_ref fuel :
    (forall v b i, lwire strict D v b -> stands content i b -> i + len b < len content -> (length b <= fuel)%nat ->
       if has_custom v then run get (valueParse E p true fuel (type_of v) (at_ i)) = Throw ERuntime
       else exists o, run get (valueParse E p true fuel (type_of v) (at_ i)) = Ok (o, at_ (i + len b)) /\ denotes mem o (mirror v)) /\
    (forall vs chunks i acc, Forall2 lelem vs chunks -> stands content i (concat chunks) -> i + len (concat chunks) < len content ->
       (length (concat chunks) + 1 <= fuel)%nat ->
       if existsb has_custom vs then run get (array_loop E p true fuel (len vs) (at_ i) acc) = Throw ERuntime
       else exists os, run get (array_loop E p true fuel (len vs) (at_ i) acc) = Ok (rev os ++ acc, at_ (i + len (concat chunks))) /\
         Forall2 (fun o v => denotes mem o (mirror v)) os vs) /\
    (forall vs chunks i acc, Forall2 lentry vs chunks -> stands content i (concat chunks) -> i + len (concat chunks) < len content ->
       (length (concat chunks) + 1 <= fuel)%nat ->
       if existsb (fun e => has_custom (snd e)) vs then run get (mapview_loop E p true fuel (len vs) (at_ i) acc) = Throw ERuntime
       else exists os, run get (mapview_loop E p true fuel (len vs) (at_ i) acc) = Ok (rev os ++ acc, at_ (i + len (concat chunks))) /\
         Forall2 (fun o e => read_view mem (fst o) = Ok (fst e) /\ denotes mem (snd o) (mirror (snd e))) os vs).
  Proof.
    induction fuel as [|f (IHv & IHa & IHm)].
    { split; [|split; intros; lia]. intros v b i Hw _ _ Hf. exfalso. destruct Hw as [x b Hx|l cnt id n chunks Hc _ _|l cnt id n chunks Hc _ _].
      - destruct Hx; cbn in Hf; lia.
      - apply rvint_pos in Hc. rewrite app_length in Hf. lia.
      - apply rvint_pos in Hc. rewrite app_length in Hf. lia. }
    split; [|split].
    - intros v b i Hw Hs Hl Hf. destruct Hw as [x b Hx|l cnt id n chunks Hc Hi HF|l cnt id n chunks Hc Hi HF]; cbn [type_of valueParse].
      + now apply data_ref.
      + rewrite !len_app in Hl. rewrite !app_length in Hf. pose proof (rvint_pos _ _ Hc). pose proof (rvint_pos _ _ Hi).
        rewrite run_bind, run_lift. rewrite (parseLength_complete E Hbase Hsize Hlim i (len l) cnt) by (auto; eapply stands_l; exact Hs). cbn [obind].
        apply stands_r in Hs. rewrite run_bind, run_lift. rewrite (parseLength_complete E Hbase Hsize Hlim _ n id) by (auto; eapply stands_l; exact Hs). cbn [obind].
        apply stands_r in Hs. rewrite run_bind. rewrite <- (len_rev l).
        assert (Hx : existsb has_custom l = existsb has_custom (rev l)).
        { apply eq_true_iff_eq. rewrite !existsb_exists. split; intros (y & Hy & Hc'); exists y; (split; [apply in_rev; rewrite ?rev_involutive; exact Hy|exact Hc']). }
        specialize (IHa (rev l) chunks (i + len cnt + len id) [] HF Hs ltac:(lia) ltac:(lia)).
        cbn [has_custom]. rewrite Hx. destruct (existsb has_custom (rev l)).
        { now rewrite IHa. }
        destruct IHa as (os & -> & HFo). cbn [obind run]. rewrite !len_app, app_nil_r, rev_involutive.
        eexists. split; [do 3 f_equal; lia|]. cbn [mirror]. constructor; [now rewrite (len_Forall2 _ _ _ HFo)|].
        rewrite <- map_rev. clear -HFo. induction HFo; cbn; constructor; auto.
      + rewrite !len_app in Hl. rewrite !app_length in Hf. pose proof (rvint_pos _ _ Hc). pose proof (rvint_pos _ _ Hi).
        rewrite run_bind, run_lift. rewrite (parseLength_complete E Hbase Hsize Hlim i (len l) cnt) by (auto; eapply stands_l; exact Hs). cbn [obind].
        apply stands_r in Hs. rewrite run_bind, run_lift. rewrite (parseLength_complete E Hbase Hsize Hlim _ n id) by (auto; eapply stands_l; exact Hs). cbn [obind].
        apply stands_r in Hs. rewrite run_bind.
        specialize (IHm l chunks (i + len cnt + len id) [] HF Hs ltac:(lia) ltac:(lia)).
        cbn [has_custom]. destruct (existsb _ l).
        { now rewrite IHm. }
        destruct IHm as (os & -> & HFo). cbn [obind run]. rewrite !len_app, app_nil_r.
        eexists. split; [do 3 f_equal; lia|]. cbn [mirror]. constructor; [now rewrite len_rev, (len_Forall2 _ _ _ HFo)|].
        apply Forall2_rev. clear -HFo. induction HFo as [|a b l w [H1 H2]]; cbn; constructor; auto.
    - intros vs chunks i acc HF Hs Hl Hf. cbn [array_loop]. destruct HF as [|v ch vs chunks (t & b & Hw & Ht & ->) HF].
      { cbn. exists []. rewrite N.add_0_r. split; [reflexivity|constructor]. }
      rewrite len_cons. replace (1 + len vs =? 0) with false by lia. cbn [concat] in *. rewrite len_app, len_cons in Hl.
      rewrite app_length in Hf. cbn [length] in Hf. change (t :: b) with ([t] ++ b) in Hs. rewrite <- app_assoc in Hs.
      rewrite run_bind, run_lift. rewrite (parseObjectType_complete E Hbase Hsize Hlim i t (type_of v)) by (auto; eapply stands_l; exact Hs). cbn [obind].
      apply stands_r in Hs. change (len [t]) with 1 in Hs.
      specialize (IHv v b (i + 1) Hw ltac:(eapply stands_l; exact Hs) ltac:(lia) ltac:(lia)).
      rewrite run_bind. cbn [existsb]. destruct (has_custom v); cbn [orb]; [now rewrite IHv|]. destruct IHv as (o & -> & Ho). cbn [obind].
      apply stands_r in Hs. replace (1 + len vs - 1) with (len vs) by lia.
      specialize (IHa vs chunks (i + 1 + len b) (o :: acc) HF Hs ltac:(lia) ltac:(lia)). destruct (existsb has_custom vs); [exact IHa|].
      destruct IHa as (os & -> & HFo). exists (o :: os). split; [|now constructor].
      rewrite len_app, len_cons. cbn [rev]. rewrite <- app_assoc. cbn [app]. do 3 f_equal. lia.
    - intros vs chunks i acc HF Hs Hl Hf. cbn [mapview_loop]. destruct HF as [|[k v] ch vs chunks (kb & t & b & Hk & Hw & Ht & ->) HF].
      { cbn. exists []. rewrite N.add_0_r. split; [reflexivity|constructor]. }
      cbn [fst snd] in *. rewrite len_cons. replace (1 + len vs =? 0) with false by lia. cbn [concat] in *. rewrite !len_app, len_cons in Hl.
      rewrite !app_length in Hf. cbn [length] in Hf. change (t :: b) with ([t] ++ b) in Hs. rewrite <- !app_assoc in Hs.
      rewrite run_bind. destruct (key_ref i k kb Hk) as (kv & K1 & K2); [eapply stands_l; exact Hs|lia|]. rewrite K1. cbn [obind].
      apply stands_r in Hs. rewrite run_bind, run_lift.
      rewrite (parseObjectType_complete E Hbase Hsize Hlim _ t (type_of v)) by (auto; eapply stands_l; exact Hs). cbn [obind].
      apply stands_r in Hs. change (len [t]) with 1 in Hs.
      specialize (IHv v b (i + len kb + 1) Hw ltac:(eapply stands_l; exact Hs) ltac:(lia) ltac:(lia)).
      rewrite run_bind. cbn [existsb snd]. destruct (has_custom v); cbn [orb]; [now rewrite IHv|]. destruct IHv as (o & -> & Ho). cbn [obind].
      apply stands_r in Hs. replace (1 + len vs - 1) with (len vs) by lia.
      specialize (IHm vs chunks (i + len kb + 1 + len b) ((kv, o) :: acc) HF Hs ltac:(lia) ltac:(lia)). destruct (existsb _ vs); [exact IHm|].
      destruct IHm as (os & -> & HFo). exists ((kv, o) :: os). split; [|constructor; auto].
      rewrite !len_app, len_cons. cbn [rev]. rewrite <- app_assoc. cbn [app]. do 3 f_equal. lia.
  Qed.
End Ref.

Lemma read_range_in content i n : i + n <= len content -> exists s, read_range content i n = Ok s.
Proof. intros H. unfold read_range. destruct (n =? 0); [eauto|]. replace (i + n <=? len content + 1) with true by lia. eauto. Qed.

(** ** What the in-place parser accepts, when no length field is near 2^64 *)
Section RefSound.
  Variable E : penv.
  Variable get : N -> outcome view.
  Variable D : option (N -> option bytes).
  Variable p : pool.
  Notation R := (b_env E).
  Notation content := (r_content (b_env E)).
  Notation strict := (negb (ndebug (r_cfg (b_env E)))).
  Hypothesis Hbase : r_base R = 0.
  Hypothesis Hsize : r_size R = len content.
  Hypothesis Hlim : lim (r_cfg R) (len content).
  Hypothesis Hmap : b_map E = match D with Some _ => true | None => false end.
  Hypothesis Hget : forall d id v, D = Some d -> get id = Ok v -> exists s, read_local R v = Ok s /\ d id = Some s.
  Hypothesis Htame : forall s n s', parseLength R s = Ok (n, s') -> n < 2 ^ 63.

  Ltac step H := rewrite run_bind, ?run_lift in H; apply obind_ok in H as (? & ? & H).

  (** A length that passes the check does not make the cursor wrap. *)
  Lemma rpayload i n s' : i < len content -> n < 2 ^ 63 -> check_oor R (skip n (at_ i)) = Ok s' ->
    exists sx, read_range content i n = Ok sx /\ stands content i sx /\ len sx = n /\ add_off n (skip n (at_ i)) = at_ (i + n) /\ i + n <= len content.
  Proof using get Hbase Hsize Hlim.
    clear Htame Hget Hmap. intros Hi Hn Ho. pose proof (HW E Hlim) as HW.
    assert (Hin : i + n <= len content).
    { pose proof Ho as Ho'. unfold check_oor in Ho'. cbn [skip idx at_] in Ho'. change (2 ^ 63) with 9223372036854775808 in Hn.
      rewrite u64_small in Ho' by (rewrite W64_val; lia). rewrite Hsize in Ho'. destruct (N.ltb_spec (len content) (i + n)); [discriminate|assumption]. }
    destruct (read_range_in _ _ _ Hin) as (sx & Hr). exists sx. split; [exact Hr|].
    eapply payload; eauto. change (2 ^ 64) with 18446744073709551616. lia.
  Qed.

  Lemma data_ref_sound i o s : i <= len content -> run get (Data_valueParse E true (at_ i)) = Ok (o, s) ->
    exists x b, lscalar strict D x b /\ stands content i b /\ s = at_ (i + len b) /\ i + len b <= len content /\
      has_custom (VScalar x) = false.
  Proof.
    intros Hi H. unfold Data_valueParse in H. step H. destruct x as [dt s1].
    destruct (parseDataType_sound E Hbase Hsize Hlim i dt s1 Hi H0) as (x & Hx & -> & -> & Hi1). clear H0.
    destruct (valid_data_type (b2n x)) eqn:Hv; cbn [negb] in H; [|discriminate].
    assert (Hnx : n2b (b2n x) = x) by apply n2b_b2n.
    destruct ((b2n x =? BRIDGE_STRING) && b_map E) eqn:Hd.
    - apply andb_true_iff in Hd as [Hd Hm]. apply N.eqb_eq in Hd. rewrite Hmap in Hm. destruct D as [d|] eqn:HD; [|discriminate].
      step H. destruct x0 as [id s2]. destruct (parseLength_sound E Hbase Hsize Hlim _ _ _ Hi1 H0) as (b & Hvb & Hsb & -> & Hb). clear H0.
      cbn [run] in H. apply obind_ok in H as (v & Hgv & H). cbn [run] in H. injection H as <- <-.
      destruct (Hget d _ _ eq_refl Hgv) as (sx & _ & Hdx).
      exists (VStr sx), (x :: b). split.
      + replace x with (n2b BRIDGE_STRING) by congruence. constructor. apply ls_dict with (d := d) (id := id); auto.
      + split; [apply stands_cons; [exact Hx|exact Hsb]|]. rewrite len_cons.
        split; [f_equal; lia|]. split; [lia|reflexivity].
    - step H. destruct x0 as [size s2]. pose proof (Htame _ _ _ H0) as Hsz.
      destruct (parseLength_sound E Hbase Hsize Hlim _ _ _ Hi1 H0) as (b & Hvb & Hsb & -> & Hb). clear H0.
      step H. apply (curAddr_inv E Hbase Hsize Hlim) in H0 as [-> Hlt]. step H. step H. cbn [run] in H.
      destruct (rpayload _ _ _ Hlt Hsz H1) as (sx & Hr & P1 & P2 & P3 & P4). rewrite P3 in H. injection H as <- <-.
      assert (Hres : forall y, lscalar strict D y (x :: b ++ sx) -> has_custom (VScalar y) = false ->
        exists y bb, lscalar strict D y bb /\ stands content i bb /\ at_ (i + 1 + len b + size) = at_ (i + len bb) /\ i + len bb <= len content /\ has_custom (VScalar y) = false).
      { intros y Hy Hc. exists y, (x :: b ++ sx). split; [exact Hy|].
        split. { apply stands_cons; [exact Hx|]. apply stands_app; [exact Hsb|exact P1]. }
        rewrite len_cons, len_app, P2. split; [f_equal; lia|]. split; [lia|exact Hc]. }
      unfold parseData_view in H0.
      destruct (valid_cases _ Hv) as [Hc|[Hc|[Hc|(t & Ht & Hc)]]].
      + apply (Hres (VBytes sx)); [|reflexivity]. replace x with (n2b BRIDGE_BYTES) by congruence. constructor. rewrite P2. exact Hvb.
      + apply (Hres (VStr sx)); [|reflexivity]. replace x with (n2b BRIDGE_STRING) by congruence.
        constructor. rewrite Hc in Hd. cbn in Hd. rewrite Hmap in Hd. destruct D; [discriminate|]. constructor; [reflexivity|].
        rewrite P2. exact Hvb.
      + rewrite Hc in H0. cbn in H0. discriminate.
      + assert (Hx0 : parse_num (r_cfg R) content t (i + 1 + len b) size = Ok x0).
        { destruct (dt_of_num_not_blob t) as (E1 & E2 & E3 & E4 & E5 & E6). rewrite Hc, E1, E3 in H0. cbn [orb] in H0.
          rewrite <- Hc, Ht in H0. exact H0. }
        clear H0. unfold parse_num in Hx0. destruct (strict && _) eqn:Hst; [discriminate|].
        destruct (N.ltb_spec (sizeof_num t) size) as [|Hle]; [discriminate|].
        eapply (Hres (VNum t _)); [|reflexivity].
        replace x with (n2b (dt_of_num t)) by congruence. apply (lx_num strict D t sx b); change width with sizeof_num; [rewrite P2; exact Hvb|lia|].
        intros Hs'. rewrite Hs' in Hst. cbn in Hst. lia.
  Qed.

  Notation lelem := (lelem E D).
  Notation lentry := (lentry E D).

  Lemma key_ref_sound i kv s1 : i <= len content -> run get (parse_key E (at_ i)) = Ok (kv, s1) ->
    exists key kb, lstr D key kb /\ stands content i kb /\ s1 = at_ (i + len kb) /\ i + len kb <= len content.
  Proof.
    intros Hi H. unfold parse_key in H. rewrite Hmap in H. destruct D as [d|] eqn:HD.
    - step H. destruct x as [id s2]. destruct (parseLength_sound E Hbase Hsize Hlim _ _ _ Hi H0) as (b & Hvb & Hsb & -> & Hb).
      cbn [run] in H. apply obind_ok in H as (v & Hgv & [= <- <-]). destruct (Hget d _ _ eq_refl Hgv) as (sx & _ & Hdx). exists sx, b. split; [|auto].
      apply ls_dict with (d := d) (id := id); auto.
    - step H. destruct x as [n s2]. pose proof (Htame _ _ _ H0) as Hsz.
      destruct (parseLength_sound E Hbase Hsize Hlim _ _ _ Hi H0) as (b & Hvb & Hsb & -> & Hb).
      step H. apply (curAddr_inv E Hbase Hsize Hlim) in H1 as [-> Hlt]. step H. cbn [run] in H. injection H as <- <-.
      destruct (rpayload _ _ _ Hlt Hsz H1) as (sx & Hr & P1 & P2 & P3 & P4).
      exists sx, (b ++ sx). split; [constructor; [reflexivity|rewrite P2; exact Hvb]|].
      split; [now apply stands_app|]. rewrite P3, len_app, P2. split; [f_equal; lia|lia].
  Qed.

  Lemma values_ref_sound fuel :
    (forall t i o s, i <= len content -> run get (valueParse E p true fuel t (at_ i)) = Ok (o, s) ->
       exists v b, type_of v = t /\ lwire strict D v b /\ stands content i b /\ s = at_ (i + len b) /\ i + len b <= len content /\
         has_custom v = false) /\
    (forall n i acc os s, i <= len content -> run get (array_loop E p true fuel n (at_ i) acc) = Ok (os, s) ->
       exists vs chunks, len vs = n /\ Forall2 lelem vs chunks /\ stands content i (concat chunks) /\ s = at_ (i + len (concat chunks)) /\
         i + len (concat chunks) <= len content /\ existsb has_custom vs = false) /\
    (forall n i acc os s, i <= len content -> run get (mapview_loop E p true fuel n (at_ i) acc) = Ok (os, s) ->
       exists vs chunks, len vs = n /\ Forall2 lentry vs chunks /\ stands content i (concat chunks) /\ s = at_ (i + len (concat chunks)) /\
         i + len (concat chunks) <= len content /\ existsb (fun e => has_custom (snd e)) vs = false).
  Proof.
    induction fuel as [|f (IHv & IHa & IHm)]; [split; [|split]; intros; discriminate|].
    split; [|split].
    - intros t i o s Hi H. cbn [valueParse] in H. destruct t.
      + destruct (data_ref_sound i o s Hi H) as (x & b & Hx & Hs & -> & Hl & Hc). exists (VScalar x), b.
        split; [reflexivity|]. split; [now constructor|]. auto.
      + step H. destruct x as [n s1]. destruct (parseLength_sound E Hbase Hsize Hlim _ _ _ Hi H0) as (cnt & Hvc & Hsc & -> & Hc). clear H0.
        step H. destruct x as [id s2]. destruct (parseLength_sound E Hbase Hsize Hlim _ _ _ Hc H0) as (idb & Hvi & Hsi & -> & Hib). clear H0.
        step H. destruct x as [items s3]. cbn [run] in H. injection H as <- <-.
        apply IHm in H0 as (vs & chunks & Hn & HF & Hst & -> & Hl & Hx); [|exact Hib].
        exists (VMap vs), (cnt ++ idb ++ concat chunks). split; [reflexivity|]. split.
        { apply lw_map with (i := id); [rewrite Hn; exact Hvc|exact Hvi|exact HF]. }
        split; [apply stands_app; [exact Hsc|apply stands_app; [exact Hsi|exact Hst]]|].
        rewrite !len_app. split; [f_equal; lia|]. split; [lia|exact Hx].
      + step H. destruct x as [n s1]. destruct (parseLength_sound E Hbase Hsize Hlim _ _ _ Hi H0) as (cnt & Hvc & Hsc & -> & Hc). clear H0.
        step H. destruct x as [id s2]. destruct (parseLength_sound E Hbase Hsize Hlim _ _ _ Hc H0) as (idb & Hvi & Hsi & -> & Hib). clear H0.
        step H. destruct x as [items s3]. cbn [run] in H. injection H as <- <-.
        apply IHa in H0 as (vs & chunks & Hn & HF & Hst & -> & Hl & Hx); [|exact Hib].
        exists (VArr (rev vs)), (cnt ++ idb ++ concat chunks). split; [reflexivity|]. split.
        { apply lw_arr with (i := id); [rewrite len_rev, Hn; exact Hvc|exact Hvi|rewrite rev_involutive; exact HF]. }
        split; [apply stands_app; [exact Hsc|apply stands_app; [exact Hsi|exact Hst]]|].
        rewrite !len_app. split; [f_equal; lia|]. split; [lia|]. cbn [has_custom].
        apply not_true_iff_false. intros Hy. apply existsb_exists in Hy as (y & Hy & Hyc). apply in_rev in Hy.
        apply not_true_iff_false in Hx. apply Hx. apply existsb_exists. eauto.
    - intros n i acc os s Hi H. cbn [array_loop] in H. destruct (N.eqb_spec n 0) as [->|Hn].
      + cbn [run] in H. injection H as <- <-. exists [], []. split; [reflexivity|]. split; [constructor|].
        split; [now apply stands_nil|]. cbn. rewrite N.add_0_r. auto.
      + step H. destruct x as [t s1]. destruct (parseObjectType_sound E Hbase Hsize Hlim _ _ _ Hi H0) as (tg & Htg & Ht & -> & Hi1). clear H0.
        rewrite run_bind in H. apply obind_ok in H as ([o s2] & Hv & H).
        apply IHv in Hv as (v & b & Hty & Hw & Hs & -> & Hl & Hc); [|exact Hi1].
        apply IHa in H as (vs & chunks & Hn' & HF & Hst & -> & Hl' & Hc'); [|exact Hl].
        exists (v :: vs), ((tg :: b) :: chunks). split; [rewrite len_cons; lia|]. split.
        { constructor; [|exact HF]. exists tg, b. split; [exact Hw|]. split; [|reflexivity]. unfold tagged. now rewrite Hty. }
        assert (Hsb : stands content i (tg :: b)) by (now apply stands_cons).
        cbn [concat]. split; [apply stands_app; [exact Hsb|rewrite len_cons; replace (i + (1 + len b)) with (i + 1 + len b) by lia; exact Hst]|].
        rewrite len_app, len_cons. split; [f_equal; lia|]. split; [lia|]. cbn [existsb]. now rewrite Hc.
    - intros n i acc os s Hi H. cbn [mapview_loop] in H. destruct (N.eqb_spec n 0) as [->|Hn].
      + cbn [run] in H. injection H as <- <-. exists [], []. split; [reflexivity|]. split; [constructor|].
        split; [now apply stands_nil|]. cbn. rewrite N.add_0_r. auto.
      + rewrite run_bind in H. apply obind_ok in H as ([kv s1] & Hk & H).
        step H. destruct x as [t s2]. rewrite run_bind in H. apply obind_ok in H as ([o s3] & Hv & H).
        destruct (key_ref_sound i kv s1 Hi Hk) as (key & kb & Hkb & Hks & -> & Hkl).
        destruct (parseObjectType_sound E Hbase Hsize Hlim _ _ _ Hkl H0) as (tg & Htg & Ht & -> & Hi1). clear H0.
        apply IHv in Hv as (v & b & Hty & Hw & Hs & -> & Hl & Hc); [|exact Hi1].
        apply IHm in H as (vs & chunks & Hn' & HF & Hst & -> & Hl' & Hc'); [|exact Hl].
        exists ((key, v) :: vs), ((kb ++ tg :: b) :: chunks). split; [rewrite len_cons; lia|]. split.
        { constructor; [|exact HF]. exists kb, tg, b. split; [exact Hkb|]. split; [exact Hw|]. split; [|reflexivity]. unfold tagged. cbn. now rewrite Hty. }
        assert (Hsb : stands content i (kb ++ tg :: b)) by (apply stands_app; [exact Hks|now apply stands_cons]).
        cbn [concat]. split; [apply stands_app; [exact Hsb|rewrite len_app, len_cons; replace (i + (len kb + (1 + len b))) with (i + len kb + 1 + len b) by lia; exact Hst]|].
        rewrite !len_app, len_cons. split; [f_equal; lia|]. split; [lia|]. cbn [existsb snd]. now rewrite Hc.
  Qed.
End RefSound.
