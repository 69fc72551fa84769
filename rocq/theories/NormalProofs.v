(** * The sequential parser reads back the value a document encodes. *)
From Verif Require Import Base BaseLemmas ModelVarint ModelData ModelSecondary ModelObject
  ModelParse ModelWrapper Spec VarintProofs Wire NumProofs SeriProofs ObjInd ParseLemmas.
From Coq Require Import ZifyBool ZifyNat ZifyN.

(** A view into the document whose content is [s]. *)
Definition locates (content : bytes) (buf : nat) (v : view) (s : bytes) : Prop :=
  inside buf (len content) v /\ read_range content (v_off v) (v_len v) = Ok s.

(** The dictionary lookup answers as [D] says. *)
Definition answers (content : bytes) (buf : nat) (get : N -> outcome view) (D : dict) : Prop :=
  match D with
  | None => True
  | Some d => forall id s, id < W32 -> d id = Some s ->
                exists v, get id = Ok v /\ locates content buf v s
  end.

Lemma locates_mid A s B buf :
  locates (A ++ s ++ B) buf {| v_buf := buf; v_off := len A; v_len := len s |} s.
Proof.
  split; [|apply read_range_mid]. split; [reflexivity|]. cbn. rewrite !len_app. lia.
Qed.

Section Read.
  Variable E : penv.
  Variable get : N -> outcome view.
  Variable D : dict.
  Variable T : table.
  Variable sz : N.
  Variable mem : memory.
  Notation R := (b_env E).
  Notation content := (r_content (b_env E)).
  Hypothesis Hbase : r_base R = 0.
  Hypothesis Hsize : r_size R = len content.
  Hypothesis Hlim : lim (r_cfg R) (len content).

  Definition vgood (pr : bool) (v : view) : Prop :=
    if pr then inside (b_buf E) (len content) v else False.

  (** The object read back, for the two modes. *)
  Definition reads (pr : bool) (o : obj) (v : value) : Prop :=
    denotes mem o v /\ all_views (vgood pr) o.

  Lemma pl A n B : content = A ++ venc n ++ B -> n < W64 ->
    parseLength R (at_ (len A)) = Ok (n, at_ (len A + len (venc n))).
  Proof.
    intros HC Hn. eapply parseLength_ok; eauto; try (rewrite Hsize; auto).
    - rewrite Hbase; lia.
    - rewrite HC, !len_app. lia.
  Qed.

  Hypothesis Hmap : b_map E = match D with Some _ => true | None => false end.
  Hypothesis Hget : answers content (b_buf E) get D.

  (** A string key. *)
  Lemma parse_key_ok A k kb B :
    content = A ++ kb ++ B -> B <> [] -> str_wire D k kb ->
    exists v, run get (parse_key E (at_ (len A))) = Ok (v, at_ (len A + len kb)) /\
              run get (block_key E (at_ (len A))) = Ok (v, at_ (len A + len kb)) /\
              locates content (b_buf E) v k.
  Proof.
    intros HC HB Hk. unfold parse_key, block_key. rewrite Hmap.
    inversion Hk as [s Hs HD|d id s Hid Hd HD]; subst k kb.
    - rewrite <- app_assoc in HC.
      rewrite !run_bind, !run_lift.
      rewrite (pl A (len s) (s ++ B)) by (auto; rewrite W64_val, W32_val in *; lia).
      cbn [obind]. rewrite !run_bind, !run_lift.
      assert (Hlb : 0 < len B) by (destruct B; [congruence|rewrite len_cons; lia]).
      assert (HLc : len content = len A + (len (venc (len s)) + (len s + len B))).
      { rewrite HC, !len_app. lia. }
      rewrite curAddr_at by (rewrite Hsize; lia). rewrite Hbase. cbn [obind].
      rewrite u32_small by exact Hs.
      rewrite (skip_at R) by (rewrite Hsize; auto; lia).
      rewrite !run_bind, !run_lift. rewrite check_oor_ok by (cbn; rewrite Hsize; lia). cbn [obind].
      rewrite (add_off_at R) by (rewrite Hsize; auto; lia).
      eexists. cbn [run]. rewrite N.add_0_l, len_app, !N.add_assoc.
      split; [reflexivity|]. split; [reflexivity|].
      rewrite HC. replace (A ++ venc (len s) ++ s ++ B) with ((A ++ venc (len s)) ++ s ++ B)
        by (now rewrite <- app_assoc).
      replace (len A + len (venc (len s))) with (len (A ++ venc (len s))) by apply len_app.
      apply locates_mid.
    - rewrite !run_bind, !run_lift.
      rewrite (pl A id B) by (auto; rewrite W64_val, W32_val in *; lia).
      cbn [obind run]. rewrite u32_small by exact Hid.
      rewrite <- HD in Hget. cbn in Hget. destruct (Hget id s Hid Hd) as (v & Hv & Hl). rewrite Hv. cbn.
      exists v. auto.
  Qed.

  Hypothesis Hmem : mem (b_buf E) = Some content.

  Lemma locates_read v s : locates content (b_buf E) v s -> read_view mem v = Ok s.
  Proof. intros [[Hb _] Hr]. unfold read_view. now rewrite Hb, Hmem. Qed.

  Lemma locates_in v s : locates content (b_buf E) v s -> vgood true v.
  Proof. now intros [H _]. Qed.

  Lemma valid_b2n d : d < 128 -> b2n (n2b d) = d.
  Proof. intros; apply b2n_n2b; lia. Qed.

  (** A data node. *)
  Lemma data_ok pr A x b B :
    content = A ++ b ++ B -> B <> [] -> scalar_wire D x b ->
    (pr = true -> forall s, x <> VCustom s) ->
    exists o, run get (Data_valueParse E pr (at_ (len A))) = Ok (o, at_ (len A + len b)) /\
              reads pr o (VScalar x).
  Proof.
    intros HC HB Hx Hcu.
    assert (Hlb : 0 < len B) by (destruct B; [congruence|rewrite len_cons; lia]).
    (* reading a length-prefixed payload *)
    assert (Hpay : forall d s,
      d < 128 -> valid_data_type d = true -> ((d =? BRIDGE_STRING) && b_map E = false) ->
      b = n2b d :: venc (len s) ++ s -> len s < W32 ->
      (forall addr, content = (A ++ n2b d :: venc (len s)) ++ s ++ B -> addr = len (A ++ n2b d :: venc (len s)) ->
         exists q, (if pr then parseData_view (r_cfg R) content (b_buf E) d addr (len s)
                    else parseData (r_cfg R) content d addr (len s)) = Ok q /\
                   reads pr (if pr then ODataView d q else OData d q) (VScalar x)) ->
      exists o, run get (Data_valueParse E pr (at_ (len A))) = Ok (o, at_ (len A + len b)) /\
              reads pr o (VScalar x)).
    { intros d s Hd Hv Hm -> Hs Hread.
      cbn [app] in HC. rewrite <- app_assoc in HC.
      assert (HLc : len content = len A + (1 + (len (venc (len s)) + (len s + len B)))).
      { rewrite HC, !len_app, len_cons, !len_app. lia. }
      unfold Data_valueParse. rewrite run_bind, run_lift.
      rewrite (parseDataType_ok R A (n2b d) (venc (len s) ++ s ++ B)); auto;
        try (rewrite ?Hsize, ?Hbase; auto; lia).
      cbn [obind]. rewrite valid_b2n by exact Hd. rewrite Hv, Hm. cbn [negb].
      rewrite run_bind, run_lift.
      replace (len A + 1) with (len (A ++ [n2b d])) by (rewrite len_app, len_cons, len_nil; lia).
      rewrite (pl (A ++ [n2b d]) (len s) (s ++ B));
        [|rewrite HC; now rewrite <- app_assoc|rewrite W64_val, W32_val in *; lia].
      cbn [obind]. rewrite run_bind, run_lift.
      rewrite curAddr_at by (rewrite Hsize, len_app, len_cons, len_nil; lia). cbn [obind].
      rewrite run_bind, run_lift.
      destruct (Hread (r_base R + (len (A ++ [n2b d]) + len (venc (len s))))) as (q & Hq & Hr).
      { rewrite HC. rewrite <- app_assoc. reflexivity. }
      { rewrite Hbase. autorewrite with len. lia. }
      rewrite Hq. cbn [obind]. rewrite run_bind, run_lift.
      rewrite (skip_at R) by (rewrite ?Hsize, ?len_app, ?len_cons, ?len_nil; auto; lia).
      rewrite check_oor_ok by (cbn [idx]; rewrite ?Hsize, ?len_app, ?len_cons, ?len_nil; lia).
      cbn [obind run].
      rewrite (add_off_at R) by (rewrite ?Hsize, ?len_app, ?len_cons, ?len_nil; auto; lia).
      eexists. split; [|exact Hr].
      rewrite ?len_app, ?len_cons, ?len_nil, ?len_app. do 3 f_equal. lia. }
    assert (Hread : forall d s addr, content = (A ++ n2b d :: venc (len s)) ++ s ++ B ->
              addr = len (A ++ n2b d :: venc (len s)) -> read_range content addr (len s) = Ok s).
    { intros d s addr -> ->. apply read_range_mid. }
    assert (Hview : forall d s addr, content = (A ++ n2b d :: venc (len s)) ++ s ++ B ->
              addr = len (A ++ n2b d :: venc (len s)) ->
              locates content (b_buf E) {| v_buf := b_buf E; v_off := addr; v_len := len s |} s).
    { intros d s addr -> ->. apply locates_mid. }
    destruct Hx as [s b Hs|s Hs|s Hs|t n Hn].
    - inversion Hs as [s' Hs' HD|dd id s' Hid Hd HD]; subst s' b; [rename Hs' into Hsl|].
      + apply (Hpay BRIDGE_STRING s); auto; try reflexivity; [now rewrite Hmap, <- HD|].
        intros addr Ha1 Ha2. destruct pr.
        * eexists; split; [reflexivity|]. pose proof (Hview _ _ _ Ha1 Ha2) as HV. split.
          -- constructor. constructor. now apply locates_read.
          -- constructor. intros w [= <-]. now apply locates_in in HV.
        * unfold parseData. cbn [N.eqb BRIDGE_STRING BRIDGE_BYTES BRIDGE_CUSTOM orb Pos.eqb].
          rewrite (Hread _ _ _ Ha1 Ha2). eexists; split; [reflexivity|]. split.
          -- repeat constructor.
          -- constructor. discriminate.
      + cbn [app] in HC.
        assert (HLc : len content = len A + (1 + (len (venc id) + len B))).
        { rewrite HC, !len_app, len_cons, !len_app. lia. }
        unfold Data_valueParse. rewrite run_bind, run_lift.
        rewrite (parseDataType_ok R A (n2b BRIDGE_STRING) (venc id ++ B)); auto;
          try (rewrite ?Hsize, ?Hbase; auto; lia).
        cbn [obind]. rewrite valid_b2n by reflexivity. rewrite Hmap, <- HD.
        replace (negb (valid_data_type BRIDGE_STRING)) with false by reflexivity.
        replace ((BRIDGE_STRING =? BRIDGE_STRING) && true) with true by reflexivity.
        rewrite run_bind, run_lift.
        replace (len A + 1) with (len (A ++ [n2b BRIDGE_STRING])) by (rewrite len_app, len_cons, len_nil; lia).
        rewrite (pl (A ++ [n2b BRIDGE_STRING]) id B);
          [|rewrite HC; now rewrite <- app_assoc|rewrite W64_val, W32_val in *; lia].
        cbn [obind run]. rewrite u32_small by exact Hid.
        rewrite <- HD in Hget. cbn in Hget. destruct (Hget id s Hid Hd) as (v & Hv & Hl). rewrite Hv. cbn [obind].
        assert (Hpos : at_ (len (A ++ [n2b BRIDGE_STRING]) + len (venc id)) =
                       at_ (len A + len (n2b BRIDGE_STRING :: venc id))).
        { rewrite len_app, !len_cons, len_nil. f_equal. lia. }
        destruct pr; cbn [run].
        * rewrite Hpos. eexists; split; [reflexivity|]. split.
          -- constructor. constructor. now apply locates_read.
          -- constructor. intros w [= <-]. now apply locates_in in Hl.
        * rewrite run_bind, run_lift. unfold read_local. destruct Hl as [_ Hl]. rewrite Hl. cbn [obind run].
          rewrite Hpos. eexists; split; [reflexivity|]. split.
          -- repeat constructor.
          -- constructor. discriminate.
    - apply (Hpay BRIDGE_BYTES s); auto; try reflexivity.
      intros addr Ha1 Ha2. destruct pr.
      + eexists; split; [reflexivity|]. pose proof (Hview _ _ _ Ha1 Ha2) as HV. split.
        * constructor. constructor. now apply locates_read.
        * constructor. intros w [= <-]. now apply locates_in in HV.
      + unfold parseData. cbn [N.eqb BRIDGE_STRING BRIDGE_BYTES BRIDGE_CUSTOM orb Pos.eqb].
        rewrite (Hread _ _ _ Ha1 Ha2). eexists; split; [reflexivity|]. split.
        * repeat constructor.
        * constructor. discriminate.
    - destruct pr; [exfalso; now apply (Hcu eq_refl s)|].
      apply (Hpay BRIDGE_CUSTOM s); auto; try reflexivity.
      intros addr Ha1 Ha2.
      unfold parseData. cbn [N.eqb BRIDGE_STRING BRIDGE_BYTES BRIDGE_CUSTOM orb Pos.eqb].
      rewrite (Hread _ _ _ Ha1 Ha2). eexists; split; [reflexivity|]. split.
      + repeat constructor.
      + constructor. discriminate.
    - destruct (dt_of_num_not_blob t) as (E1 & E2 & E3 & E4 & E5 & E6).
      pose proof (sizeof_num_small t).
      apply (Hpay (dt_of_num t) (be_bytes (sizeof_num t) n)); auto.
      + now rewrite E3.
      + now rewrite be_bytes_len.
      + rewrite be_bytes_len, W32_val. lia.
      + intros addr Ha1 Ha2. rewrite be_bytes_len.
        assert (Hp : parse_num (r_cfg R) content t addr (sizeof_num t) = Ok (SNum t n)).
        { unfold parse_num. rewrite N.eqb_refl, andb_false_r, N.ltb_irrefl.
          specialize (Hread _ _ _ Ha1 Ha2). rewrite be_bytes_len in Hread. rewrite Hread. cbn [obind].
          rewrite N.sub_diag. cbn [repeat N.to_nat]. change (N.to_nat 0) with O. cbn [repeat].
          rewrite app_nil_r, num_of_wire_be by exact Hn. reflexivity. }
        exists (SNum t n). split.
        * unfold parseData, parseData_view. rewrite E1, E2, E3, E4. cbn [orb]. destruct pr; exact Hp.
        * destruct pr; (split; [constructor; constructor; exact Hn|constructor; discriminate]).
  Qed.

  (** ** The recursive descent *)
  Definition entry_reads pr (i : bytes * obj) (e : bytes * value) : Prop :=
    fst i = fst e /\ reads pr (snd i) (mirror (snd e)).
  Definition ventry_reads pr (i : view * obj) (e : bytes * value) : Prop :=
    locates content (b_buf E) (fst i) (fst e) /\ reads pr (snd i) (mirror (snd e)).

  Lemma chunk_split A (ch : bytes) chunks B :
    A ++ concat (ch :: chunks) ++ B = A ++ ch ++ (concat chunks ++ B).
  Proof. cbn. now rewrite <- app_assoc. Qed.

  Lemma ok_eq {X} (a a' : X) i i' : a = a' -> i = i' -> Ok (a, at_ i) = Ok (a', at_ i').
  Proof. now intros -> ->. Qed.

  Lemma nonempty_app {X} (a b : list X) : b <> [] -> a ++ b <> [].
  Proof. destruct a; [auto|cbn; congruence]. Qed.

  Lemma valueParse_ok p pr fuel :
    (forall v fl b A B, wire D T sz v fl b -> content = A ++ b ++ B -> B <> [] ->
       (length b <= fuel)%nat -> (pr = true -> no_custom v) ->
       exists o, run get (valueParse E p pr fuel (type_of v) (at_ (len A))) = Ok (o, at_ (len A + len b)) /\
                 reads pr o (mirror v)) /\
    (forall vs chunks A B acc, Forall2 (elem_wire D T sz) vs chunks ->
       content = A ++ concat chunks ++ B -> B <> [] ->
       (length (concat chunks) + 1 <= fuel)%nat -> (pr = true -> Forall no_custom vs) ->
       exists os, run get (array_loop E p pr fuel (len vs) (at_ (len A)) acc)
                    = Ok (rev os ++ acc, at_ (len A + len (concat chunks))) /\
                  Forall2 (fun o v => reads pr o (mirror v)) os vs) /\
    (forall vs chunks A B acc, pr = false -> Forall2 (entry_wire D T sz) vs chunks ->
       content = A ++ concat chunks ++ B -> B <> [] ->
       (length (concat chunks) + 1 <= fuel)%nat ->
       exists os, run get (map_loop E p pr fuel (len vs) (at_ (len A)) acc)
                    = Ok (rev os ++ acc, at_ (len A + len (concat chunks))) /\
                  Forall2 (entry_reads pr) os vs) /\
    (forall vs chunks A B acc, pr = true -> Forall2 (entry_wire D T sz) vs chunks ->
       content = A ++ concat chunks ++ B -> B <> [] ->
       (length (concat chunks) + 1 <= fuel)%nat -> Forall (fun e => no_custom (snd e)) vs ->
       exists os, run get (mapview_loop E p pr fuel (len vs) (at_ (len A)) acc)
                    = Ok (rev os ++ acc, at_ (len A + len (concat chunks))) /\
                  Forall2 (ventry_reads pr) os vs).
  Proof.
    induction fuel as [|f (IHv & IHa & IHm & IHw)].
    { split; [|repeat split; intros; lia].
      intros v fl b A B Hw _ _ Hlen _. exfalso.
      inversion Hw as [x ? Hx|? id ? ? ? ? ? ?|? id ? ? ? ? ? ?]; subst.
      - inversion Hx; subst; cbn in Hlen; lia.
      - rewrite app_length in Hlen. pose proof (venc_len_pos (len l)). unfold len in *. lia.
      - rewrite app_length in Hlen. pose proof (venc_len_pos (len l)). unfold len in *. lia. }
    split; [|split; [|split]].
    - (* one value *)
      intros v fl b A B Hw HC HB Hlen Hnc.
      inversion Hw as [x ? Hx|l id chunks ? L1 L2 HF HS|l id chunks ? L1 L2 HF HS]; subst.
      + cbn [type_of valueParse mirror]. eapply data_ok; eauto.
        intros Hp. specialize (Hnc Hp). now inversion Hnc.
      + cbn [type_of valueParse mirror].
        rewrite <- !app_assoc in HC.
        rewrite run_bind, run_lift.
        rewrite (pl A (len l) (venc id ++ concat chunks ++ B)) by (auto; rewrite W64_val, W32_val in *; lia).
        cbn [obind]. rewrite run_bind, run_lift.
        rewrite <- len_app.
        rewrite (pl (A ++ venc (len l)) id (concat chunks ++ B));
          [|rewrite <- app_assoc; exact HC|rewrite W64_val, W32_val in *; lia].
        cbn [obind]. rewrite run_bind. rewrite <- (len_app _ (venc id)).
        destruct (IHa (rev l) chunks ((A ++ venc (len l)) ++ venc id) B [] HF) as (os & Hrun & Hos).
        { rewrite <- !app_assoc. exact HC. }
        { exact HB. }
        { pose proof (venc_len_pos (len l)). pose proof (venc_len_pos id).
          rewrite !app_length in Hlen. unfold len in *. lia. }
        { intros Hp. specialize (Hnc Hp). inversion Hnc; subst. now apply Forall_rev. }
        rewrite len_rev in Hrun. rewrite Hrun. cbn [obind run]. rewrite app_nil_r, rev_involutive.
        eexists. split; [|split].
        * do 3 f_equal. rewrite !len_app. lia.
        * constructor; [now rewrite (len_Forall2 _ _ _ Hos), len_rev|].
          rewrite <- map_rev, Forall2_map_r. eapply Forall2_impl; [|exact Hos]. cbn. intros ? ? _ _ [H _]; exact H.
        * constructor. clear -Hos. induction Hos as [|o v os vs [_ H] HF IH]; constructor; auto.
      + cbn [type_of valueParse mirror].
        rewrite <- !app_assoc in HC.
        rewrite run_bind, run_lift.
        rewrite (pl A (len l) (venc id ++ concat chunks ++ B)) by (auto; rewrite W64_val, W32_val in *; lia).
        cbn [obind]. rewrite run_bind, run_lift.
        rewrite <- len_app.
        rewrite (pl (A ++ venc (len l)) id (concat chunks ++ B));
          [|rewrite <- app_assoc; exact HC|rewrite W64_val, W32_val in *; lia].
        cbn [obind]. rewrite <- (len_app _ (venc id)).
        assert (HC' : content = ((A ++ venc (len l)) ++ venc id) ++ concat chunks ++ B)
          by (rewrite <- !app_assoc; exact HC).
        assert (Hf : (length (concat chunks) + 1 <= f)%nat).
        { pose proof (venc_len_pos (len l)). pose proof (venc_len_pos id).
          rewrite !app_length in Hlen. unfold len in *. lia. }
        assert (Hend : len ((A ++ venc (len l)) ++ venc id) + len (concat chunks) =
                       len A + len (venc (len l) ++ venc id ++ concat chunks)).
        { rewrite !len_app. lia. }
        destruct pr.
        * rewrite run_bind.
          destruct (IHw l chunks ((A ++ venc (len l)) ++ venc id) B [] eq_refl HF HC' HB Hf) as (os & Hrun & Hos).
          { specialize (Hnc eq_refl). now inversion Hnc. }
          rewrite Hrun. cbn [obind run]. rewrite app_nil_r, Hend.
          eexists. split; [reflexivity|]. split.
          -- constructor; [now rewrite len_rev, (len_Forall2 _ _ _ Hos)|].
             apply Forall2_rev. rewrite Forall2_map_r. eapply Forall2_impl; [|exact Hos].
             cbn. intros i e _ _ [H1 [H2 _]]. split; [now apply locates_read|exact H2].
          -- constructor. apply Forall_rev. clear -Hos.
             induction Hos as [|o v os vs [H1 [_ H2]] HF IH]; constructor; auto.
             split; [now apply locates_in in H1|exact H2].
        * rewrite run_bind, run_lift. rewrite check_oor_ok.
          2:{ cbn [idx at_]. rewrite Hsize, HC', !len_app. lia. }
          cbn [obind]. rewrite run_bind.
          destruct (IHm l chunks ((A ++ venc (len l)) ++ venc id) B [] eq_refl HF HC' HB Hf) as (os & Hrun & Hos).
          rewrite Hrun. cbn [obind run]. rewrite app_nil_r, Hend.
          eexists. split; [reflexivity|]. split.
          -- constructor; [now rewrite len_rev, (len_Forall2 _ _ _ Hos)|].
             apply Forall2_rev. rewrite Forall2_map_r. eapply Forall2_impl; [|exact Hos].
             cbn. intros i e _ _ [H1 [H2 _]]. split; [exact H1|exact H2].
          -- constructor. apply Forall_rev. clear -Hos.
             induction Hos as [|o v os vs [H1 [_ H2]] HF IH]; constructor; auto.
    - (* array loop *)
      intros vs chunks A B acc HF HC HB Hlen Hnc. cbn [array_loop].
      destruct HF as [|v ch vs chunks (fl & b & Hw & ->) HF].
      { exists []. cbn. rewrite N.add_0_r. split; [reflexivity|constructor]. }
      rewrite len_cons. replace (1 + len vs =? 0) with false by lia.
      rewrite chunk_split in HC. cbn [app] in HC.
      rewrite run_bind, run_lift.
      assert (HLc : len content = len A + (1 + len (b ++ concat chunks ++ B))).
      { rewrite HC, len_app, len_cons. lia. }
      destruct (parseObjectType_ok R A v fl (b ++ concat chunks ++ B) (len A) HC) as [Ho _];
        [rewrite Hbase; lia|rewrite Hsize; lia|now rewrite Hsize|].
      rewrite Ho. cbn [obind]. rewrite run_bind.
      replace (len A + 1) with (len (A ++ [tag v fl])) by (rewrite len_app, len_cons, len_nil; lia).
      cbn [concat app length] in Hlen. rewrite app_length in Hlen.
      destruct (IHv v fl b (A ++ [tag v fl]) (concat chunks ++ B) Hw) as (o & Hrun & Hr).
      { rewrite <- app_assoc. exact HC. }
      { now apply nonempty_app. }
      { lia. }
      { intros Hp. specialize (Hnc Hp). now inversion Hnc. }
      rewrite Hrun. cbn [obind]. rewrite <- len_app.
      replace (1 + len vs - 1) with (len vs) by lia.
      destruct (IHa vs chunks ((A ++ [tag v fl]) ++ b) B (o :: acc) HF) as (os & Hrun2 & Hos).
      { rewrite <- !app_assoc. exact HC. }
      { exact HB. }
      { lia. }
      { intros Hp. specialize (Hnc Hp). now inversion Hnc. }
      rewrite Hrun2. exists (o :: os). split.
      + apply ok_eq; [cbn [rev]; now rewrite <- app_assoc|cbn [concat app]; autorewrite with len; lia].
      + constructor; auto.
    - (* map loop *)
      intros vs chunks A B acc Hpr HF HC HB Hlen. cbn [map_loop].
      destruct HF as [|[k v] ch vs chunks (kb & fl & b & Hk & Hw & ->) HF].
      { exists []. cbn. rewrite N.add_0_r. split; [reflexivity|constructor]. }
      cbn [fst snd] in *.
      rewrite len_cons. replace (1 + len vs =? 0) with false by lia.
      rewrite chunk_split in HC. rewrite <- app_assoc in HC. cbn [app] in HC.
      rewrite run_bind.
      destruct (parse_key_ok A k kb (tag v fl :: b ++ concat chunks ++ B) HC) as (kv & Hkey & _ & Hloc);
        [congruence|exact Hk|].
      rewrite Hkey. cbn [obind]. rewrite run_bind, run_lift. rewrite <- len_app.
      assert (HC2 : content = (A ++ kb) ++ tag v fl :: b ++ concat chunks ++ B)
        by (rewrite <- app_assoc; exact HC).
      assert (HLc : len content = len (A ++ kb) + (1 + len (b ++ concat chunks ++ B))).
      { rewrite HC2, len_app, len_cons. lia. }
      destruct (parseObjectType_ok R (A ++ kb) v fl (b ++ concat chunks ++ B) (len (A ++ kb)) HC2) as [Ho _];
        [rewrite Hbase; lia|rewrite Hsize; lia|now rewrite Hsize|].
      rewrite Ho. cbn [obind]. rewrite run_bind.
      replace (len (A ++ kb) + 1) with (len ((A ++ kb) ++ [tag v fl]))
        by (rewrite (len_app (A ++ kb)), len_cons, len_nil; lia).
      cbn [concat app length] in Hlen. rewrite !app_length in Hlen. cbn [length] in Hlen.
      destruct (IHv v fl b ((A ++ kb) ++ [tag v fl]) (concat chunks ++ B) Hw) as (o & Hrun & Hr).
      { rewrite <- app_assoc. exact HC2. }
      { now apply nonempty_app. }
      { lia. }
      { intros Hp. congruence. }
      rewrite Hrun. cbn [obind]. rewrite run_bind, run_lift. unfold read_local.
      destruct Hloc as [_ Hloc]. rewrite Hloc. cbn [obind]. rewrite <- len_app.
      replace (1 + len vs - 1) with (len vs) by lia.
      destruct (IHm vs chunks (((A ++ kb) ++ [tag v fl]) ++ b) B ((k, o) :: acc) Hpr HF) as (os & Hrun2 & Hos).
      { rewrite HC2. rewrite <- !app_assoc. reflexivity. }
      { exact HB. }
      { lia. }
      rewrite Hrun2. exists ((k, o) :: os). split.
      + apply ok_eq; [cbn [rev]; now rewrite <- app_assoc|cbn [concat app]; autorewrite with len; lia].
      + constructor; auto. split; auto.
    - (* mapview loop *)
      intros vs chunks A B acc Hpr HF HC HB Hlen Hnc. cbn [mapview_loop].
      destruct HF as [|[k v] ch vs chunks (kb & fl & b & Hk & Hw & ->) HF].
      { exists []. cbn. rewrite N.add_0_r. split; [reflexivity|constructor]. }
      cbn [fst snd] in *.
      rewrite len_cons. replace (1 + len vs =? 0) with false by lia.
      rewrite chunk_split in HC. rewrite <- app_assoc in HC. cbn [app] in HC.
      rewrite run_bind.
      destruct (parse_key_ok A k kb (tag v fl :: b ++ concat chunks ++ B) HC) as (kv & Hkey & _ & Hloc);
        [congruence|exact Hk|].
      rewrite Hkey. cbn [obind]. rewrite run_bind, run_lift. rewrite <- len_app.
      assert (HC2 : content = (A ++ kb) ++ tag v fl :: b ++ concat chunks ++ B)
        by (rewrite <- app_assoc; exact HC).
      assert (HLc : len content = len (A ++ kb) + (1 + len (b ++ concat chunks ++ B))).
      { rewrite HC2, len_app, len_cons. lia. }
      destruct (parseObjectType_ok R (A ++ kb) v fl (b ++ concat chunks ++ B) (len (A ++ kb)) HC2) as [Ho _];
        [rewrite Hbase; lia|rewrite Hsize; lia|now rewrite Hsize|].
      rewrite Ho. cbn [obind]. rewrite run_bind.
      replace (len (A ++ kb) + 1) with (len ((A ++ kb) ++ [tag v fl]))
        by (rewrite (len_app (A ++ kb)), len_cons, len_nil; lia).
      cbn [concat app length] in Hlen. rewrite !app_length in Hlen. cbn [length] in Hlen.
      inversion Hnc as [|? ? Hnc1 Hnc2]; subst. cbn [snd] in Hnc1.
      destruct (IHv v fl b ((A ++ kb) ++ [tag v fl]) (concat chunks ++ B) Hw) as (o & Hrun & Hr).
      { rewrite <- app_assoc. exact HC2. }
      { now apply nonempty_app. }
      { lia. }
      { auto. }
      rewrite Hrun. cbn [obind]. rewrite <- len_app.
      replace (1 + len vs - 1) with (len vs) by lia.
      destruct (IHw vs chunks (((A ++ kb) ++ [tag v fl]) ++ b) B ((kv, o) :: acc) eq_refl HF) as (os & Hrun2 & Hos).
      { rewrite HC2. rewrite <- !app_assoc. reflexivity. }
      { exact HB. }
      { lia. }
      { exact Hnc2. }
      rewrite Hrun2. exists ((kv, o) :: os). split.
      + apply ok_eq; [cbn [rev]; now rewrite <- app_assoc|cbn [concat app]; autorewrite with len; lia].
      + constructor; auto. split; auto.
  Qed.
End Read.

(** An owning tree means the same in every memory. *)
Lemma owning_denotes o : owning o -> forall mem mem' v, denotes mem o v -> denotes mem' o v.
Proof.
  unfold owning.
  induction o as [|dt s|dt s|p n l IH|p n l IH|p n l IH] using obj_ind'; intros Ho mem mem' v Hd;
    inversion Hd; subst.
  - now constructor.
  - constructor. inversion Ho as [| |? ? Hv| | |]; subst.
    match goal with H : view_denotes _ _ _ _ |- _ => inversion H; subst end;
      try (exfalso; eapply Hv; reflexivity).
    now constructor.
  - inversion Ho as [| | |? ? ? HA| |]; subst. constructor; [reflexivity|].
    match goal with H : Forall2 _ l ?r |- Forall2 _ _ ?r => rename H into HF; revert HF; generalize r end.
    clear Hd Ho. intros w HF.
    induction HF as [|a b l w Hab HF IHF]; constructor; inversion IH as [|? ? I1 I2]; inversion HA as [|? ? A1 A2]; subst.
    + exact (I1 A1 _ _ _ Hab).
    + exact (IHF I2 A2).
  - inversion Ho as [| | | |? ? ? HA|]; subst. constructor; [reflexivity|].
    match goal with H : Forall2 _ l _ |- _ => rename H into HF end. clear Hd Ho.
    induction HF as [|a b l w [Hk Hab] HF IHF]; constructor; inversion IH as [|? ? I1 I2]; inversion HA as [|? ? A1 A2]; subst.
    + split; [exact Hk|exact (I1 A1 _ _ _ Hab)].
    + exact (IHF I2 A2).
  - inversion Ho as [| | | | |? ? ? HA]; subst. constructor; [reflexivity|].
    match goal with H : Forall2 _ l _ |- _ => rename H into HF end. clear Hd Ho.
    induction HF as [|a b l w [Hk Hab] HF IHF]; constructor; inversion IH as [|? ? I1 I2]; inversion HA as [|? ? A1 A2]; subst.
    + tauto.
    + exact (IHF I2 A2).
Qed.
