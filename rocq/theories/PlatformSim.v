(** * The platform enters the parsers only through failed assertions. *)
From Verif Require Import Base BaseLemmas ModelVarint ModelData ModelSecondary ModelObject
  ModelParse ModelWrapper Spec SpecApi VarintProofs Wire NumProofs ObjInd ParseLemmas ParaProofs GeneralProofs SecondaryProofs Lenient LenientProofs.
From Coq Require Import ZifyBool ZifyNat ZifyN.

Section Sim.
  (** [lax]: the first build may abort where the second one goes on. *)
  Variable lax : bool.

  Definition orel {A} (x y : outcome A) : Prop := (lax = true /\ x = Abort) \/ x = y.

  Lemma orel_refl {A} (x : outcome A) : orel x x.
  Proof using. now right. Qed.
  Lemma orel_bind {A B} (x y : outcome A) (f g : A -> outcome B) :
    orel x y -> (forall a, orel (f a) (g a)) -> orel (obind x f) (obind y g).
  Proof using. intros [[Hl ->]| -> ] H; [left; auto|]. destruct y; cbn; try (now right). apply H. Qed.
  Lemma orel_if {A} (b : bool) (x y x' y' : outcome A) : orel x y -> orel x' y' -> orel (if b then x else x') (if b then y else y').
  Proof using. destruct b; auto. Qed.

  (** The same for computations. *)
  Inductive prel : forall {A}, prog A -> prog A -> Prop :=
  | pr_ret A (a : A) : prel (PRet a) (PRet a)
  | pr_fail A f : prel (@PFail A f) (PFail f)
  | pr_abort A (p : prog A) : lax = true -> prel (PFail FAbort) p
  | pr_get A id (k k' : view -> prog A) : (forall v, prel (k v) (k' v)) -> prel (PGetStr id k) (PGetStr id k')
  | pr_par A ts ts' (k k' : list (outcome block) -> prog A) : Forall2 prel ts ts' -> (forall rs, prel (k rs) (k' rs)) -> prel (PPar ts k) (PPar ts' k').

  Lemma prel_lift {A} (x y : outcome A) : orel x y -> prel (lift x) (lift y).
  Proof using. intros [[Hl ->]| -> ]; [now constructor|]. destruct y; constructor. Qed.

  Lemma prel_bind {A B} (p q : prog A) (f g : A -> prog B) : prel p q -> (forall a, prel (f a) (g a)) -> prel (pbind p f) (pbind q g).
  Proof using.
    intros H HF. induction H as [A a|A e|A p Hl|A id k k' Hk IH|A ts ts' k k' HT Hk IH]; cbn [pbind].
    - apply HF.
    - constructor.
    - now constructor.
    - constructor. intros v. now apply IH.
    - constructor; [exact HT|]. intros rs. now apply IH.
  Qed.

  Section Getters.
  Variable get1 get2 : N -> outcome view.
  Hypothesis Hget : forall id, get1 id = get2 id.

  Lemma hard_rel l1 l2 : Forall2 orel l1 l2 ->
    (lax = true /\ hard_failure l1 = Some FAbort) \/ (hard_failure l1 = hard_failure l2 /\ (hard_failure l1 = None -> l1 = l2)).
  Proof using.
    induction 1 as [|x y l1 l2 Hxy HF IH]; [right; auto|]. destruct Hxy as [[Hl ->]| -> ]; [left; auto|].
    destruct y; cbn [hard_failure]; try (right; split; [reflexivity|discriminate]);
      (destruct IH as [IH|[IH1 IH2]]; [left; exact IH|right; split; [exact IH1|]; intros Hn; now rewrite (IH2 Hn)]).
  Qed.

  Lemma run_rel : forall {A} (p q : prog A), prel p q -> orel (run get1 p) (run get2 q).
  Proof using Hget.
    fix IH 4. intros A p q H. destruct H as [A a|A e|A p Hl|A id k k' Hk|A ts ts' k k' HT Hk]; cbn [run].
    - now right.
    - now right.
    - left. auto.
    - rewrite Hget. destruct (get2 id); cbn [obind]; try (now right). apply IH, Hk.
    - assert (HF : Forall2 orel (map (fun t => run get1 t) ts) (map (fun t => run get2 t) ts')).
      { clear Hk k k'. induction HT as [|t t' ts ts' Ht HT IHT]; cbn; constructor; [apply IH, Ht|exact IHT]. }
      destruct (hard_rel _ _ HF) as [[Hl Hh]|[Hh He]].
      + left. rewrite Hh. auto.
      + rewrite <- Hh. destruct (hard_failure (map (fun t => run get1 t) ts)) as [f|]; [now right|]. rewrite (He eq_refl). apply IH, Hk.
  Qed.

  End Getters.

  (** ** The builds *)
  Variables c1 c2 : cfg.
  Hypothesis Hnd : ndebug c1 = ndebug c2 \/ (lax = true /\ ndebug c1 = false /\ ndebug c2 = true).

  Lemma assert_rel {A} (b : bool) (x y : outcome A) : orel x y ->
    orel (if negb (ndebug c1) && b then Abort else x) (if negb (ndebug c2) && b then Abort else y).
  Proof using Hnd.
    intros H. destruct Hnd as [ -> |(Hl & -> & ->)]; [apply orel_if; [now right|exact H]|]. cbn. destruct b; [left; auto|exact H].
  Qed.

  Lemma decode_rel fuel content : forall ptr k buflen bits result,
    orel (varint_decode_loop c1 fuel content ptr k buflen bits result) (varint_decode_loop c2 fuel content ptr k buflen bits result).
  Proof using Hnd.
    induction fuel as [|f IH]; intros; cbn [varint_decode_loop]; [now right|].
    apply orel_bind; [now right|]. intros b. apply orel_if; [now right|]. cbv zeta. apply orel_if; [now right|].
    apply assert_rel, IH.
  Qed.

  (** The same reader on the two builds. *)
  Variables (content : bytes).
  Definition on (c : cfg) (base size : N) : renv := {| r_cfg := c; r_content := content; r_base := base; r_size := size |}.

  Lemma length_rel base size s : orel (parseLength (on c1 base size) s) (parseLength (on c2 base size) s).
  Proof using Hnd.
    unfold parseLength. apply orel_bind; [now right|]. intros _. apply orel_bind; [now right|]. intros a.
    apply orel_bind; [apply decode_rel|]. intros [tmp n]. now right.
  Qed.

  Lemma lengthstr_rel offset : orel (parseLength_str c1 content offset) (parseLength_str c2 content offset).
  Proof using Hnd.
    unfold parseLength_str. apply orel_if; [now right|]. apply orel_bind; [apply decode_rel|]. intros [tmp n]. now right.
  Qed.

  Lemma num_rel t a n : orel (parse_num c1 content t a n) (parse_num c2 content t a n).
  Proof using Hnd.
    unfold parse_num. cbv zeta. apply assert_rel. destruct (N.ltb_spec (sizeof_num t) n) as [|Hn]; [now right|].
    destruct (read_range content a n) as [m| | | |] eqn:Hm; cbn [obind]; try (now right).
    right. do 2 f_equal. apply read_range_length in Hm. rewrite !num_of_wire_any; [reflexivity|..]; rewrite len_app, len_repeat; lia.
  Qed.

  Lemma data_rel dt a n : orel (parseData c1 content dt a n) (parseData c2 content dt a n).
  Proof using Hnd. unfold parseData. repeat (apply orel_if; [now right|]). destruct (num_of_dt dt); [apply num_rel|now right]. Qed.
  Lemma dataview_rel buf dt a n : orel (parseData_view c1 content buf dt a n) (parseData_view c2 content buf dt a n).
  Proof using Hnd. unfold parseData_view. repeat (apply orel_if; [now right|]). destruct (num_of_dt dt); [apply num_rel|now right]. Qed.

  Variables (buf : nat) (withmap : bool).
  Definition at_build (c : cfg) : penv := {| b_env := root_env c content; b_buf := buf; ModelParse.b_map := withmap |}.
  Notation E1 := (at_build c1).
  Notation E2 := (at_build c2).

  Lemma root_length_rel s : prel (lift (parseLength (root_env c1 content) s)) (lift (parseLength (root_env c2 content) s)).
  Proof using Hnd. apply prel_lift. exact (length_rel 0 (len content) s). Qed.

  Lemma prel_refl {A} (p : prog A) : prel p p.
  Proof using.
    revert A p. fix IH 2. intros A p. destruct p as [a|f|id k|ts k]; constructor; try (intros; apply IH).
    induction ts as [|t ts IHt]; constructor; [apply IH|exact IHt].
  Qed.

  Lemma leaf_rel pr s : prel (Data_valueParse E1 pr s) (Data_valueParse E2 pr s).
  Proof using Hnd.
    unfold Data_valueParse. cbv zeta. cbn [b_env b_buf ModelParse.b_map at_build]. apply prel_bind; [apply prel_refl|]. intros [dt s1].
    destruct (negb (valid_data_type dt)); [constructor|]. destruct ((dt =? BRIDGE_STRING) && withmap).
    - apply prel_bind; [apply root_length_rel|]. intros [id s2]. constructor. intros v. apply prel_refl.
    - apply prel_bind; [apply root_length_rel|]. intros [size s2]. apply prel_bind; [apply prel_refl|]. intros a.
      apply prel_bind; [|intros d; apply prel_refl]. apply prel_lift. destruct pr; [apply dataview_rel|apply data_rel].
  Qed.

  Lemma key_rel s : prel (parse_key E1 s) (parse_key E2 s).
  Proof using Hnd.
    unfold parse_key. cbv zeta. cbn [b_env b_buf ModelParse.b_map at_build]. destruct withmap.
    - apply prel_bind; [apply root_length_rel|]. intros [id s2]. apply prel_refl.
    - apply prel_bind; [apply root_length_rel|]. intros [id s2]. apply prel_refl.
  Qed.

  Lemma blockkey_rel s : prel (block_key E1 s) (block_key E2 s).
  Proof using Hnd.
    unfold block_key. cbv zeta. cbn [b_env b_buf ModelParse.b_map at_build]. destruct withmap.
    - apply prel_bind; [apply root_length_rel|]. intros [id s2]. apply prel_refl.
    - apply prel_bind; [apply root_length_rel|]. intros [id s2]. apply prel_refl.
  Qed.

  Lemma value_rel p pr fuel :
    (forall t s, prel (valueParse E1 p pr fuel t s) (valueParse E2 p pr fuel t s)) /\
    (forall n s acc, prel (array_loop E1 p pr fuel n s acc) (array_loop E2 p pr fuel n s acc)) /\
    (forall n s acc, prel (map_loop E1 p pr fuel n s acc) (map_loop E2 p pr fuel n s acc)) /\
    (forall n s acc, prel (mapview_loop E1 p pr fuel n s acc) (mapview_loop E2 p pr fuel n s acc)).
  Proof using Hnd.
    induction fuel as [|f (IHv & IHa & IHm & IHw)]; [split; [|split; [|split]]; intros; constructor|].
    split; [|split; [|split]].
    - intros t s. cbn [valueParse]. cbv zeta. destruct t; [apply leaf_rel| |].
      + apply prel_bind; [apply root_length_rel|]. intros [n s1]. apply prel_bind; [apply root_length_rel|]. intros [i s2]. destruct pr.
        * apply prel_bind; [apply IHw|]. intros [items s3]. apply prel_refl.
        * apply prel_bind; [apply prel_refl|]. intros _. apply prel_bind; [apply IHm|]. intros [items s3]. apply prel_refl.
      + apply prel_bind; [apply root_length_rel|]. intros [n s1]. apply prel_bind; [apply root_length_rel|]. intros [i s2].
        apply prel_bind; [apply IHa|]. intros [items s3]. apply prel_refl.
    - intros n s acc. cbn [array_loop]. destruct (n =? 0); [constructor|]. apply prel_bind; [apply prel_refl|]. intros [t s1].
      apply prel_bind; [apply IHv|]. intros [o s2]. apply IHa.
    - intros n s acc. cbn [map_loop]. destruct (n =? 0); [constructor|]. apply prel_bind; [apply key_rel|]. intros [kv s1].
      apply prel_bind; [apply prel_refl|]. intros [t s2]. apply prel_bind; [apply IHv|]. intros [o s3]. apply prel_bind; [apply prel_refl|]. intros key. apply IHm.
    - intros n s acc. cbn [mapview_loop]. destruct (n =? 0); [constructor|]. apply prel_bind; [apply key_rel|]. intros [kv s1].
      apply prel_bind; [apply prel_refl|]. intros [t s2]. apply prel_bind; [apply IHv|]. intros [o s3]. apply IHw.
  Qed.

  Lemma tasks_rel {X} (f g : X -> prog block) l : (forall x, prel (f x) (g x)) -> Forall2 prel (map f l) (map g l).
  Proof using. intros H. induction l; cbn; constructor; auto. Qed.

  Lemma para_rel si fuel :
    (forall pr i, prel (ParseArray E1 si fuel pr i) (ParseArray E2 si fuel pr i)) /\
    (forall pr i, prel (ParseMap E1 si fuel pr i) (ParseMap E2 si fuel pr i)) /\
    (forall pr s, prel (block_value E1 si fuel pr s) (block_value E2 si fuel pr s)) /\
    (forall pr e s acc n, prel (ParseArrayBlock E1 si fuel pr e s acc n) (ParseArrayBlock E2 si fuel pr e s acc n)) /\
    (forall e s acc n, prel (ParseMapBlock E1 si fuel e s acc n) (ParseMapBlock E2 si fuel e s acc n)) /\
    (forall e s acc n, prel (ParseMapViewBlock E1 si fuel e s acc n) (ParseMapViewBlock E2 si fuel e s acc n)).
  Proof using Hnd.
    induction fuel as [|f (IHA & IHM & IHV & IHAB & IHMB & IHWB)]; [split; [|split; [|split; [|split; [|split]]]]; intros; constructor|].
    split; [|split; [|split; [|split; [|split]]]].
    - intros pr i. rewrite !ParseArray_S. cbv zeta. apply prel_bind; [apply root_length_rel|]. intros [n s1]. apply prel_bind; [apply root_length_rel|]. intros [id s2].
      apply prel_bind; [apply prel_refl|]. intros info. destruct (ranges (idx s2) info) as [rs last]. constructor; [|intros; apply prel_refl].
      apply tasks_rel. intros x. apply IHAB.
    - intros pr i. rewrite !ParseMap_S. cbv zeta. apply prel_bind; [apply root_length_rel|]. intros [n s1]. apply prel_bind; [apply root_length_rel|]. intros [id s2].
      apply prel_bind; [apply prel_refl|]. intros info. destruct (ranges (idx s2) info) as [rs last].
      destruct pr; (constructor; [|intros; apply prel_refl]); apply tasks_rel; intros x; [apply IHWB|apply IHMB].
    - intros pr s. rewrite !block_value_S. apply prel_bind; [apply prel_refl|]. intros [[t fl] s1]. destruct fl.
      + destruct t; [constructor| |]; (apply prel_bind; [first [apply IHM | apply IHA]|]; intros [o e]; constructor).
      + apply value_rel.
    - intros pr e s acc n. rewrite !ParseArrayBlock_S. destruct (off s <? e); [|constructor]. apply prel_bind; [apply IHV|]. intros [o s1]. apply IHAB.
    - intros e s acc n. rewrite !ParseMapBlock_S. destruct (off s <? e); [|constructor]. apply prel_bind; [apply blockkey_rel|]. intros [kv s1].
      apply prel_bind; [apply prel_refl|]. intros key. apply prel_bind; [apply IHV|]. intros [o s2]. apply IHMB.
    - intros e s acc n. rewrite !ParseMapViewBlock_S. destruct (off s <? e); [|constructor]. apply prel_bind; [apply blockkey_rel|]. intros [kv s1].
      apply prel_bind; [apply IHV|]. intros [o s2]. apply IHWB.
  Qed.

  (** ** Tables *)
  Lemma keys_rel base size fuel : forall n s acc, orel (sm_construct_loop (on c1 base size) buf fuel n s acc) (sm_construct_loop (on c2 base size) buf fuel n s acc).
  Proof using Hnd.
    induction fuel as [|f IH]; intros n s acc; cbn [sm_construct_loop]; [now right|]. apply orel_if; [now right|].
    apply orel_bind; [apply length_rel|]. intros [kl s1]. apply orel_bind; [now right|]. intros a. cbv zeta.
    apply orel_bind; [apply length_rel|]. intros [id s3]. apply orel_bind; [now right|]. intros k.
    apply orel_bind; [|intros fd; apply IH]. right. clear. induction acc as [|[v i] acc IH]; cbn [view_find]; [reflexivity|].
    change (read_local (on c1 base size) v) with (read_local (on c2 base size) v). destruct (read_local (on c2 base size) v); cbn [obind]; try reflexivity. now rewrite IH.
  Qed.

  Lemma dict_rel base size fuel : orel (StringMap_Construct (on c1 base size) buf fuel) (StringMap_Construct (on c2 base size) buf fuel).
  Proof using Hnd.
    unfold StringMap_Construct. apply orel_bind; [apply length_rel|]. intros [n s]. apply orel_bind; [apply keys_rel|]. intros l. now right.
  Qed.

  Lemma numbers_rel base size fuel : forall n s acc, orel (parse_numbers (on c1 base size) fuel n s acc) (parse_numbers (on c2 base size) fuel n s acc).
  Proof using Hnd.
    induction fuel as [|f IH]; intros n s acc; cbn [parse_numbers]; [now right|]. apply orel_if; [now right|].
    apply orel_bind; [apply length_rel|]. intros [x s1]. apply IH.
  Qed.

  Lemma rows_rel base size fuel : forall n s acc, orel (si_construct_loop (on c1 base size) fuel n s acc) (si_construct_loop (on c2 base size) fuel n s acc).
  Proof using Hnd.
    induction fuel as [|f IH]; intros n s acc; cbn [si_construct_loop]; [now right|]. apply orel_if; [now right|].
    apply orel_bind; [apply length_rel|]. intros [x s1]. apply orel_bind; [apply length_rel|]. intros [y s2].
    apply orel_bind; [apply numbers_rel|]. intros [l s3]. destruct (assoc_find _ _ _); [now right|]. apply IH.
  Qed.

  Lemma split_rel base size fuel : orel (SplitInfo_Construct (on c1 base size) fuel) (SplitInfo_Construct (on c2 base size) fuel).
  Proof using Hnd.
    unfold SplitInfo_Construct. apply orel_bind; [apply length_rel|]. intros [n s]. apply rows_rel.
  Qed.
End Sim.

Section Whole.
  Variable lax : bool.
  Variables c1 c2 : cfg.
  Hypothesis Hnd : ndebug c1 = ndebug c2 \/ (lax = true /\ ndebug c1 = false /\ ndebug c2 = true).
  Notation orel := (orel lax).

  Lemma secondary_rel {A} content total (f g : renv * N -> outcome A) :
    (forall base size q, orel (f (on content c1 base size, q)) (g (on content c2 base size, q))) ->
    orel (obind (secondary_env c1 content total) f) (obind (secondary_env c2 content total) g).
  Proof using Hnd.
    intros H. unfold secondary_env. destruct (lengthstr_rel lax c1 c2 Hnd content total) as [[Hl ->]|He]; [left; auto|]. rewrite He.
    destruct (parseLength_str c2 content total) as [[n k]| | | |]; cbn [obind fst snd]; try (now right). apply H.
  Qed.

  Lemma init_rel fuel content buf : orel (initFromContent c1 fuel content buf) (initFromContent c2 fuel content buf).
  Proof using Hnd.
    unfold initFromContent. destruct (N.ltb_spec (len content) meta_size) as [|Hm]; [now right|].
    apply orel_bind.
    { right. unfold ParseTotalSize. destruct (N.ltb_spec (len content) 8) as [|H8]; [reflexivity|]. f_equal.
      rewrite !num_of_wire_any; [reflexivity|..]; unfold len in *; rewrite firstn_length; lia. }
    intros total. cbv zeta. apply orel_bind; [|intros x; now right]. apply orel_if; [|apply orel_if; [|now right]].
    - apply secondary_rel. intros base size q. cbn [fst]. apply orel_bind; [apply split_rel; exact Hnd|]. intros si. now right.
    - apply secondary_rel. intros base size q. cbn [fst snd]. apply orel_bind; [apply dict_rel; exact Hnd|]. intros sm.
      apply secondary_rel. intros base' size' q'. cbn [fst]. apply orel_bind; [apply split_rel; exact Hnd|]. intros si. now right.
  Qed.

  Lemma prog_rel fuel content buf p po sc : prel lax (Parse_prog c1 fuel content buf p po sc) (Parse_prog c2 fuel content buf p po sc).
  Proof using Hnd.
    unfold Parse_prog. cbv zeta. unfold doc_env.
    assert (HN : prel lax (NormalParse_prog (at_build content buf (match sc_map sc with Some _ => true | None => false end) c1) fuel (po_ref po) p (sc_total sc))
                          (NormalParse_prog (at_build content buf (match sc_map sc with Some _ => true | None => false end) c2) fuel (po_ref po) p (sc_total sc))).
    { unfold NormalParse_prog. apply prel_bind; [apply value_rel; exact Hnd|]. intros [root s]. destruct (negb _); [constructor|]. apply prel_refl. }
    destruct (po_type po); [exact HN|]. destruct (sc_need_to_split sc); [|exact HN].
    unfold CoroParse_prog. apply prel_bind; [apply para_rel; exact Hnd|]. intros [root j]. apply prel_refl.
  Qed.

  (** With the same answers of the dictionary, the same outcome. *)
  Lemma Parse_rel fuel content buf p po :
    (forall sc, initFromContent c1 fuel content buf = Ok sc -> initFromContent c2 fuel content buf = Ok sc -> forall id, getter c1 (sc_map sc) id = getter c2 (sc_map sc) id) ->
    orel (Parse c1 fuel content buf p po) (Parse c2 fuel content buf p po).
  Proof using Hnd.
    intros Hg. unfold Parse. destruct (init_rel fuel content buf) as [[Hl ->]|He]; [left; auto|]. rewrite He in *.
    destruct (initFromContent c2 fuel content buf) as [sc| | | |]; cbn [obind]; try (now right).
    apply run_rel; [apply Hg; reflexivity|apply prog_rel].
  Qed.
End Whole.

Lemma getter_same c1 c2 m : sane c1 -> sane c2 -> NoDup (map snd (sm_map m)) -> sm_re m = None -> forall id, getter c1 (Some m) id = getter c2 (Some m) id.
Proof.
  intros [_ H1] [_ H2] Hn Hre id. unfold getter, GetStr. rewrite Hre.
  assert (G : forall c, (forall K V (H : Hashable K) (l : list (K * V)), Permutation (hash_order c l) l) ->
    (forall k, In (k, id) (sm_map m) -> assoc_find N.eqb id (buildReMap c m) = Some k) /\ (~ In id (map snd (sm_map m)) -> assoc_find N.eqb id (buildReMap c m) = None)).
  { intros c Hp. unfold buildReMap.
    assert (HN : NoDup (map snd (hash_order c (sm_map m)))) by (eapply Permutation_NoDup; [apply Permutation_map; symmetry; apply Hp|exact Hn]).
    destruct (buildReMap_find (hash_order c (sm_map m)) [] id HN) as [B1 B2]. split.
    - intros k Hk. apply B1. eapply Permutation_in; [symmetry; apply Hp|exact Hk].
    - intros Hk. rewrite B2; [reflexivity|]. intros Hi. apply Hk. eapply Permutation_in; [apply Permutation_map, Hp|exact Hi]. }
  destruct (G c1 H1) as [A1 A2], (G c2 H2) as [B1 B2].
  destruct (in_dec N.eq_dec id (map snd (sm_map m))) as [Hi|Hi].
  - apply in_map_iff in Hi as ([k i] & Hi & Hk). cbn in Hi. subst i. now rewrite (A1 k Hk), (B1 k Hk).
  - now rewrite (A2 Hi), (B2 Hi).
Qed.
