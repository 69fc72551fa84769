(** * C94: which inputs make Parse fail an assert. *)
From Verif Require Import Base BaseLemmas ModelVarint ModelData ModelSecondary ModelObject
  ModelParse ModelWrapper Spec SpecApi VarintProofs Wire Lenient Overrun NumProofs SeriProofs SeriProofs2 DocProofs ObjInd ParseLemmas
  NormalProofs GeneralProofs Samples PropDocument FrameProofs TermProofs LenientProofs LenientTables PropLenient PropInsitu OverrunProofs PropHostile PropOverrun.
From Coq Require Import ZifyBool ZifyNat ZifyN.

(** ** A build with NDEBUG *)

Lemma obind_na {A B} (x : outcome A) (f : A -> outcome B) : x <> Abort -> (forall a, x = Ok a -> f a <> Abort) -> obind x f <> Abort.
Proof. destruct x; cbn; intros H1 H2; try discriminate; auto. Qed.
Lemma omap_na {A B} (f : A -> B) (x : outcome A) : x <> Abort -> omap f x <> Abort.
Proof. destruct x; cbn; intros H1; try discriminate; auto. Qed.
Lemma read_byte_na content i : read_byte content i <> Abort.
Proof. unfold read_byte. destruct (_ <? _); [discriminate|]. destruct (_ =? _); discriminate. Qed.
Lemma read_range_na content a n : read_range content a n <> Abort.
Proof. unfold read_range. destruct (_ =? 0); [discriminate|]. destruct (_ <=? _); discriminate. Qed.
Lemma read_local_na R v : read_local R v <> Abort.
Proof. apply read_range_na. Qed.

Section Release.
  Variable c : cfg.
  Hypothesis Hrel : ndebug c = true.

  Lemma decode_na content bl fuel : forall ptr k sh r, varint_decode_loop c fuel content ptr k bl sh r <> Abort.
  Proof.
    induction fuel as [|f IH]; intros; cbn [varint_decode_loop]; [discriminate|].
    apply obind_na; [apply read_byte_na|]. intros b _. destruct (negb (_ <? 64)); [discriminate|].
    destruct (_ =? 0); [discriminate|]. rewrite Hrel. cbn [negb andb]. apply IH.
  Qed.

  Section Reader.
    Variable R : renv.
    Hypothesis HR : r_cfg R = c.
    Lemma check_empty_na s : check_empty R s <> Abort.
    Proof. unfold check_empty. destruct (_ <=? _)%Z; discriminate. Qed.
    Lemma check_oor_na s : check_oor R s <> Abort.
    Proof. unfold check_oor. destruct (_ <? _); discriminate. Qed.
    Lemma curAddr_na s : curAddr R s <> Abort.
    Proof. unfold curAddr. destruct (_ <=? _); discriminate. Qed.
    Lemma parseLength_na s : parseLength R s <> Abort.
    Proof.
      unfold parseLength. apply obind_na; [apply check_empty_na|intros _ _]. apply obind_na; [apply curAddr_na|intros a _].
      apply obind_na; [unfold varint_decode; rewrite HR; apply decode_na|intros [v n] _]. apply obind_na; [apply check_oor_na|discriminate].
    Qed.
    Lemma parseDataType_na s : parseDataType R s <> Abort.
    Proof.
      unfold parseDataType. apply obind_na; [apply check_empty_na|intros _ _]. apply obind_na; [apply curAddr_na|intros a _].
      apply obind_na; [apply read_byte_na|intros b _]. apply obind_na; [apply check_oor_na|discriminate].
    Qed.
    Lemma parseObjectType_na s : parseObjectType R s <> Abort.
    Proof.
      unfold parseObjectType. apply obind_na; [apply check_empty_na|intros _ _]. apply obind_na; [apply curAddr_na|intros a _].
      apply obind_na; [apply read_byte_na|intros b _]. apply obind_na; [apply check_oor_na|intros _ _]. destruct (CharToObjectType _); discriminate.
    Qed.
    Lemma parseObjectType_split_na s : parseObjectType_split R s <> Abort.
    Proof.
      unfold parseObjectType_split. apply obind_na; [apply check_empty_na|intros _ _]. apply obind_na; [apply curAddr_na|intros a _].
      apply obind_na; [apply read_byte_na|intros b _]. apply obind_na; [apply check_oor_na|intros _ _]. destruct (CharToObjectType _); discriminate.
    Qed.
    Lemma numbers_na fuel : forall n s acc, parse_numbers R fuel n s acc <> Abort.
    Proof.
      induction fuel as [|f IH]; intros n s acc; cbn [parse_numbers]; [discriminate|]. destruct (n =? 0); [discriminate|].
      apply obind_na; [apply parseLength_na|intros [v s1] _; apply IH].
    Qed.
    Lemma rows_na fuel : forall n s acc, si_construct_loop R fuel n s acc <> Abort.
    Proof.
      induction fuel as [|f IH]; intros n s acc; cbn [si_construct_loop]; [discriminate|]. destruct (n =? 0); [discriminate|].
      apply obind_na; [apply parseLength_na|intros [v s1] _]. apply obind_na; [apply parseLength_na|intros [w s2] _].
      apply obind_na; [apply numbers_na|intros [l s3] _]. destruct (assoc_find _ _ _); [discriminate|apply IH].
    Qed.
    Lemma split_na fuel : SplitInfo_Construct R fuel <> Abort.
    Proof. unfold SplitInfo_Construct. apply obind_na; [apply parseLength_na|intros [v s1] _; apply rows_na]. Qed.
    Lemma view_find_na k acc : view_find R k acc <> Abort.
    Proof. induction acc as [|[v i] acc IH]; cbn [view_find]; [discriminate|]. apply obind_na; [apply read_local_na|intros b _]. destruct (bytes_eqb k b); [discriminate|exact IH]. Qed.
    Lemma keys_na buf fuel : forall n s acc, sm_construct_loop R buf fuel n s acc <> Abort.
    Proof.
      induction fuel as [|f IH]; intros n s acc; cbn [sm_construct_loop]; [discriminate|]. destruct (n =? 0); [discriminate|].
      apply obind_na; [apply parseLength_na|intros [v s1] _]. apply obind_na; [apply curAddr_na|intros a _]. apply obind_na; [apply parseLength_na|intros [w s2] _].
      apply obind_na; [apply read_local_na|intros k _]. apply obind_na; [apply view_find_na|intros r _]. apply IH.
    Qed.
    Lemma map_na buf fuel : StringMap_Construct R buf fuel <> Abort.
    Proof. unfold StringMap_Construct. apply obind_na; [apply parseLength_na|intros [v s1] _]. apply obind_na; [apply keys_na|discriminate]. Qed.
    Lemma num_na content t a n : parse_num c content t a n <> Abort.
    Proof. unfold parse_num. rewrite Hrel. cbn [negb andb]. destruct (_ <? _); [discriminate|]. apply obind_na; [apply read_range_na|discriminate]. Qed.
    Lemma data_na content dt a n : parseData c content dt a n <> Abort.
    Proof.
      unfold parseData. destruct (_ || _); [apply omap_na, read_range_na|]. destruct (_ =? _); [apply omap_na, read_range_na|]. destruct (num_of_dt dt); [apply num_na|discriminate].
    Qed.
    Lemma data_view_na content buf dt a n : parseData_view c content buf dt a n <> Abort.
    Proof. unfold parseData_view. destruct (_ || _); [discriminate|]. destruct (num_of_dt dt); [apply num_na|discriminate]. Qed.
  End Reader.

  Lemma secondary_na content total : secondary_env c content total <> Abort.
  Proof.
    unfold secondary_env. apply obind_na; [|discriminate]. unfold parseLength_str. destruct (_ <=? _); [discriminate|].
    apply obind_na; [apply decode_na|intros [v n] _]. destruct (_ <? _); discriminate.
  Qed.
  Lemma secondary_cfg content total x : secondary_env c content total = Ok x -> r_cfg (fst x) = c.
  Proof. unfold secondary_env. intros H. apply obind_ok in H as ([v n] & _ & H). now injection H as <-. Qed.

  Lemma init_na fuel content buf : initFromContent c fuel content buf <> Abort.
  Proof.
    unfold initFromContent. destruct (_ <? _); [discriminate|]. apply obind_na; [unfold ParseTotalSize; destruct (_ <? _); discriminate|intros total _].
    apply obind_na.
    2:{ intros x _. destruct (_ =? 0); [discriminate|]. destruct (_ =? 10); discriminate. }
    destruct (_ =? _).
    { apply obind_na; [apply secondary_na|intros x Hx]. apply secondary_cfg in Hx. apply obind_na; [now apply split_na|discriminate]. }
    destruct (_ =? _); [|discriminate].
    apply obind_na; [apply secondary_na|intros x Hx]. apply secondary_cfg in Hx. apply obind_na; [now apply map_na|intros sm _].
    apply obind_na; [apply secondary_na|intros y Hy]. apply secondary_cfg in Hy. apply obind_na; [now apply split_na|discriminate].
  Qed.

  Section Prog.
    Variable get : N -> outcome view.
    Hypothesis Hget : forall id, get id <> Abort.
    Variable E : penv.
    Hypothesis HE : r_cfg (b_env E) = c.

    Lemma na_bind {A B} (q : prog A) (f : A -> prog B) : run get q <> Abort -> (forall a, run get (f a) <> Abort) -> run get (pbind q f) <> Abort.
    Proof. intros H1 H2. rewrite run_bind. apply obind_na; auto. Qed.
    Lemma na_lift {A} (x : outcome A) : x <> Abort -> run get (lift x) <> Abort.
    Proof. now rewrite run_lift. Qed.
    Lemma na_ret {A} (a : A) : run get (PRet a) <> Abort.
    Proof. discriminate. Qed.
    Lemma na_get {A} id (k : view -> prog A) : (forall v, run get (k v) <> Abort) -> run get (PGetStr id k) <> Abort.
    Proof. intros H. cbn [run]. apply obind_na; auto. Qed.
    Lemma hard_na rs : Forall (fun r : outcome block => r <> Abort) rs -> hard_failure rs <> Some FAbort.
    Proof. induction 1 as [|r rs Hr HF IH]; cbn [hard_failure]; [discriminate|]. destruct r; try discriminate; auto. Qed.
    Lemma na_par {A} ts (k : list (outcome block) -> prog A) : Forall (fun t => run get t <> Abort) ts ->
      (forall rs, Forall (fun r : outcome block => r <> Abort) rs -> run get (k rs) <> Abort) -> run get (PPar ts k) <> Abort.
    Proof.
      intros H1 H2. cbn [run]. assert (HF : Forall (fun r : outcome block => r <> Abort) (map (fun t => run get t) ts)) by now apply Forall_map.
      pose proof (hard_na _ HF). destruct (hard_failure _) as [[]|]; try discriminate; [congruence|auto].
    Qed.
    Lemma merge_na {A} (f : A -> outcome block -> outcome A) : (forall a r, r <> Abort -> f a r <> Abort) ->
      forall rs acc, Forall (fun r : outcome block => r <> Abort) rs -> merge_all f acc rs <> Abort.
    Proof. intros Hf. induction rs as [|r rs IH]; intros acc HF; cbn [merge_all]; [discriminate|]. inversion HF; subst. apply obind_na; auto. Qed.

    Ltac step := first
      [ apply na_bind; [|intros [? ?]] | apply na_bind; [|intros ?] | apply na_lift | apply na_ret | discriminate
      | apply parseLength_na; exact HE | apply parseDataType_na; exact HE | apply parseObjectType_na; exact HE | apply parseObjectType_split_na; exact HE | apply curAddr_na
      | apply check_oor_na | apply read_local_na | apply na_get; intros ? ].

    Lemma Data_na r s : run get (Data_valueParse E r s) <> Abort.
    Proof.
      unfold Data_valueParse. apply na_bind; [repeat step|intros [dt s1]]. destruct (negb _); [discriminate|]. destruct (_ && _).
      - repeat step. destruct r; repeat step.
      - apply na_bind; [repeat step|intros [size s2]]. apply na_bind; [repeat step|intros a]. apply na_bind.
        + apply na_lift. rewrite HE. destruct r; [apply data_view_na|apply data_na].
        + intros d. repeat step.
    Qed.
    Lemma key_na s : run get (parse_key E s) <> Abort.
    Proof. unfold parse_key. destruct (ModelParse.b_map E); repeat step. Qed.
    Lemma block_key_na s : run get (block_key E s) <> Abort.
    Proof. unfold block_key. destruct (ModelParse.b_map E); repeat step. Qed.

    Lemma values_na p r fuel :
      (forall t s, run get (valueParse E p r fuel t s) <> Abort) /\
      (forall n s acc, run get (array_loop E p r fuel n s acc) <> Abort) /\
      (forall n s acc, run get (map_loop E p r fuel n s acc) <> Abort) /\
      (forall n s acc, run get (mapview_loop E p r fuel n s acc) <> Abort).
    Proof.
      induction fuel as [|f (V & A & M & W)]; [repeat split; discriminate|]. repeat split; intros; cbn [valueParse array_loop map_loop mapview_loop].
      - destruct t; [apply Data_na| |]; (apply na_bind; [repeat step|intros [n s1]]); (apply na_bind; [repeat step|intros [i s2]]).
        + destruct r; [apply na_bind; [apply W|intros [? ?]; discriminate]|]. apply na_bind; [repeat step|intros _]. apply na_bind; [apply M|intros [? ?]; discriminate].
        + apply na_bind; [apply A|intros [? ?]; discriminate].
      - destruct (n =? 0); [discriminate|]. apply na_bind; [repeat step|intros [t s1]]. apply na_bind; [apply V|intros [o s2]; apply A].
      - destruct (n =? 0); [discriminate|]. apply na_bind; [apply key_na|intros [k s1]]. apply na_bind; [repeat step|intros [t s2]]. apply na_bind; [apply V|intros [o s3]].
        apply na_bind; [repeat step|intros b; apply M].
      - destruct (n =? 0); [discriminate|]. apply na_bind; [apply key_na|intros [k s1]]. apply na_bind; [repeat step|intros [t s2]]. apply na_bind; [apply V|intros [o s3]; apply W].
    Qed.

    Lemma blocks_na si fuel :
      (forall r os, run get (ParseArray E si fuel r os) <> Abort) /\
      (forall r os, run get (ParseMap E si fuel r os) <> Abort) /\
      (forall r s, run get (block_value E si fuel r s) <> Abort) /\
      (forall r e s acc n, run get (ParseArrayBlock E si fuel r e s acc n) <> Abort) /\
      (forall e s acc n, run get (ParseMapBlock E si fuel e s acc n) <> Abort) /\
      (forall e s acc n, run get (ParseMapViewBlock E si fuel e s acc n) <> Abort).
    Proof.
      induction fuel as [|f (A & M & V & AB & MB & WB)]; [repeat split; discriminate|].
      assert (HM : forall acc rs, Forall (fun r : outcome block => r <> Abort) rs -> merge_all merge_arr acc (rev rs) <> Abort).
      { intros. apply merge_na; [|now apply Forall_rev]. intros a x Hx. unfold merge_arr. apply obind_na; [exact Hx|]. intros []; discriminate. }
      assert (HM2 : forall acc rs, Forall (fun r : outcome block => r <> Abort) rs -> merge_all merge_map acc rs <> Abort).
      { intros. apply merge_na; [|assumption]. intros a x Hx. unfold merge_map. apply obind_na; [exact Hx|]. intros []; discriminate. }
      assert (HM3 : forall acc rs, Forall (fun r : outcome block => r <> Abort) rs -> merge_all merge_mapview acc rs <> Abort).
      { intros. apply merge_na; [|assumption]. intros a x Hx. unfold merge_mapview. apply obind_na; [exact Hx|]. intros []; discriminate. }
      repeat split; intros; cbn [ParseArray ParseMap block_value ParseArrayBlock ParseMapBlock ParseMapViewBlock].
      - apply na_bind; [repeat step|intros [? s1]]. apply na_bind; [repeat step|intros [id s2]].
        apply na_bind; [apply na_lift; unfold GetBlockInfoFromId; destruct (assoc_find _ _ _); discriminate|intros l]. destruct (ranges _ _) as [rs last].
        apply na_par; [apply Forall_map, Forall_forall; intros; apply AB|intros os' HF]. apply na_bind; [apply na_lift, HM, HF|intros [? ?]; discriminate].
      - apply na_bind; [repeat step|intros [? s1]]. apply na_bind; [repeat step|intros [id s2]].
        apply na_bind; [apply na_lift; unfold GetBlockInfoFromId; destruct (assoc_find _ _ _); discriminate|intros l]. destruct (ranges _ _) as [rs last].
        destruct r; (apply na_par; [apply Forall_map, Forall_forall; intros; first [apply MB|apply WB]|intros os' HF]);
          (apply na_bind; [apply na_lift; first [apply HM2|apply HM3]; exact HF|intros [? ?]; discriminate]).
      - apply na_bind; [repeat step|intros [[t sp] s1]]. destruct sp.
        + destruct t; [discriminate| |]; (apply na_bind; [first [apply A|apply M]|intros [? ?]; discriminate]).
        + apply (values_na CoroFrame r f).
      - destruct (_ <? _); [|discriminate]. apply na_bind; [apply V|intros [o s1]; apply AB].
      - destruct (_ <? _); [|discriminate]. apply na_bind; [apply block_key_na|intros [k s1]]. apply na_bind; [repeat step|intros b].
        apply na_bind; [apply V|intros [o s2]; apply MB].
      - destruct (_ <? _); [|discriminate]. apply na_bind; [apply block_key_na|intros [k s1]].
        apply na_bind; [apply V|intros [o s2]; apply WB].
    Qed.
  End Prog.

  Lemma take_na content o : take_root content o <> Abort.
  Proof.
    unfold take_root. destruct o; try discriminate. apply obind_na; [|discriminate].
    induction items as [|[v o] items IH]; cbn [MapView_take]; [discriminate|]. apply obind_na; [unfold read_view; apply read_range_na|intros b _].
    destruct (bytes_eqb _ _); [discriminate|]. apply obind_na; [exact IH|intros [? ?]; discriminate].
  Qed.
  Lemma getter_na m id : getter c m id <> Abort.
  Proof. destruct m as [m|]; [|discriminate]. cbn [getter]. apply obind_na; [|discriminate]. unfold GetStr. destruct (assoc_find _ _ _); discriminate. Qed.
End Release.

Notation normal_scheduler r := {| po_type := Normal; po_ref := r |}.

(** C94.  A build with NDEBUG fails no assert, on no input whatever, in no mode. *)
Theorem C94_release : forall c fuel content buf p po, ndebug c = true -> Parse c fuel content buf p po <> Abort.
Proof.
  intros c fuel content buf p po Hrel. unfold Parse. apply obind_na; [now apply init_na|intros sc _].
  assert (HN : run (getter c (sc_map sc)) (NormalParse_prog (doc_env c content buf sc) fuel (po_ref po) p (sc_total sc)) <> Abort).
  { unfold NormalParse_prog. apply na_bind; [apply (values_na c Hrel (getter c (sc_map sc)) (getter_na c _) (doc_env c content buf sc) eq_refl)|intros [root s]].
    destruct (negb _); [discriminate|]. apply na_lift, take_na. }
  unfold Parse_prog. destruct (po_type po); [exact HN|]. destruct (sc_need_to_split sc); [|exact HN].
  unfold CoroParse_prog. apply na_bind; [apply (blocks_na c Hrel (getter c (sc_map sc)) (getter_na c _) (doc_env c content buf sc) eq_refl)|intros [root s]]. apply na_lift, take_na.
Qed.

(** A debug build of the sequential parser fails one exactly on the documents that hold
    a number of another size than its type, or a number field cut off by the end. *)
Theorem C94_exactly : forall c fuel content buf p r ty D,
  sane c -> fits c content -> small_numbers content -> (length content <= fuel)%nat -> framed content ty D ->
  Parse c fuel content buf p (normal_scheduler r) = Abort <-> harms (negb r) (negb (ndebug c)) D content FailedAssert TMap 10.
Proof. intros. now apply (framed_harm FailedAssert c fuel content buf p r ty D). Qed.

(** On all other documents of that kind Parse returns or throws. *)
Theorem C94_otherwise : forall c fuel content buf p r ty D,
  sane c -> len content < 2 ^ 31 -> short_numbers content -> (length content + 3 <= fuel)%nat -> framed content ty D ->
  (forall h, ~ harms (negb r) (negb (ndebug c)) D content h TMap 10) ->
  (exists o, Parse c fuel content buf p (normal_scheduler r) = Ok o) \/ exists e, Parse c fuel content buf p (normal_scheduler r) = Throw e.
Proof.
  intros c fuel content buf p r ty D Hs Hl Hsh Hf Hfr HN.
  assert (HL : fits c content) by (unfold fits; change (2 ^ 32) with 4294967296; change (2 ^ 31) with 2147483648 in *; destruct (ndebug c); lia).
  destruct (Parse c fuel content buf p (normal_scheduler r)) as [o|e| | |] eqn:HP; [eauto|eauto| | |].
  - exfalso. apply (HN FailedAssert). apply (C94_exactly c fuel content buf p r ty D); auto using vints_short; lia.
  - exfalso. apply (HN Undefined). apply (C91_exactly c fuel content buf p r ty D); auto using vints_short; lia.
  - exfalso. revert HP. apply Parse_ends; auto. left. apply short_tame. exact Hsh.
Qed.

(** Case: the document with the five-byte 32-bit number of C91. *)
Example C94_met :
  (sane x86_debug /\ short_numbers wide_number_doc /\ framed wide_number_doc NORMAL None /\
   (forall copying, harms copying true None wide_number_doc FailedAssert TMap 10) /\
   Parse x86_debug 100 wide_number_doc 7 p1 sequential = Abort) /\
  (forall po, Parse x86_release 100 wide_number_doc 7 p1 po <> Abort).
Proof.
  destruct C91_met as (_ & (Hs & _ & Hfr & _ & _ & _ & HA)).
  split; [|intros; apply C94_release; reflexivity].
  split; [apply x86_debug_sane|]. split; [exact Hs|]. split; [exact Hfr|]. split; [|exact HA].
  intros copying. rewrite <- (Bool.negb_involutive copying).
  apply (C94_exactly x86_debug 100 wide_number_doc 7 p1 (negb copying) NORMAL None); auto.
  - apply x86_debug_sane.
  - vm_compute. reflexivity.
  - apply vints_short, Hs.
  - vm_compute. lia.
  - destruct copying; vm_compute; reflexivity.
Qed.

(** And for [C94_otherwise]: read in place, the over-long string of C91 is refused. *)
Example C94_otherwise_met :
  sane x86_debug /\ len long_string_doc < 2 ^ 31 /\ short_numbers long_string_doc /\ framed long_string_doc NORMAL None /\
  (forall h, ~ harms false true None long_string_doc h TMap 10) /\
  Parse x86_debug 100 long_string_doc 7 p1 (normal_scheduler true) = Throw ERuntime.
Proof.
  destruct C91_met as ((Hs & _ & Hfr & _) & _).
  assert (HP : Parse x86_debug 100 long_string_doc 7 p1 (normal_scheduler true) = Throw ERuntime) by (vm_compute; reflexivity).
  split; [apply x86_debug_sane|]. split; [reflexivity|]. split; [exact Hs|]. split; [exact Hfr|]. split; [|exact HP].
  intros h Hh. apply (framed_harm h x86_debug 100 long_string_doc 7 p1 true NORMAL None) in Hh.
  - rewrite HP in Hh. now apply throw_out in Hh.
  - apply x86_debug_sane.
  - reflexivity.
  - apply vints_short, Hs.
  - vm_compute. lia.
  - exact Hfr.
Qed.
