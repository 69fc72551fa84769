(** * C110: the order of map entries after a parse. *)
From Verif Require Import Base BaseLemmas ModelVarint ModelData ModelSecondary ModelObject ModelParse ModelWrapper Spec SpecApi Wire SeriProofs SeriProofs2 DocProofs ParseLemmas
  NormalProofs SecondaryProofs ValueProofs Order ParaProofs RoundTrip Samples.
From Coq Require Import ZifyBool ZifyNat ZifyN Permutation.

(** C110, what there is.  Parsing a serialized object, with either scheduler, copying or in
    place: arrays have the order they had; the entries of every map, cut into consecutive
    runs, come with the runs in reverse order.  Sequentially every run is one entry. *)
Theorem C110_order_partial : forall cs cp mem ty p o v content buf fuel p' po,
  sane cs -> sane cp -> denotes mem o v -> (po_ref po = true -> no_custom v) ->
  Serialize cs mem ty p o = Ok content -> fits cp content -> (length content <= fuel)%nat ->
  exists o' v', Parse cp fuel content buf p' po = Ok o' /\
    regrouped v v' /\ (po_type po = Normal -> v' = mirror v) /\
    forall mem', (po_ref po = true -> mem' buf = Some content) -> denotes mem' o' v'.
Proof.
  intros cs cp mem ty p o v content buf fuel p' po Hcs Hcp Hd Hnc Hs HL Hf.
  destruct (Serialize_document cs mem ty p o v Hcs Hd) as (content' & Hs' & Hdoc). rewrite Hs in Hs'. injection Hs' as <-.
  assert (H32 : len content < W32) by (unfold fits in HL; rewrite W32_val; destruct (ndebug cp); lia). specialize (Hdoc H32).
  destruct (Parse_document_order cp (split_block_size cs) ty v content [] buf fuel p' po Hcp Hdoc) as (o' & v' & HP & Hr & Hn & Ho & _); rewrite ?app_nil_r in *; auto.
  exists o', v'. auto.
Qed.

(** Documents smaller than a block (10 MB in the code) are not split, and the parallel
    parser treats them like the sequential one: the same object, so the order of C21. *)
Theorem C110_small_documents : forall cs cp mem ty p o v content buf fuel p' pr,
  sane cs -> sane cp -> denotes mem o v ->
  Serialize cs mem ty p o = Ok content -> fits cp content -> (length content <= fuel)%nat ->
  len content < split_block_size cs ->
  Parse cp fuel content buf p' {| po_type := Coroutine; po_ref := pr |} = Parse cp fuel content buf p' {| po_type := Normal; po_ref := pr |}.
Proof.
  intros cs cp mem ty p o v content buf fuel p' pr Hcs Hcp Hd Hs HL Hf Hsmall.
  destruct (Serialize_document cs mem ty p o v Hcs Hd) as (content' & Hs' & Hdoc). rewrite Hs in Hs'. injection Hs' as <-.
  assert (H32 : len content < W32) by (unfold fits in HL; rewrite W32_val; destruct (ndebug cp); lia). specialize (Hdoc H32).
  assert (HL' : lim cp (len (content ++ []))) by (rewrite app_nil_r; exact HL).
  destruct (init_ok cp (split_block_size cs) ty v content [] buf fuel Hcp Hdoc HL' Hf)
    as (sc & body & fl & ks & info & Y & Hinit & (hd & Hhd & Hcont) & HY & Hw & Htot & Hfl & Hinfo & Hmp & Hans & Hlb).
  rewrite app_nil_r in *. unfold Parse. rewrite Hinit. cbn [obind]. unfold Parse_prog. cbn [po_type po_ref]. rewrite Hfl.
  destruct fl; [|reflexivity]. exfalso.
  assert (Hle : len body <= len content) by (rewrite Hcont, !len_app; lia). clear Hcont.
  inversion Hw as [| |l id chunks fl L1 L2 HF HS]; subst. destruct HS as (groups & -> & _ & Hne & _ & Hbig & Hone).
  assert (Hin : exists g, In g groups /\ split_block_size cs <= block_size g).
  { destruct groups as [|g [|g2 groups]]; [congruence| |].
    - exists g. split; [now left|]. specialize (Hone eq_refl). now inversion Hone.
    - exists g. split; [now left|]. cbn [removelast] in Hbig. now inversion Hbig. }
  destruct Hin as (g & Hg & Hsz). apply in_split in Hg as (g1 & g2 & ->). unfold block_size in Hsz.
  rewrite !concat_app in Hle. cbn [concat] in Hle. rewrite !concat_app in Hle. rewrite !len_app in Hle. lia.
Qed.

(** The full claim - one parse reverses every map, a second one restores it, whichever
    scheduler (C21) - does not hold for the parallel parser: {"a": x, "b": xxxx, "c": x} is
    cut after "b" (blocks of eight bytes), so "c" moves to the front but "a" and "b" keep
    their order; the next time the cut is elsewhere, and the original order does not
    come back, although sequentially it does. *)
Definition string_of (n : nat) : obj := OData 0 (SVec (repeat (n2b 120) n)).
Definition three : obj := OMap (PoolId 0) 3 [([n2b 97], string_of 1); ([n2b 98], string_of 4); ([n2b 99], string_of 1)].
Definition map_keys (o : obj) : list bytes := match o with OMap _ _ l => map fst l | _ => [] end.
Definition value_of_three : value :=
  VMap [([n2b 97], VScalar (VBytes (repeat (n2b 120) 1))); ([n2b 98], VScalar (VBytes (repeat (n2b 120) 4))); ([n2b 99], VScalar (VBytes (repeat (n2b 120) 1)))].
Definition trip (sch : SchedulerType) (o o' : obj) : Prop :=
  exists content, Serialize tiny (fun _ => None) NORMAL (PoolId 0) o = Ok content /\ fits tiny content /\ (length content <= 300)%nat /\
    Parse tiny 300 content 0 (PoolId 0) {| po_type := sch; po_ref := false |} = Ok o'.
Theorem C110_two_parallel_trips_refuted :
  denotes (fun _ => None) three value_of_three /\
  map_keys three = [[n2b 97]; [n2b 98]; [n2b 99]] /\
  (exists o1 o2, trip Normal three o1 /\ trip Normal o1 o2 /\ map_keys o1 = [[n2b 99]; [n2b 98]; [n2b 97]] /\ map_keys o2 = map_keys three) /\
  (exists o1 o2, trip Coroutine three o1 /\ trip Coroutine o1 o2 /\ map_keys o1 = [[n2b 99]; [n2b 97]; [n2b 98]] /\ map_keys o2 = [[n2b 98]; [n2b 99]; [n2b 97]]).
Proof.
  split; [unfold three, value_of_three, string_of; repeat (first [ apply den_map | apply den_array | apply den_data | apply Forall2_cons | apply Forall2_nil | split | reflexivity | constructor ])|].
  split; [reflexivity|]. split; eexists _, _; (split; [eexists; split; [vm_compute; reflexivity|split; [vm_compute; reflexivity|split; [vm_compute; lia|vm_compute; reflexivity]]]|]);
    (split; [eexists; split; [vm_compute; reflexivity|split; [vm_compute; reflexivity|split; [vm_compute; lia|vm_compute; reflexivity]]]|]); split; reflexivity.
Qed.

(** ... and the partial theorem has content there: the runs are ["a", "b"] and ["c"]. *)
Example C110_met : exists o1, trip Coroutine three o1 /\ sane tiny /\ no_custom value_of_three /\
  exists v', denotes (fun _ => None) o1 v' /\ regrouped value_of_three v' /\ v' <> mirror value_of_three /\ v' <> value_of_three.
Proof.
  eexists. split; [eexists; split; [vm_compute; reflexivity|split; [vm_compute; reflexivity|split; [vm_compute; lia|vm_compute; reflexivity]]]|]. split; [apply tiny_sane|].
  split; [unfold value_of_three; repeat (first [ apply nc_map | apply nc_arr | (apply nc_scalar; discriminate) | apply Forall_cons | apply Forall_nil ])|].
  exists (VMap [([n2b 99], VScalar (VBytes (repeat (n2b 120) 1))); ([n2b 97], VScalar (VBytes (repeat (n2b 120) 1))); ([n2b 98], VScalar (VBytes (repeat (n2b 120) 4)))]).
  split; [repeat (first [ apply den_map | apply den_array | apply den_data | apply Forall2_cons | apply Forall2_nil | split | reflexivity | constructor ])|].
  split; [|split; discriminate].
  apply (rg_map [[([n2b 97], VScalar (VBytes (repeat (n2b 120) 1))); ([n2b 98], VScalar (VBytes (repeat (n2b 120) 4)))]; [([n2b 99], VScalar (VBytes (repeat (n2b 120) 1)))]]).
  repeat (first [ apply Forall2_cons | apply Forall2_nil | split | reflexivity | constructor ]).
Qed.
