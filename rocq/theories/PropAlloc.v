(** * C98: the objects a sequential parse takes from the caller's pool. *)
From Verif Require Import Base BaseLemmas ModelVarint ModelData ModelSecondary ModelObject
  ModelParse ModelWrapper ModelStorage ModelAlloc Spec SpecApi VarintProofs Wire NumProofs SeriProofs SeriProofs2 DocProofs ObjInd ParseLemmas
  NormalProofs SecondaryProofs ValueProofs ParaProofs GeneralProofs FrameProofs TermProofs Samples PropDocument PropHostile
  Lenient LenientPara LenientProofs LenientTables LenientRef PropLenient LenientParaProofs PropPara PropInsitu InsituSim InsituBack PropInsituPara
  Overrun OverrunProofs PropOverrun.
From Coq Require Import ZifyBool ZifyNat ZifyN Permutation.

(** ** Specification: the objects that hold a value
    One object per value, of the class of its type, and one item per element of an
    array and per entry of a map. *)
Definition class_of (views : bool) (v : value) : cls :=
  match v with
  | VScalar _ => if views then KDataView else KData
  | VArr _ => KArray
  | VMap _ => if views then KMapView else KMap
  end.
Fixpoint objects (views : bool) (v : value) : list cls :=
  class_of views v ::
  match v with
  | VScalar _ => []
  | VArr l => flat_map (fun x => KArrayItem :: objects views x) l
  | VMap l => flat_map (fun e => (if views then KMapViewItem else KMapItem) :: objects views (snd e)) l
  end.

(** ** Objects of a tree *)
Definition cls_of (o : obj) : cls :=
  match o with OData _ _ => KData | ODataView _ _ => KDataView | OArray _ _ _ => KArray | OMap _ _ _ => KMap | OMapView _ _ _ => KMapView | ONull => KData end.
Fixpoint below (o : obj) : list cls :=
  match o with
  | OArray _ _ l => flat_map (fun x => KArrayItem :: cls_of x :: below x) l
  | OMap _ _ l => flat_map (fun e => KMapItem :: cls_of (snd e) :: below (snd e)) l
  | OMapView _ _ l => flat_map (fun e => KMapViewItem :: cls_of (snd e) :: below (snd e)) l
  | _ => []
  end.

Lemma perm_item (k i : cls) a b r r' : Permutation a b -> Permutation r r' -> Permutation (k :: a ++ i :: r) ((i :: k :: b) ++ r').
Proof.
  intros H1 H2. cbn [app]. rewrite <- Permutation_middle. etransitivity; [apply perm_swap|]. do 2 apply perm_skip. now apply Permutation_app.
Qed.

Section Exact.
  Variable E : penv.
  Variable get : N -> outcome view.
  Variable p : pool.
  Variable pr : bool.
  Notation R := (b_env E).
  Notation arr_item := (fun x => KArrayItem :: cls_of x :: below x).
  Notation map_item := (fun e : bytes * obj => KMapItem :: cls_of (snd e) :: below (snd e)).
  Notation view_item := (fun e : view * obj => KMapViewItem :: cls_of (snd e) :: below (snd e)).

  Lemma data_class s o s' : run get (Data_valueParse E pr s) = Ok (o, s') -> cls_of o = kind pr TData /\ below o = [].
  Proof.
    unfold Data_valueParse. rewrite run_bind, run_lift. intros H. apply obind_ok in H as ([dt s1] & _ & H).
    destruct (negb (valid_data_type dt)); [discriminate|]. destruct (_ && _).
    - rewrite run_bind, run_lift in H. apply obind_ok in H as ([id s2] & _ & H). cbn [run] in H. apply obind_ok in H as (v & _ & H). destruct pr.
      + injection H as <- <-. auto.
      + rewrite run_bind, run_lift in H. apply obind_ok in H as (x & _ & H). injection H as <- <-. auto.
    - rewrite run_bind, run_lift in H. apply obind_ok in H as ([sz s2] & _ & H). rewrite run_bind, run_lift in H. apply obind_ok in H as (a & _ & H).
      rewrite run_bind, run_lift in H. apply obind_ok in H as (d & _ & H). rewrite run_bind, run_lift in H. apply obind_ok in H as (x & _ & H).
      cbn [run] in H. destruct pr; injection H as <- <-; auto.
  Qed.

  Lemma value_allocs_S f t s : value_allocs E get p pr (S f) t s =
    match t with
    | TData => []
    | _ =>
        match obind (parseLength R s) (fun x => omap (fun y => (fst x, snd y)) (parseLength R (snd x))) with
        | Ok (count, s2) =>
            match t with
            | TArray => array_allocs E get p pr f count s2
            | _ => if pr then entry_allocs E get p pr f count s2
                   else match check_oor R s2 with Ok _ => entry_allocs E get p pr f count s2 | _ => [] end
            end
        | _ => []
        end
    end.
  Proof. reflexivity. Qed.
  Lemma array_allocs_S f n s : array_allocs E get p pr (S f) n s =
    if n =? 0 then [] else
    match parseObjectType R s with
    | Ok (t, s1) => kind pr t :: value_allocs E get p pr f t s1 ++
        match run get (valueParse E p pr f t s1) with Ok (_, s2) => KArrayItem :: array_allocs E get p pr f (n - 1) s2 | _ => [] end
    | _ => []
    end.
  Proof. reflexivity. Qed.
  Lemma entry_allocs_S f n s : entry_allocs E get p pr (S f) n s =
    if n =? 0 then [] else
    match run get (parse_key E s) with
    | Ok (kv, s1) =>
        match parseObjectType R s1 with
        | Ok (t, s2) => kind pr t :: value_allocs E get p pr f t s2 ++
            match run get (valueParse E p pr f t s2) with
            | Ok (_, s3) => match (if pr then Ok [] else read_local R kv) with Ok _ => entry_kind pr :: entry_allocs E get p pr f (n - 1) s3 | _ => [] end
            | _ => [] end
        | _ => [] end
    | _ => [] end.
  Proof. reflexivity. Qed.

  Lemma allocs_exact : forall fuel,
    (forall t s o s', run get (valueParse E p pr fuel t s) = Ok (o, s') -> cls_of o = kind pr t /\ Permutation (value_allocs E get p pr fuel t s) (below o)) /\
    (forall n s acc l s', run get (array_loop E p pr fuel n s acc) = Ok (l, s') ->
       exists new, l = new ++ acc /\ Permutation (array_allocs E get p pr fuel n s) (flat_map arr_item new)) /\
    (forall n s acc l s', pr = false -> run get (map_loop E p pr fuel n s acc) = Ok (l, s') ->
       exists new, l = new ++ acc /\ Permutation (entry_allocs E get p pr fuel n s) (flat_map map_item new)) /\
    (forall n s acc l s', pr = true -> run get (mapview_loop E p pr fuel n s acc) = Ok (l, s') ->
       exists new, l = new ++ acc /\ Permutation (entry_allocs E get p pr fuel n s) (flat_map view_item new)).
  Proof.
    assert (Hflat : forall X (g : X -> list cls) (new : list X) x rest, Permutation rest (flat_map g new) -> Permutation (g x ++ rest) (flat_map g (new ++ [x]))).
    { intros X g new x rest H. rewrite flat_map_app. cbn [flat_map]. rewrite app_nil_r. etransitivity; [apply Permutation_app_comm|]. now apply Permutation_app_tail. }
    induction fuel as [|f (IV & IA & IM & IW)].
    { repeat split; intros; discriminate. }
    split; [|split; [|split]].
    - intros t s o s' H. rewrite value_allocs_S. cbn [valueParse] in H. destruct t.
      + apply data_class in H as [H1 H2]. split; [exact H1|]. now rewrite H2.
      + rewrite run_bind, run_lift in H. apply obind_ok in H as ([n s1] & H1 & H). rewrite run_bind, run_lift in H. apply obind_ok in H as ([id s2] & H2 & H).
        rewrite H1. cbn [obind fst snd]. rewrite H2. unfold omap. cbn [obind fst snd]. destruct pr eqn:Hpr.
        * rewrite run_bind in H. apply obind_ok in H as ([items s3] & H3 & H). injection H as <- <-. split; [reflexivity|].
          destruct (IW _ _ _ _ _ eq_refl H3) as (new & -> & HP). cbn [below]. now rewrite app_nil_r.
        * rewrite run_bind, run_lift in H. apply obind_ok in H as ([] & H4 & H). rewrite H4. rewrite run_bind in H. apply obind_ok in H as ([items s3] & H3 & H). injection H as <- <-. split; [reflexivity|].
          destruct (IM _ _ _ _ _ eq_refl H3) as (new & -> & HP). cbn [below]. now rewrite app_nil_r.
      + rewrite run_bind, run_lift in H. apply obind_ok in H as ([n s1] & H1 & H). rewrite run_bind, run_lift in H. apply obind_ok in H as ([id s2] & H2 & H).
        rewrite H1. cbn [obind fst snd]. rewrite H2. unfold omap. cbn [obind fst snd].
        rewrite run_bind in H. apply obind_ok in H as ([items s3] & H3 & H). injection H as <- <-. split; [reflexivity|].
        destruct (IA _ _ _ _ _ H3) as (new & -> & HP). cbn [below]. rewrite app_nil_r. rewrite HP. apply Permutation_flat_map. apply Permutation_rev.
    - intros n s acc l s' H. rewrite array_allocs_S; cbn [array_loop] in H. destruct (n =? 0); [injection H as <- <-; exists []; auto|].
      rewrite run_bind, run_lift in H. apply obind_ok in H as ([t s1] & H1 & H). rewrite run_bind in H. apply obind_ok in H as ([o s2] & H2 & H).
      rewrite H1, H2. destruct (IV _ _ _ _ H2) as [C1 P1]. destruct (IA _ _ _ _ _ H) as (new & -> & HP). exists (new ++ [o]). split; [now rewrite <- app_assoc|].
      etransitivity; [|apply Hflat, HP]. rewrite <- C1. apply perm_item; auto.
    - intros n s acc l s' Hpr H. rewrite entry_allocs_S; cbn [map_loop] in H. destruct (n =? 0); [injection H as <- <-; exists []; auto|].
      rewrite run_bind in H. apply obind_ok in H as ([kv s0] & H0 & H). rewrite run_bind, run_lift in H. apply obind_ok in H as ([t s1] & H1 & H).
      rewrite run_bind in H. apply obind_ok in H as ([o s2] & H2 & H). rewrite run_bind, run_lift in H. apply obind_ok in H as (key & H3 & H).
      rewrite H0, H1, H2. destruct (IV _ _ _ _ H2) as [C1 P1]. destruct (IM _ _ _ _ _ Hpr H) as (new & -> & HP). exists (new ++ [(key, o)]). split; [now rewrite <- app_assoc|].
      etransitivity; [|apply Hflat, HP]. rewrite <- C1. replace (if pr then Ok [] else read_local R kv) with (Ok key) by (rewrite Hpr; now symmetry).
      replace (entry_kind pr) with KMapItem by (rewrite Hpr; reflexivity). apply (perm_item (cls_of o) KMapItem); auto.
    - intros n s acc l s' Hpr H. rewrite entry_allocs_S; cbn [mapview_loop] in H. destruct (n =? 0); [injection H as <- <-; exists []; auto|].
      rewrite run_bind in H. apply obind_ok in H as ([kv s0] & H0 & H). rewrite run_bind, run_lift in H. apply obind_ok in H as ([t s1] & H1 & H).
      rewrite run_bind in H. apply obind_ok in H as ([o s2] & H2 & H).
      rewrite H0, H1, H2. destruct (IV _ _ _ _ H2) as [C1 P1]. destruct (IW _ _ _ _ _ Hpr H) as (new & -> & HP). exists (new ++ [(kv, o)]). split; [now rewrite <- app_assoc|].
      etransitivity; [|apply Hflat, HP]. rewrite <- C1. replace (if pr then Ok [] else read_local R kv) with (@Ok bytes []) by (rewrite Hpr; reflexivity).
      replace (entry_kind pr) with KMapViewItem by (rewrite Hpr; reflexivity). apply (perm_item (cls_of o) KMapViewItem); auto.
  Qed.
End Exact.

(** ** Trees and values *)
Lemma flat_map_rev {X Y} (g : X -> list Y) l : Permutation (flat_map g (rev l)) (flat_map g l).
Proof. apply Permutation_flat_map. symmetry. apply Permutation_rev. Qed.
Lemma flat_map_perm {X Y} (g h : X -> list Y) l : Forall (fun x => Permutation (g x) (h x)) l -> Permutation (flat_map g l) (flat_map h l).
Proof. induction 1 as [|x l H Hl IH]; cbn; [constructor|now apply Permutation_app]. Qed.

Lemma objects_mirror views : forall v, Permutation (objects views (mirror v)) (objects views v).
Proof.
  induction v as [x|l IH|l IH] using value_ind'; cbn [mirror objects class_of].
  - reflexivity.
  - apply perm_skip. rewrite flat_map_concat_map, map_map, <- flat_map_concat_map. apply flat_map_perm.
    eapply Forall_impl; [|exact IH]. intros v H. cbn beta. now apply perm_skip.
  - apply perm_skip. rewrite flat_map_rev. rewrite flat_map_concat_map, map_map, <- flat_map_concat_map. apply flat_map_perm.
    eapply Forall_impl; [|exact IH]. intros v H. cbn [snd]. now apply perm_skip.
Qed.

Lemma objects_tree p : forall v, Permutation (cls_of (tree_of p v) :: below (tree_of p v)) (objects false v).
Proof.
  induction v as [x|l IH|l IH] using value_ind'; cbn [tree_of objects class_of cls_of below].
  - reflexivity.
  - apply perm_skip. rewrite flat_map_rev. rewrite flat_map_concat_map, map_map, <- flat_map_concat_map. apply flat_map_perm.
    eapply Forall_impl; [|exact IH]. intros v H. cbn beta. now apply perm_skip.
  - apply perm_skip. rewrite flat_map_concat_map, map_map, <- flat_map_concat_map. apply flat_map_perm.
    eapply Forall_impl; [|exact IH]. intros v H. cbn [snd]. now apply perm_skip.
Qed.

(** The class of the in-place object for an owned one. *)
Definition viewed (k : cls) : cls := match k with KData => KDataView | KMap => KMapView | KMapItem => KMapViewItem | k => k end.

Lemma objects_viewed : forall v, objects true v = map viewed (objects false v).
Proof.
  induction v as [x|l IH|l IH] using value_ind'; cbn [objects class_of map viewed]; f_equal.
  - induction IH as [|v l H Hl IH]; cbn [flat_map map]; [reflexivity|]. rewrite map_app, <- IH, H. reflexivity.
  - induction IH as [|v l H Hl IH]; cbn [flat_map map]; [reflexivity|]. rewrite map_app, <- IH, H. reflexivity.
Qed.

Lemma echo_viewed content buf : forall o o', echo content buf o' o -> cls_of o' = viewed (cls_of o) /\ below o' = map viewed (below o).
Proof.
  induction o as [|dt s|dt s|p n items IH|p n items IH|p n items IH] using obj_ind'; intros o' He; inversion He; subst; cbn [cls_of below viewed map]; auto; split; auto.
  - match goal with H : Forall2 _ _ _ |- _ => rename H into HE end. clear - HE IH.
    induction HE as [|x y a b H HE IHl]; cbn [flat_map map]; [reflexivity|]. inversion IH as [|? ? I1 I2]; subst.
    destruct (I1 _ H) as [-> ->]. cbn [app map viewed]. rewrite map_app. now rewrite IHl.
  - match goal with H : Forall2 _ _ _ |- _ => rename H into HE end. clear - HE IH.
    induction HE as [|x y a b (_ & _ & H) HE IHl]; cbn [flat_map map]; [reflexivity|]. inversion IH as [|? ? I1 I2]; subst.
    destruct (I1 _ H) as [-> ->]. cbn [app map viewed]. rewrite map_app. now rewrite IHl.
Qed.

Lemma denoted_objects P mem : forall o pr v, well_formed P pr o -> denotes mem o v -> Permutation (cls_of o :: below o) (objects pr v).
Proof.
  induction o as [|dt s|dt s|p n items IH|p n items IH|p n items IH] using obj_ind'; intros pr v Hw Hd; inversion Hw; subst; inversion Hd; subst; cbn [objects class_of cls_of below].
  - reflexivity.
  - reflexivity.
  - apply perm_skip. match goal with H : Forall2 _ _ (rev ?w) |- _ => rename H into HF; rename w into vs end.
    match goal with H : Forall (well_formed _ _) _ |- _ => rename H into HW end.
    rewrite <- (flat_map_rev _ vs). clear - IH HF HW. induction HF as [|a b l w Hab HF IHF]; [constructor|]. inversion IH; inversion HW; subst. cbn [flat_map].
    apply Permutation_app; [apply perm_skip; eauto|auto].
  - apply perm_skip. match goal with H : Forall2 _ _ _ |- _ => rename H into HF end.
    match goal with H : Forall _ items |- _ => rename H into HW end.
    clear - IH HF HW. induction HF as [|a b l w [Hk Hab] HF IHF]; [constructor|]. inversion IH; inversion HW; subst. cbn [flat_map].
    apply Permutation_app; [apply perm_skip; eauto|auto].
  - apply perm_skip. match goal with H : Forall2 _ _ _ |- _ => rename H into HF end.
    match goal with H : Forall _ items |- _ => rename H into HW end.
    clear - IH HF HW. induction HF as [|a b l w [Hk Hab] HF IHF]; [constructor|]. inversion IH; inversion HW; subst. cbn [flat_map].
    apply Permutation_app; [apply perm_skip; eauto|auto].
Qed.

(** ** The bound *)
Section Bound.
  Variable E : penv.
  Variable get : N -> outcome view.
  Variable p : pool.
  Variable pr : bool.
  Notation R := (b_env E).
  Notation content := (r_content (b_env E)).
  Hypothesis Hget : forall id, get id <> Fuel.
  Hypothesis Hlen : len content < 2 ^ 31.
  Hypothesis Hbase : r_base R = 0.
  Hypothesis Hsize : r_size R = len content.
  Hypothesis Htame : tame R \/ (ModelParse.b_map E = true /\ pr = false).

  Lemma data_eats s o s' : run get (Data_valueParse E pr s) = Ok (o, s') -> idx s + 2 <= idx s' /\ idx s' <= r_size R.
  Proof.
    intros H. pose proof (Data_nf E get Hget Hlen Hbase Hsize pr Htame s) as HF. unfold nf in HF. rewrite H in HF. cbn [ends snd] in HF. destruct HF as [_ HF]. split; [|exact HF].
    unfold Data_valueParse in H. rewrite run_bind, run_lift in H. apply obind_ok in H as ([dt s1] & H1 & H).
    pose proof (parseDataType_ends R Hlen s) as G1. rewrite H1 in G1. cbn [ends snd] in G1.
    destruct (negb (valid_data_type dt)); [discriminate|]. destruct (_ && _).
    - rewrite run_bind, run_lift in H. apply obind_ok in H as ([id s2] & H2 & H). pose proof (parseLength_ends R Hlen s1) as G2. rewrite H2 in G2. cbn [ends snd fst] in G2.
      cbn [run] in H. apply obind_ok in H as (v & _ & H). destruct pr.
      + injection H as _ <-. lia.
      + rewrite run_bind, run_lift in H. apply obind_ok in H as (x & _ & H). injection H as _ <-. lia.
    - rewrite run_bind, run_lift in H. apply obind_ok in H as ([sz s2] & H2 & H). pose proof (parseLength_ends R Hlen s1) as G2. rewrite H2 in G2. cbn [ends snd fst] in G2.
      rewrite run_bind, run_lift in H. apply obind_ok in H as (a & Ha & H).
      assert (a = idx s2) as -> by (unfold curAddr in Ha; destruct (_ <=? _) in Ha; [discriminate|injection Ha as <-; rewrite Hbase; lia]).
      rewrite run_bind, run_lift in H. apply obind_ok in H as (d & Hd & H). rewrite run_bind, run_lift in H. apply obind_ok in H as (x & _ & H).
      cbn [run] in H. injection H as _ <-. change (idx (add_off sz (skip sz s2))) with (idx (skip sz s2)) in *.
      enough (idx (skip sz s2) = idx s2 + sz) by lia. apply (skip_fwd E get Hlen Hsize); [lia|].
      destruct Htame as [Ht|[_ Hp]]; [exact (Ht _ _ _ H2)|]. rewrite Hp in Hd. change (2 ^ 63) with 9223372036854775808. change (2 ^ 31) with 2147483648 in *.
      assert (HS : forall m, read_range content (idx s2) sz = Ok m -> sz < 9223372036854775808).
      { intros m Hm. pose proof (read_range_ends content (idx s2) sz (fun _ => sz = 0 \/ idx s2 + sz <= len content + 1) (fun _ x => x)) as Q. rewrite Hm in Q. cbn in Q. lia. }
      unfold parseData, omap in Hd. destruct (_ || _) in Hd; [apply obind_ok in Hd as (m & Hm & _); eauto|].
      destruct (_ =? _) in Hd; [apply obind_ok in Hd as (m & Hm & _); eauto|].
      destruct (num_of_dt dt) as [t|]; [|discriminate]. pose proof (parse_num_ends (r_cfg R) content t (idx s2) sz) as Q. rewrite Hd in Q. cbn in Q. lia.
  Qed.

  Notation from s := (r_size R - idx s).

  (** A value that is parsed costs at least two bytes more than it has objects below
      it; an element or entry at least one byte more than its objects. *)
  Lemma eats : forall fuel,
    (forall t s o s', run get (valueParse E p pr fuel t s) = Ok (o, s') ->
       idx s + len (value_allocs E get p pr fuel t s) + 2 <= idx s' /\ idx s' <= r_size R) /\
    (forall n s acc l s', idx s <= r_size R -> run get (array_loop E p pr fuel n s acc) = Ok (l, s') ->
       idx s + len (array_allocs E get p pr fuel n s) <= idx s' /\ idx s' <= r_size R) /\
    (forall n s acc l s', idx s <= r_size R -> pr = false -> run get (map_loop E p pr fuel n s acc) = Ok (l, s') ->
       idx s + len (entry_allocs E get p pr fuel n s) <= idx s' /\ idx s' <= r_size R) /\
    (forall n s acc l s', idx s <= r_size R -> pr = true -> run get (mapview_loop E p pr fuel n s acc) = Ok (l, s') ->
       idx s + len (entry_allocs E get p pr fuel n s) <= idx s' /\ idx s' <= r_size R).
  Proof.
    induction fuel as [|f (IV & IA & IM & IW)].
    { split; [|repeat split; intros; discriminate]. intros; discriminate. }
    assert (Hkey : forall s kv s', run get (parse_key E s) = Ok (kv, s') -> idx s < idx s' /\ idx s' <= r_size R).
    { intros s kv s' H. pose proof (parse_key_nf E get Hget Hlen Hbase Hsize pr Htame s) as HF. unfold nf in HF. rewrite H in HF. exact HF. }
    split; [|split; [|split]].
    - intros t s o s' H. rewrite value_allocs_S. cbn [valueParse] in H. destruct t.
      + rewrite len_nil. apply data_eats in H. lia.
      + rewrite run_bind, run_lift in H. apply obind_ok in H as ([n s1] & H1 & H). rewrite run_bind, run_lift in H. apply obind_ok in H as ([id s2] & H2 & H).
        pose proof (parseLength_ends R Hlen s) as G1. rewrite H1 in G1. pose proof (parseLength_ends R Hlen s1) as G2. rewrite H2 in G2. cbn [ends fst snd] in G1, G2.
        rewrite H1. cbn [obind fst snd]. rewrite H2. unfold omap. cbn [obind fst snd]. destruct pr eqn:Hpr.
        * rewrite run_bind in H. apply obind_ok in H as ([items s3] & H3 & H). injection H as <- <-.
          apply IW in H3; [|lia|reflexivity]. lia.
        * rewrite run_bind, run_lift in H. apply obind_ok in H as ([] & H4 & H). rewrite H4. rewrite run_bind in H. apply obind_ok in H as ([items s3] & H3 & H). injection H as <- <-.
          apply IM in H3; [|lia|reflexivity]. lia.
      + rewrite run_bind, run_lift in H. apply obind_ok in H as ([n s1] & H1 & H). rewrite run_bind, run_lift in H. apply obind_ok in H as ([id s2] & H2 & H).
        pose proof (parseLength_ends R Hlen s) as G1. rewrite H1 in G1. pose proof (parseLength_ends R Hlen s1) as G2. rewrite H2 in G2. cbn [ends fst snd] in G1, G2.
        rewrite H1. cbn [obind fst snd]. rewrite H2. unfold omap. cbn [obind fst snd].
        rewrite run_bind in H. apply obind_ok in H as ([items s3] & H3 & H). injection H as <- <-. apply IA in H3; [|lia]. lia.
    - intros n s acc l s' Hs H. rewrite array_allocs_S; cbn [array_loop] in H. destruct (n =? 0); [injection H as <- <-; rewrite len_nil; lia|].
      rewrite run_bind, run_lift in H. apply obind_ok in H as ([t s1] & H1 & H). rewrite run_bind in H. apply obind_ok in H as ([o s2] & H2 & H).
      pose proof (parseObjectType_ends R Hlen s) as G1. rewrite H1 in G1. cbn [ends snd] in G1. rewrite H1, H2.
      apply IV in H2. apply IA in H; [|lia]. rewrite len_cons, len_app, len_cons. lia.
    - intros n s acc l s' Hs Hpr H. rewrite entry_allocs_S; cbn [map_loop] in H. destruct (n =? 0); [injection H as <- <-; rewrite len_nil; lia|].
      rewrite run_bind in H. apply obind_ok in H as ([kv s0] & H0 & H). rewrite run_bind, run_lift in H. apply obind_ok in H as ([t s1] & H1 & H).
      rewrite run_bind in H. apply obind_ok in H as ([o s2] & H2 & H). rewrite run_bind, run_lift in H. apply obind_ok in H as (key & H3 & H).
      pose proof (parseObjectType_ends R Hlen s0) as G1. rewrite H1 in G1. cbn [ends snd] in G1. rewrite H0, H1, H2. apply Hkey in H0.
      apply IV in H2. apply IM in H; [|lia|exact Hpr]. destruct (if pr then Ok [] else read_local R kv); rewrite ?len_cons, ?len_app, ?len_cons, ?len_nil; lia.
    - intros n s acc l s' Hs Hpr H. rewrite entry_allocs_S; cbn [mapview_loop] in H. destruct (n =? 0); [injection H as <- <-; rewrite len_nil; lia|].
      rewrite run_bind in H. apply obind_ok in H as ([kv s0] & H0 & H). rewrite run_bind, run_lift in H. apply obind_ok in H as ([t s1] & H1 & H).
      rewrite run_bind in H. apply obind_ok in H as ([o s2] & H2 & H).
      pose proof (parseObjectType_ends R Hlen s0) as G1. rewrite H1 in G1. cbn [ends snd] in G1. rewrite H0, H1, H2. apply Hkey in H0.
      apply IV in H2. apply IW in H; [|lia|exact Hpr]. destruct (if pr then Ok [] else read_local R kv); rewrite ?len_cons, ?len_app, ?len_cons, ?len_nil; lia.
  Qed.

  (** Whatever happens, no more objects than bytes that are left. *)
  Lemma spends : forall fuel,
    (forall t s, len (value_allocs E get p pr fuel t s) <= from s) /\
    (forall n s, len (array_allocs E get p pr fuel n s) <= from s) /\
    (forall n s, len (entry_allocs E get p pr fuel n s) <= from s).
  Proof.
    induction fuel as [|f (IV & IA & IM)].
    { repeat split; intros; apply N.le_0_l. }
    destruct (eats f) as (EV & _).
    assert (Hkey : forall s kv s', run get (parse_key E s) = Ok (kv, s') -> idx s < idx s' /\ idx s' <= r_size R).
    { intros s kv s' H. pose proof (parse_key_nf E get Hget Hlen Hbase Hsize pr Htame s) as HF. unfold nf in HF. rewrite H in HF. exact HF. }
    split; [|split].
    - intros t s. rewrite value_allocs_S.
      assert (G : forall count s2, obind (parseLength R s) (fun x => omap (fun y => (fst x, snd y)) (parseLength R (snd x))) = Ok (count, s2) -> idx s <= idx s2).
      { intros count s2 H. apply obind_ok in H as ([n s1] & H1 & H). unfold omap in H. apply obind_ok in H as ([id s3] & H2 & H). injection H as <- <-. cbn [snd] in *.
        pose proof (parseLength_ends R Hlen s) as G1. rewrite H1 in G1. pose proof (parseLength_ends R Hlen s1) as G2. rewrite H2 in G2. cbn [ends fst snd] in G1, G2. lia. }
      destruct t; [apply N.le_0_l| |]; destruct (obind _ _) as [[count s2]| | | |]; try apply N.le_0_l; specialize (G _ _ eq_refl).
      + destruct pr; [|destruct (check_oor R s2); try apply N.le_0_l]; specialize (IM count s2); lia.
      + specialize (IA count s2). lia.
    - intros n s. rewrite array_allocs_S. destruct (n =? 0); [apply N.le_0_l|]. destruct (parseObjectType R s) as [[t s1]| | | |] eqn:H1; try apply N.le_0_l.
      pose proof (parseObjectType_ends R Hlen s) as G1. rewrite H1 in G1. cbn [ends snd] in G1. rewrite len_cons, len_app.
      destruct (run get (valueParse E p pr f t s1)) as [[o s2]| | | |] eqn:H2; try (rewrite len_nil; specialize (IV t s1); lia).
      apply EV in H2. rewrite len_cons. specialize (IA (n - 1) s2). lia.
    - intros n s. rewrite entry_allocs_S. destruct (n =? 0); [apply N.le_0_l|]. destruct (run get (parse_key E s)) as [[kv s0]| | | |] eqn:H0; try apply N.le_0_l. apply Hkey in H0.
      destruct (parseObjectType R s0) as [[t s1]| | | |] eqn:H1; try apply N.le_0_l.
      pose proof (parseObjectType_ends R Hlen s0) as G1. rewrite H1 in G1. cbn [ends snd] in G1. rewrite len_cons, len_app.
      destruct (run get (valueParse E p pr f t s1)) as [[o s2]| | | |] eqn:H2; try (rewrite len_nil; specialize (IV t s1); lia).
      apply EV in H2. specialize (IM (n - 1) s2). destruct (if pr then Ok [] else read_local R kv); rewrite ?len_cons, ?len_nil; lia.
  Qed.
End Bound.

(** ** C98 *)

(** Whatever bytes the copying parser accepts: the objects it takes from the pool are
    those of the accepted value - its own root map, an item for each entry, and
    everything below - and nothing else. *)
Theorem C98_owning : forall c fuel content buf p o, sane c -> fits c content ->
  Parse c fuel content buf p sequential = Ok o ->
  exists ty D entries rest, lenient_doc (negb (ndebug c)) D ty entries content rest /\ o = meaning p entries /\
    Permutation (Parse_allocs c fuel content buf p false) (objects false (VMap entries)).
Proof.
  intros c fuel content buf p o Hsane HL H. unfold Parse in H. apply obind_ok in H as (sc & Hsc & H).
  unfold Parse_prog in H. cbn [po_type po_ref] in H.
  unfold NormalParse_prog in H. rewrite run_bind in H. apply obind_ok in H as ([root s] & Hv & H).
  destruct (N.eqb_spec (off s) (sc_total sc)) as [Ht|]; [|discriminate]. cbn [negb] in H.
  destruct (root_sound c fuel content buf p sc root s Hsane HL Hsc Hv Ht) as (ty & entries & rest & Hd & ->).
  exists ty, (known_option c content (sc_map sc)), entries, rest. split; [exact Hd|]. split.
  { rewrite run_lift in H. cbn [mirror tree_of take_root] in H. rewrite take_root_meaning in H. now injection H. }
  unfold Parse_allocs. rewrite Hsc.
  destruct (allocs_exact (doc_env c content buf sc) (getter c (sc_map sc)) p false fuel) as (AE & _).
  apply AE in Hv as [_ HP]. rewrite HP, <- objects_mirror, <- (objects_tree p). reflexivity.
Qed.

(** The same in place (input without nine consecutive bytes above 127, see C77): an
    object of the view classes for every value, and no item of the owning classes. *)
Theorem C98_in_place : forall c fuel content buf p o', sane c -> fits c content -> short_numbers content ->
  Parse c fuel content buf p insitu = Ok o' ->
  exists ty D entries rest, lenient_doc (negb (ndebug c)) D ty entries content rest /\ reflects content buf o' (meaning p entries) /\
    Permutation (Parse_allocs c fuel content buf p true) (objects true (VMap entries)).
Proof.
  intros c fuel content buf p o' Hsane HL Hsh H. unfold Parse in H. apply obind_ok in H as (sc & Hsc & H).
  unfold Parse_prog in H. cbn [po_type po_ref] in H.
  unfold NormalParse_prog in H. rewrite run_bind in H. apply obind_ok in H as ([root' s] & Hv & H).
  destruct (N.eqb_spec (off s) (sc_total sc)) as [Ht|]; [|discriminate]. cbn [negb] in H. rewrite run_lift in H.
  assert (Hget : forall id v, getter c (sc_map sc) id = Ok v -> v_buf v = b_buf (doc_env c content buf sc) /\ exists s, read_local (b_env (doc_env c content buf sc)) v = Ok s).
  { intros id v Hg. exact (getter_view _ _ _ _ _ _ _ Hsane Hsc Hg). }
  destruct (allocs_exact (doc_env c content buf sc) (getter c (sc_map sc)) p true fuel) as (AE & _).
  pose proof Hv as Hv'. apply AE in Hv' as [_ HP].
  destruct (values_back (doc_env c content buf sc) (getter c (sc_map sc)) p eq_refl eq_refl HL Hget (short_tame _ _ _ _ Hsh) fuel) as (VS & _ & _).
  destruct (init_header _ _ _ _ _ Hsc) as (size & t & f & rest0 & Hc & Hsz & _).
  assert (H10 : 10 <= len content) by (rewrite Hc; rewrite !len_app, Hsz, !len_cons, len_nil; lia).
  change {| idx := meta_size; off := meta_size |} with (at_ 10) in Hv. apply VS in Hv as (root & j & Hv & He & _); [|exact H10].
  destruct (root_sound c fuel content buf p sc root s Hsane HL Hsc Hv Ht) as (ty & entries & rest & Hd & ->).
  exists ty, (known_option c content (sc_map sc)), entries, rest. split; [exact Hd|]. split.
  { destruct (take_root_back _ _ _ _ _ He H) as (r & Hr & HR). cbn [mirror tree_of take_root] in Hr. rewrite take_root_meaning in Hr. injection Hr as <-. exact HR. }
  unfold Parse_allocs. rewrite Hsc. destruct (echo_viewed _ _ _ _ He) as [_ HB]. cbn [r_content b_env doc_env root_env] in HB. rewrite HP, HB, objects_viewed, <- objects_mirror, <- (objects_tree p). reflexivity.
Qed.

(** A document written by Serialize, parsed by the sequential scheduler in either
    mode: one root map, one item, and the objects of the value. *)
Theorem C98_serialized : forall cs cp mem ty p o v content buf fuel p' views,
  sane cs -> sane cp -> denotes mem o v -> (views = true -> no_custom v) ->
  Serialize cs mem ty p o = Ok content -> fits cp content -> (length content <= fuel)%nat ->
  Permutation (Parse_allocs cp fuel content buf p' views) (objects views (VMap [(root_key, v)])).
Proof.
  intros cs cp mem ty p o v content buf fuel p' views Hcs Hcp Hd Hnc Hs HL Hf.
  destruct (Serialize_document cs mem ty p o v Hcs Hd) as (content' & Hs' & Hdoc). rewrite Hs in Hs'. injection Hs' as <-.
  assert (H32 : len content < W32) by (unfold fits in HL; rewrite W32_val; destruct (ndebug cp); lia). specialize (Hdoc H32).
  assert (HL' : lim cp (len (content ++ []))) by (rewrite app_nil_r; exact HL).
  destruct (init_ok cp (split_block_size cs) ty v content [] buf fuel Hcp Hdoc HL' Hf)
    as (sc & body & fl & ks & info & Y & Hinit & (hd & Hhd & Hcont) & HY & Hw & Htot & Hfl & Hinfo & Hmp & Hans & Hlb).
  rewrite app_nil_r in *. unfold Parse_allocs. rewrite Hinit. set (E := doc_env cp content buf sc) in *. set (D := dict_of ty ks) in *.
  set (m := fun _ : nat => Some content).
  assert (Hmap : ModelParse.b_map E = match D with Some _ => true | None => false end).
  { unfold E, D; cbn. destruct ty; cbn.
    - assert (sc_map sc = None) as -> by (now apply Hmp). reflexivity.
    - destruct (sc_map sc) eqn:Em; [reflexivity|]. exfalso. destruct Hmp as [Hmp _]. discriminate (Hmp eq_refl). }
  assert (Hlhd : len hd = 10) by (unfold len; now rewrite Hhd).
  assert (Hfb : (length body <= fuel)%nat) by lia.
  assert (Hncr : views = true -> no_custom (VMap [(root_key, v)])).
  { intros Hp. constructor. constructor; [cbn; auto|constructor]. }
  destruct (valueParse_ok E (getter cp (sc_map sc)) D (table_of info) (split_block_size cs) m) with (p := p') (pr := views) (fuel := fuel) as [Hv _]; auto.
  destruct (Hv _ _ _ hd Y Hw) as (root & Hrun & Hr & _); auto.
  cbn [type_of] in Hrun. rewrite Hlhd in Hrun. unfold meta_size. change {| idx := 10; off := 10 |} with (at_ 10).
  destruct (allocs_exact E (getter cp (sc_map sc)) p' views fuel) as (AE & _). pose proof Hrun as Hrun'. apply AE in Hrun' as [HC HP]. rewrite HP, <- HC.
  rewrite <- (objects_mirror views (VMap _)).
  destruct (valueParse_wf E (getter cp (sc_map sc)) (fun _ => True) p' views fuel I) as (W & _).
  apply denoted_objects with (P := fun _ => True) (mem := m); [|exact Hr].
  specialize (W TMap (at_ 10)). exact (W _ Hrun).
Qed.

(** Whatever the input and whatever the outcome, the parser takes fewer objects than
    there are bytes (input without nine consecutive bytes above 127, or a dictionary
    document that is copied; see C15 for the need). *)
Theorem C98_bounded : forall c fuel content buf p views, len content < 2 ^ 31 -> (length content + 3 <= fuel)%nat ->
  (short_numbers content \/ (b2n (nth 8 content x00) = 1 /\ views = false)) ->
  len (Parse_allocs c fuel content buf p views) + 9 <= len content \/ Parse_allocs c fuel content buf p views = [].
Proof.
  intros c fuel content buf p views Hlen Hf Ht. unfold Parse_allocs.
  pose proof (initFromContent_ends c fuel content buf Hlen Hf) as HI.
  destruct (initFromContent c fuel content buf) as [sc| | | |] eqn:Hsc; try (right; reflexivity). left. destruct HI as (_ & Hm).
  destruct (init_header _ _ _ _ _ Hsc) as (size & t & f & rest0 & Hc & Hsz & _).
  assert (H10 : 10 <= len content) by (rewrite Hc; rewrite !len_app, Hsz, !len_cons, len_nil; lia).
  destruct (spends (doc_env c content buf sc) (getter c (sc_map sc)) p views (getter_nf _ _) Hlen eq_refl eq_refl) with (fuel := fuel) as (SV & _).
  { destruct Ht as [Ht|[Ht Hr]]; [left; apply short_tame; exact Ht|right]. split; [|exact Hr]. destruct (Hm Ht) as (m & Em). cbn. now rewrite Em. }
  rewrite len_cons. specialize (SV TMap {| idx := meta_size; off := meta_size |}). cbn [idx r_size b_env doc_env root_env] in SV. unfold meta_size in *. lia.
Qed.

(** The hypotheses are met: an accepted document with two root entries (one of them an
    array of a string), in both modes; and a document that is rejected after seven
    objects have been taken from the pool - they stay there until [Clear]. *)
Definition broken_doc : bytes :=
  hdr 32 0 0 ++ str [2; 0; 4] ++ root_key ++ str [2; 2; 0; 0; 1; 1; 97] ++ str [0; 7; 1; 9; 9; 9; 9; 9; 1; 0].
Example C98_met :
  Parse_allocs x86_release 100 odd_doc 7 p1 false <> [] /\ (exists o, Parse x86_release 100 odd_doc 7 p1 sequential = Ok o) /\
  short_numbers broken_doc /\
  Parse x86_release 100 broken_doc 7 p1 sequential = Throw ERuntime /\
  Parse_allocs x86_release 100 broken_doc 7 p1 false = [KMap; KArray; KData; KArrayItem; KData; KArrayItem; KMapItem].
Proof.
  split; [vm_compute; discriminate|]. split; [eexists; vm_compute; reflexivity|]. split.
  { intros i. destruct (Nat.ltb_spec i (length broken_doc)) as [Hi|Hi].
    - exists 0%nat. split; [lia|]. rewrite Nat.add_0_r. 
      assert (HF : Forall (fun b => b2n b < 128) broken_doc) by (vm_compute; repeat constructor). rewrite Forall_forall in HF. apply HF. now apply nth_In.
    - exists 0%nat. split; [lia|]. rewrite nth_overflow by lia. vm_compute. reflexivity. }
  split; vm_compute; reflexivity.
Qed.
Example C98_shape :
  objects false (VMap [(str [97], VArr [VScalar (VStr []); VScalar (VStr [])]); (str [98], VMap [])])
  = [KMap; KMapItem; KArray; KArrayItem; KData; KArrayItem; KData; KMapItem; KMap].
Proof. reflexivity. Qed.
