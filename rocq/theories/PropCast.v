(** * Property C88: the pointer interface AsMap / AsArray / AsData. *)
From Verif Require Import Base BaseLemmas ModelVarint ModelData ModelSecondary ModelObject
  ModelParse ModelWrapper Spec SpecApi Samples PropRoundTrip PropHostile.
From Coq Require Import ZifyBool ZifyNat ZifyN.
Local Open Scope out_scope.

(** Using a cast result: [if (auto* m = AsMap(p)) use (m->f())], a null pointer meaning
    "not there". *)
Definition cast_then {A} (cast : obj -> outcome obj) (none : A) (f : obj -> outcome A) (o : obj) : outcome A :=
  match o with
  | ONull => Ok none
  | _ => p <- cast o ;; match p with ONull => Ok none | _ => f p end
  end.

(** The member functions of the three classes; any other object would be a wrong
    [static_cast]. *)
Definition Map_op (p : obj) (k : bytes) : outcome obj := match p with OMap _ _ items => Ok (Map_at items k) | _ => UB end.
Definition Array_op (p : obj) (n : N) : outcome obj := match p with OArray _ size items => Ok (Array_at size items n) | _ => UB end.
Definition Data_op (T : cty) (p : obj) : outcome (option scalar) := match p with OData dt s => Data_Get T dt s | _ => UB end.

(** Navigation with casts only. *)
Fixpoint cast_walk (o : obj) (path : list step) : outcome obj :=
  match path with
  | [] => Ok o
  | Key k :: path' => o' <- cast_then AsMap ONull (fun m => Map_op m k) o ;; cast_walk o' path'
  | Idx n :: path' => o' <- cast_then AsArray ONull (fun a => Array_op a n) o ;; cast_walk o' path'
  end.
Definition cast_read (o : obj) (path : list step) (T : cty) : outcome (option scalar) :=
  w <- cast_walk o path ;; cast_then AsData None (Data_op T) w.

Lemma walk_forall (P : obj -> Prop) n : forall l, Forall P l -> walk n l = ONull \/ P (walk n l).
Proof. induction n as [|n IH]; intros [|o l] H; cbn; auto; inversion H; subst; auto. Qed.
Lemma Array_at_forall (P : obj -> Prop) size l n : Forall P l -> Array_at size l n = ONull \/ P (Array_at size l n).
Proof. intros H. unfold Array_at. destruct (size <=? n); [now left|]. now apply walk_forall. Qed.
Lemma Map_at_forall (P : obj -> Prop) l k : Forall (fun e => P (snd e)) l -> Map_at l k = ONull \/ P (Map_at l k).
Proof. induction 1 as [|[k' o] l Ho H IH]; cbn; [now left|]. destruct (bytes_eqb k' k); auto. Qed.

Lemma cast_walk_owning mem path : forall o, o = ONull \/ well_formed (fun _ => True) false o ->
  cast_walk o path = api_walk mem o path /\
  forall w, api_walk mem o path = Ok w -> w = ONull \/ well_formed (fun _ => True) false w.
Proof.
  induction path as [|[k|n] path IH]; intros o Ho; cbn [cast_walk api_walk].
  - split; [reflexivity|]. intros w [= <-]. exact Ho.
  - destruct o as [|dt s|dt s|q size l|q size l|q size l]; cbn; try (apply IH; now left).
    + apply IH. destruct Ho as [Ho|Ho]; [discriminate|]. inversion Ho; subst. now apply Map_at_forall.
    + exfalso. destruct Ho as [Ho|Ho]; [discriminate|inversion Ho].
  - destruct o as [|dt s|dt s|q size l|q size l|q size l]; cbn; try (apply IH; now left).
    apply IH. destruct Ho as [Ho|Ho]; [discriminate|]. inversion Ho; subst. now apply Array_at_forall.
Qed.

(** C88, copying parse.  For every accepted input and both schedulers, navigating and
    reading with AsMap, AsArray and AsData (testing each pointer before use) never goes
    wrong and finds exactly the objects and values the wrapper finds, also values of
    custom types. *)
Theorem C88_casts_after_copy : forall c fuel content buf p sch o,
  Parse c fuel content buf p {| po_type := sch; po_ref := false |} = Ok o ->
  forall mem path, cast_walk o path = api_walk mem o path /\
    forall T, exists r, cast_read o path T = Ok r /\ (w <- api_walk mem o path ;; w_Get T w) = Ok r.
Proof.
  intros c fuel content buf p sch o H mem path. apply C16_result_well_formed in H. cbn [po_ref] in H.
  destruct (cast_walk_owning mem path o H) as [E HW]. split; [exact E|]. intros T. unfold cast_read. rewrite E.
  assert (HX : exists w, api_walk mem o path = Ok w).
  { rewrite <- E. clear E HW. revert o H. induction path as [|[k|n] path IH]; intros o Ho; cbn [cast_walk]; [eauto| |].
    - destruct o as [|dt s|dt s|q size l|q size l|q size l]; cbn; try (apply IH; now left).
      apply IH. destruct Ho as [Ho|Ho]; [discriminate|]. inversion Ho; subst. now apply Map_at_forall.
    - destruct o as [|dt s|dt s|q size l|q size l|q size l]; cbn; try (apply IH; now left).
      apply IH. destruct Ho as [Ho|Ho]; [discriminate|]. inversion Ho; subst. now apply Array_at_forall. }
  destruct HX as (w & Hw). rewrite Hw in *. cbn [obind]. specialize (HW w eq_refl).
  destruct HW as [->|HW]; [exists None; split; reflexivity|].
  assert (G : exists r, w_Get T w = Ok r).
  { inversion HW as [dt s x Hx| | | |]; subst; cbn [w_Get]; try (eexists; reflexivity).
    unfold Data_Get. destruct (dt_of_cty T =? dt) eqn:Et; cbn [negb]; [|eauto]. apply N.eqb_eq in Et.
    destruct Hx as [s|s|s|t n Hn]; destruct T as [| | |t']; try discriminate Et; cbn; eauto; try (destruct t'; discriminate Et); try (destruct t; discriminate Et).
    destruct t, t'; cbn in Et; try discriminate Et; cbn; eauto. }
  destruct G as (r & Hr). exists r. split; [|exact Hr].
  inversion HW; subst; cbn in Hr |- *; try exact Hr; exact Hr.
Qed.

(** C88, in-place parse: maps and data of the result are views, so AsMap and AsData
    refuse all of them with a null pointer; arrays can be cast. *)
Theorem C88_casts_after_insitu : forall c fuel content buf p sch o,
  Parse c fuel content buf p {| po_type := sch; po_ref := true |} = Ok o ->
  forall mem path w, api_walk mem o path = Ok w -> w <> ONull ->
    AsMap w = Ok ONull /\ AsData w = Ok ONull /\
    AsArray w = Ok (match w with OArray _ _ _ => w | _ => ONull end).
Proof.
  intros c fuel content buf p sch o H mem path w Hw Hn. apply C16_result_well_formed in H. cbn [po_ref] in H.
  destruct (walk_well_formed _ _ mem path o w H Hw) as [->|HW]; [congruence|].
  inversion HW; subst; repeat split.
Qed.

(** C88, any object of any program: at most one of the three casts succeeds, a
    successful cast returns the same object, of the class cast to; it fails exactly on
    objects of another class and on views. *)
Theorem C88_casts_exact : forall o, o <> ONull ->
  exists m a d, AsMap o = Ok m /\ AsArray o = Ok a /\ AsData o = Ok d /\
    (m = o /\ GetType o = Ok TMap /\ IsRefType o = Ok false /\ (forall k, exists v, Map_op m k = Ok v) \/
     m = ONull /\ (GetType o <> Ok TMap \/ IsRefType o = Ok true)) /\
    (a = o /\ GetType o = Ok TArray /\ (forall n, exists v, Array_op a n = Ok v) \/ a = ONull /\ GetType o <> Ok TArray) /\
    (d = o /\ GetType o = Ok TData /\ IsRefType o = Ok false /\ (forall T, exists dt s, o = OData dt s /\ Data_op T d = Data_Get T dt s) \/
     d = ONull /\ (GetType o <> Ok TData \/ IsRefType o = Ok true)).
Proof.
  intros o Ho. destruct o as [|dt s|dt s|q size l|q size l|q size l]; [congruence|..]; cbn; do 3 eexists;
    (split; [reflexivity|]); (split; [reflexivity|]); (split; [reflexivity|]);
    (split; [|split]);
    first [right; split; [reflexivity|]; first [left; discriminate|right; reflexivity|discriminate]
          |left; repeat (split; [reflexivity|]); intros; cbn; eauto].
Qed.

(** A null pointer must not be passed. *)
Theorem C88_null_is_undefined : AsMap ONull = UB /\ AsArray ONull = UB /\ AsData ONull = UB.
Proof. repeat split. Qed.

Example C88_met mem : cast_walk sample [Key k_tags; Idx 1] = Ok (data_of_num F32 1077936128) /\
  cast_read sample [Key k_sub; Key k_id] CStr = Ok (Some (VStr k_dup)) /\
  cast_walk sample [Key k_tags; Key k_id] = Ok ONull /\ well_formed (fun _ => True) false sample /\
  api_walk mem sample [Key k_sub] <> Ok ONull.
Proof.
  repeat split; try discriminate. unfold sample.
  repeat (first [ eapply wf_data; constructor; reflexivity | apply wf_map | apply wf_array | apply Forall_cons | apply Forall_nil | exact I | reflexivity ]).
Qed.
