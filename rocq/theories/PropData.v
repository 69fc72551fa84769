(** * Properties C23, C24, C34, C50, C51: Data and DataView over all histories. *)
From Verif Require Import Base BaseLemmas ModelData ModelObject ModelWrapper ModelDataLife Spec Samples.
From Coq Require Import ZifyBool ZifyNat ZifyN.
Local Open Scope out_scope.

(** ** Specification *)

(** The value an argument stands for; [None] for the two unusual arguments. *)
Definition drop_nul (arr : bytes) : bytes :=
  if bytes_eqb (skipn (length arr - 1) arr) [x00] then firstn (length arr - 1) arr else arr.
Definition arg_value (a : arg) : option scalar :=
  match a with
  | AStr s => Some (VStr s)
  | ACstr arr => Some (VStr (drop_nul arr))
  | ABytes s => Some (VBytes s)
  | ACustom s => Some (VCustom s)
  | ANum t n => Some (VNum t n)
  | AThrowing | AOwn => None
  end.
Definition ordinary (a : arg) : Prop := arg_value a <> None.

Definition type_of (x : scalar) : cty :=
  match x with VStr _ => CStr | VBytes _ => CBytes | VCustom _ => CCustom | VNum t _ => CNum t end.

(** Does this argument own heap storage once stored? *)
Definition owned (a : arg) : bool := match a with ANum _ _ => false | _ => true end.

(** [d = a1; d = a2; ...]: no assignment throws. *)
Fixpoint assigns (l : list arg) (d : dlife) : outcome dlife :=
  match l with
  | [] => Ok d
  | a :: l' =>
      '(d1, e) <- Data_assign a d ;;
      match e with Some e => Throw e | None => assigns l' d1 end
  end.

(** A Data as it is after default construction, construction from a value, or
    parsing. *)
Definition starts (d : dlife) : Prop :=
  d = dl_default \/ (exists a, ordinary a /\ Data_new a = Ok (Some d)) \/
  (exists dt s x, data_denotes dt s x /\ d_dt d = dt /\ d_slot d = Holds 0 s /\ d_next d = 1%nat /\ d_destroyed d = []).

(** ** Invariant *)
Lemma cstr_drop arr : cstr_content arr = drop_nul arr.
Proof.
  unfold cstr_content, drop_nul. destruct arr as [|b r] using rev_ind; [reflexivity|].
  rewrite rev_app_distr. cbn. rewrite app_length. cbn. replace (length r + 1 - 1)%nat with (length r) by lia.
  rewrite skipn_app, skipn_all, Nat.sub_diag, firstn_app, firstn_all, Nat.sub_diag. cbn. rewrite app_nil_r, andb_true_r.
  destruct (byte_eqb b x00); [apply rev_involutive|reflexivity].
Qed.

Definition holds (d : dlife) (a : arg) : Prop :=
  d_dt d = arg_dt a /\ exists id, d_slot d = Holds id
    match a with
    | AStr s => SStr s | ACstr arr => SStr (cstr_content arr)
    | ABytes s | ACustom s => SVec s | ANum t n => SNum t n
    | _ => SNone
    end.

Definition typed (d : dlife) : Prop :=
  (d_dt d = BRIDGE_INVALID /\ d_slot d = Raw) \/ exists a, ordinary a /\ holds d a.

Lemma dt_of_num_not t : dt_of_num t <> BRIDGE_STRING /\ dt_of_num t <> BRIDGE_CUSTOM /\ dt_of_num t <> BRIDGE_BYTES /\ dt_of_num t <> BRIDGE_INVALID.
Proof. destruct t; cbn; repeat split; discriminate. Qed.

Lemma starts_typed d : starts d -> typed d.
Proof.
  intros [->|[(a & Ha & Hn)|(dt & s & x & Hd & H1 & H2 & H3 & H4)]].
  - left. split; reflexivity.
  - right. exists a. split; [exact Ha|]. unfold Data_new in Hn.
    destruct a; try (exfalso; apply Ha; reflexivity); cbn in Hn; injection Hn as <-; split; try reflexivity; eexists; reflexivity.
  - right. destruct Hd as [s|s|s|t n Ht].
    + exists (AStr s). split; [discriminate|]. split; [exact H1|eauto].
    + exists (ABytes s). split; [discriminate|]. split; [exact H1|eauto].
    + exists (ACustom s). split; [discriminate|]. split; [exact H1|eauto].
    + exists (ANum t n). split; [discriminate|]. split; [exact H1|eauto].
Qed.

(** One ordinary assignment. *)
Definition old_payload (d : dlife) : list nat :=
  match d_slot d with Holds id (SStr _) | Holds id (SVec _) => [id] | _ => [] end.

Lemma destruct_ok d : typed d -> exists d1, destruct_by_datatype d = Ok d1 /\ d_next d1 = d_next d /\
  d_destroyed d1 = old_payload d ++ d_destroyed d.
Proof.
  intros [[H1 H2]|(a & Ha & H1 & id & H2)]; unfold destruct_by_datatype, destruct, old_payload; rewrite H1, H2.
  - cbn. eexists. split; [reflexivity|]. auto.
  - destruct a as [s|s|s|s|t n| |]; try (exfalso; apply Ha; reflexivity); cbn; try (eexists; split; [reflexivity|]; auto; fail).
    destruct t; cbn; eexists; (split; [reflexivity|]; auto).
Qed.

Lemma assign_ok d a : typed d -> ordinary a -> exists d', Data_assign a d = Ok (d', None) /\ holds d' a /\
  d_next d' = S (d_next d) /\ d_destroyed d' = old_payload d ++ d_destroyed d /\
  (exists s, d_slot d' = Holds (d_next d) s /\ old_payload d' = if owned a then [d_next d] else []).
Proof.
  intros Ht Ha. destruct (destruct_ok d Ht) as (d1 & H1 & H2 & H3). unfold Data_assign. rewrite H1. cbn [obind].
  destruct a as [s|s|s|s|t n| |]; try (exfalso; apply Ha; reflexivity); cbn;
    eexists; (split; [reflexivity|]; split; [split; [reflexivity|eexists; reflexivity]|]; cbn; rewrite H2, H3;
              split; [reflexivity|]; split; [reflexivity|]; eexists; split; [reflexivity|]; cbn; rewrite ?H2; reflexivity).
Qed.

Lemma assigns_app l1 l2 d : assigns (l1 ++ l2) d = (d' <- assigns l1 d ;; assigns l2 d').
Proof.
  revert d. induction l1 as [|a l1 IH]; intros d; [reflexivity|]. cbn. destruct (Data_assign a d) as [[d1 [e|]]| | | |]; cbn; auto.
Qed.

Lemma assigns_typed l : forall d, typed d -> Forall ordinary l -> exists d', assigns l d = Ok d' /\ typed d'.
Proof.
  induction l as [|a l IH]; intros d Hd Hl; cbn; [eauto|]. inversion Hl as [|? ? Ha Hl']; subst.
  destruct (assign_ok d a Hd Ha) as (d1 & H1 & H2 & _). rewrite H1. cbn. apply IH; [|exact Hl']. right. eauto.
Qed.

Definition cty_eqb (a b : cty) : bool :=
  match a, b with
  | CStr, CStr | CBytes, CBytes | CCustom, CCustom => true
  | CNum s, CNum t => numty_eqb s t
  | _, _ => false
  end.
Lemma cty_eqb_spec a b : cty_eqb a b = true <-> a = b.
Proof. destruct a as [| | |[]], b as [| | |[]]; cbn; split; congruence. Qed.

Lemma holds_get d a T x : holds d a -> arg_value a = Some x ->
  dl_Get T d = Ok (if cty_eqb T (type_of x) then Some x else None).
Proof.
  intros [H1 [id H2]] Hx. unfold dl_Get, Data_Get. rewrite H1, H2.
  destruct a as [s|s|s|s|t n| |]; cbn in Hx; try discriminate; injection Hx as <-;
    destruct T as [| | |t']; cbn; try reflexivity; try (destruct t'; reflexivity); try (destruct t; reflexivity).
  - now rewrite cstr_drop.
  - destruct t, t'; reflexivity.
Qed.

(** C23 for Data: construction, then any assignments; the last one decides. *)
Theorem C23_typed_reads : forall d0 l a x T,
  starts d0 -> Forall ordinary l -> arg_value a = Some x ->
  exists d, assigns (l ++ [a]) d0 = Ok d /\
    (T = type_of x -> dl_Get T d = Ok (Some x)) /\ (T <> type_of x -> dl_Get T d = Ok None).
Proof.
  intros d0 l a x T Hs Hl Hx. destruct (assigns_typed l d0 (starts_typed _ Hs) Hl) as (d1 & H1 & Ht).
  destruct (assign_ok d1 a Ht) as (d & H2 & Hh & _); [unfold ordinary; congruence|].
  exists d. rewrite assigns_app, H1. cbn. rewrite H2. split; [reflexivity|].
  rewrite (holds_get d a T x Hh Hx). destruct (cty_eqb T (type_of x)) eqn:He.
  - apply cty_eqb_spec in He. split; [reflexivity|congruence].
  - assert (T <> type_of x) by (intros ->; destruct (type_of x) as [| | |[]]; discriminate). split; [congruence|reflexivity].
Qed.

(** Construction alone, and the default state. *)
Theorem C23_construction : forall a x T,
  arg_value a = Some x ->
  exists d, Data_new a = Ok (Some d) /\
    (T = type_of x -> dl_Get T d = Ok (Some x)) /\ (T <> type_of x -> dl_Get T d = Ok None).
Proof.
  intros a x T Hx. destruct (Data_new a) as [[d|]| | | |] eqn:Hn;
    try (destruct a; cbn in Hn, Hx; discriminate).
  exists d. split; [reflexivity|]. assert (holds d a).
  { unfold Data_new in Hn. destruct a; try discriminate Hx; cbn in Hn; injection Hn as <-; split; try reflexivity; eexists; reflexivity. }
  rewrite (holds_get d a T x H Hx). destruct (cty_eqb T (type_of x)) eqn:He.
  - apply cty_eqb_spec in He. split; [reflexivity|congruence].
  - assert (T <> type_of x) by (intros ->; destruct (type_of x) as [| | |[]]; discriminate). split; [congruence|reflexivity].
Qed.

(** The link to the theorems about whole objects: after any such history the Data is an
    object whose content is the last value assigned, so it may stand as a leaf of a tree
    that is serialized, matched or dumped (a number must fit its type, as every C++ value
    of that type does). *)
Theorem C23_is_the_value : forall mem d0 l a x,
  starts d0 -> Forall ordinary l -> arg_value a = Some x ->
  (forall t n, a = ANum t n -> num_ok t n) ->
  (exists d, assigns (l ++ [a]) d0 = Ok d /\ denotes mem (dl_obj d) (VScalar x)) /\
  (exists d, Data_new a = Ok (Some d) /\ denotes mem (dl_obj d) (VScalar x)).
Proof.
  intros mem d0 l a x Hs Hl Hx Hn.
  assert (Hden : forall d, holds d a -> denotes mem (dl_obj d) (VScalar x)).
  { intros d [E1 [id E2]]. unfold dl_obj. rewrite E1, E2. constructor.
    destruct a as [s|s|s|s|t n| |]; cbn in Hx; try discriminate; injection Hx as <-; cbn; try rewrite cstr_drop; constructor.
    now apply Hn. }
  split.
  - destruct (assigns_typed l d0 (starts_typed _ Hs) Hl) as (d1 & H1 & Ht).
    destruct (assign_ok d1 a Ht) as (d & H2 & Hh & _); [unfold ordinary; congruence|].
    exists d. rewrite assigns_app, H1. cbn. rewrite H2. auto.
  - destruct a; cbn in Hx; try discriminate; eexists; (split; [reflexivity|]); apply Hden;
      (split; [reflexivity|]; eexists; reflexivity).
Qed.

Theorem C23_default_is_empty : forall T, dl_Get T dl_default = Ok None.
Proof. intros [| | |[]]; reflexivity. Qed.

(** DataView: assignments replace the content; a read at the stored type gives
    the value, a read at any other type gives no value.  Of a character array the
    view covers what precedes its first NUL; an array without one is no possible
    argument ([None], see C48). *)
Fixpoint before_nul (arr : bytes) : option bytes :=
  match arr with
  | [] => None
  | b :: r => if byte_eqb b x00 then Some [] else option_map (cons b) (before_nul r)
  end.
Definition varg_result (a : varg) : option (cty * view_result) :=
  match a with
  | WStr v => Some (CStr, RView v)
  | WCstr v arr =>
      option_map (fun s => (CStr, RView {| v_buf := v_buf v; v_off := v_off v; v_len := len s |})) (before_nul arr)
  | WBytes v => Some (CBytes, RView v)
  | WNum t n => Some (CNum t, RNum t n)
  end.

Fixpoint vassigns (l : list varg) (o : obj) : outcome obj :=
  match l with [] => Ok o | a :: l' => o' <- DataView_assign a o ;; vassigns l' o' end.

Definition vstarts (o : obj) : Prop := o = data_view_default \/ exists a, DataView_new a = Ok o.
Definition vordinary (a : varg) : Prop := varg_result a <> None.

Lemma strlen_before arr :
  strlen arr = match before_nul arr with Some s => Ok (len s) | None => UB end.
Proof.
  induction arr as [|b r IH]; [reflexivity|]. cbn [strlen before_nul].
  destruct (byte_eqb b x00); [reflexivity|]. rewrite IH. destruct (before_nul r); [|reflexivity].
  cbn [omap option_map]. f_equal. unfold len. cbn [length]. now rewrite Nat2N.inj_succ.
Qed.

Lemma DataView_new_ok a : vordinary a ->
  exists s, varg_store a = Ok s /\ DataView_new a = Ok (ODataView (varg_dt a) s).
Proof.
  intros Ha. unfold DataView_new. destruct a as [v|v arr|v|t n]; try (eexists; split; reflexivity).
  unfold vordinary in Ha. cbn in *. rewrite strlen_before. destruct (before_nul arr); [|now contradiction Ha].
  eexists; split; reflexivity.
Qed.

Lemma vassigns_last l : forall a dt s, Forall vordinary l ->
  vassigns (l ++ [a]) (ODataView dt s) = DataView_new a.
Proof.
  induction l as [|b l IH]; intros a dt s Hl; cbn [vassigns app].
  - cbn [DataView_assign]. now destruct (DataView_new a).
  - inversion Hl as [|? ? Hb Hl']; subst. cbn [DataView_assign].
    destruct (DataView_new_ok b Hb) as (s' & _ & ->). cbn [obind]. now apply IH.
Qed.

Lemma vstarts_view o : vstarts o -> exists dt s, o = ODataView dt s.
Proof.
  intros [->|[a Ha]]; [unfold data_view_default; eauto|]. unfold DataView_new in Ha.
  destruct (varg_store a); inversion Ha. eauto.
Qed.

Theorem C23_typed_reads_view : forall o l a T U r,
  vstarts o -> Forall vordinary l -> varg_result a = Some (U, r) ->
  exists o', vassigns (l ++ [a]) o = Ok o' /\
    (T = U -> w_GetView T o' = Ok (Some r)) /\
    (T <> U ->
       match U, T with
       | CBytes, CStr | CStr, CBytes => w_GetView T o' = Throw ERuntime
       | _, _ => w_GetView T o' = Ok None
       end).
Proof.
  intros o l a T U r Hs Hl Ha. destruct (vstarts_view o Hs) as (dt & s & ->). rewrite vassigns_last by exact Hl.
  destruct (DataView_new_ok a) as (s' & Hs' & ->); [congruence|]. eexists. split; [reflexivity|].
  destruct a as [v|v arr|v|t n]; cbn [varg_result varg_store varg_dt w_GetView] in *.
  - inversion Hs'; inversion Ha; subst. split; [intros ->; reflexivity|]. destruct T as [| | |[]]; cbn; auto; congruence.
  - rewrite strlen_before in Hs'. destruct (before_nul arr); [|discriminate]. inversion Hs'; inversion Ha; subst.
    split; [intros ->; reflexivity|]. destruct T as [| | |[]]; cbn; auto; congruence.
  - inversion Hs'; inversion Ha; subst. split; [intros ->; reflexivity|]. destruct T as [| | |[]]; cbn; auto; congruence.
  - inversion Hs'; inversion Ha; subst. split; [intros ->; destruct t; reflexivity|].
    destruct T as [| | |t'], t; cbn; auto; destruct t'; cbn; auto; congruence.
Qed.

Example C23_met :
  omap (dl_Get CStr) (assigns [AStr k_id; ANum U32 7; ABytes k_tags; ACstr (k_sub ++ [x00])] dl_default) = Ok (Ok (Some (VStr k_sub))) /\
  omap (dl_Get CBytes) (assigns [AStr k_id; ANum U32 7; ABytes k_tags; ACstr (k_sub ++ [x00])] dl_default) = Ok (Ok None) /\
  starts dl_default.
Proof. repeat split. now left. Qed.

(** C48, for construction and assignment in any history of an owning Data: of a
    character array ending in a NUL everything before it is stored, of any other
    array everything. *)
Theorem C48_constructed_and_assigned_partial : forall arr s,
  arr = s ++ [x00] \/ (arr = s /\ forall s', arr <> s' ++ [x00]) ->
  (exists d, Data_new (ACstr arr) = Ok (Some d) /\ dl_Get CStr d = Ok (Some (VStr s))) /\
  (forall d0 l, starts d0 -> Forall ordinary l ->
     exists d, assigns (l ++ [ACstr arr]) d0 = Ok d /\ dl_Get CStr d = Ok (Some (VStr s))).
Proof.
  intros arr s Hs. assert (Hd : drop_nul arr = s).
  { destruct Hs as [->|[-> Hn]].
    - rewrite <- cstr_drop. unfold cstr_content. rewrite rev_app_distr. cbn. apply rev_involutive.
    - rewrite <- cstr_drop. unfold cstr_content. destruct (rev s) as [|b r] eqn:E; [reflexivity|].
      destruct (byte_eqb_spec b x00) as [->|]; [|reflexivity]. exfalso. apply (Hn (rev r)).
      rewrite <- (rev_involutive s), E. reflexivity. }
  split.
  - destruct (C23_construction (ACstr arr) (VStr (drop_nul arr)) CStr eq_refl) as (d & H1 & H2 & _). rewrite <- Hd. eauto.
  - intros d0 l H0 Hl. destruct (C23_typed_reads d0 l (ACstr arr) (VStr (drop_nul arr)) CStr H0 Hl eq_refl) as (d & H1 & H2 & _).
    rewrite <- Hd. eauto.
Qed.

(** A DataView does not follow that rule: what follows the first NUL of the array is
    lost, and an array without NUL is read past its end - for every such array and
    every history. *)
Lemma before_nul_some s r : ~ In x00 s -> before_nul (s ++ x00 :: r) = Some s.
Proof.
  induction s as [|b s IH]; intros Hn; [reflexivity|]. cbn [before_nul app].
  destruct (byte_eqb_spec b x00) as [->|_]; [contradiction Hn; now left|].
  rewrite IH; [reflexivity|]. intros H. apply Hn. now right.
Qed.
Lemma before_nul_none arr : ~ In x00 arr -> before_nul arr = None.
Proof.
  induction arr as [|b s IH]; intros Hn; [reflexivity|]. cbn [before_nul].
  destruct (byte_eqb_spec b x00) as [->|_]; [contradiction Hn; now left|].
  rewrite IH; [reflexivity|]. intros H. apply Hn. now right.
Qed.

Theorem C48_view_array_refuted : forall v o l arr, vstarts o -> Forall vordinary l ->
  (~ In x00 arr -> DataView_new (WCstr v arr) = UB /\ vassigns (l ++ [WCstr v arr]) o = UB) /\
  (forall s r, arr = s ++ x00 :: r -> ~ In x00 s -> r <> [] ->
     exists o' w, vassigns (l ++ [WCstr v arr]) o = Ok o' /\ DataView_new (WCstr v arr) = Ok o' /\
       w_GetView CStr o' = Ok (Some (RView w)) /\ v_len w < len arr - 1).
Proof.
  intros v o l arr Ho Hl. destruct (vstarts_view o Ho) as (dt & s0 & ->). rewrite vassigns_last by exact Hl. split.
  - intros Hn. assert (DataView_new (WCstr v arr) = UB) as ->; [|auto].
    unfold DataView_new. cbn [varg_store]. rewrite strlen_before, before_nul_none by exact Hn. reflexivity.
  - intros s r -> Hn Hr. unfold DataView_new. cbn [varg_store varg_dt]. rewrite strlen_before, before_nul_some by exact Hn.
    cbn [omap]. do 2 eexists. split; [reflexivity|]. split; [reflexivity|]. split; [reflexivity|].
    cbn [v_len]. unfold len. rewrite app_length. cbn [length]. destruct r; [now contradiction Hr|]. cbn [length]. lia.
Qed.

(** What holds of a DataView: the view covers exactly what precedes the first NUL. *)
Theorem C48_view_partial : forall v o l s r, vstarts o -> Forall vordinary l -> ~ In x00 s ->
  exists o' w, vassigns (l ++ [WCstr v (s ++ x00 :: r)]) o = Ok o' /\
    DataView_new (WCstr v (s ++ x00 :: r)) = Ok o' /\ w_GetView CStr o' = Ok (Some (RView w)) /\
    v_buf w = v_buf v /\ v_off w = v_off v /\ v_len w = len s.
Proof.
  intros v o l s r Ho Hl Hn. destruct (vstarts_view o Ho) as (dt & s0 & ->). rewrite vassigns_last by exact Hl.
  unfold DataView_new. cbn [varg_store varg_dt]. rewrite strlen_before, before_nul_some by exact Hn. cbn [omap].
  do 2 eexists. repeat split; reflexivity.
Qed.

Example C48_view_met : vstarts data_view_default /\ ~ In x00 (str [97]) /\
  Forall vordinary [WNum I32 5; WCstr {| v_buf := 1; v_off := 0; v_len := 4 |} (str [97; 98; 99; 0])] /\
  str [97; 0; 98; 0] = str [97] ++ x00 :: str [98; 0].
Proof.
  split; [now left|]. split; [intros [H|[]]; discriminate|]. split; [|reflexivity].
  constructor; [discriminate|]. constructor; [|constructor]. discriminate.
Qed.

(** ** C24 *)

(** GetView throws: a DataView holding bytes, read as a string. *)
Theorem C24_view_read_throws_refuted : forall v,
  w_GetView CStr (data_view_of_bytes v) = Throw ERuntime /\
  w_GetView CBytes (data_view_of_string v) = Throw ERuntime.
Proof. intros v. split; reflexivity. Qed.

(** Exactly these reads throw; all others return, with a value exactly when the
    node is a view of the requested type. *)
Theorem C24_view_reads_partial : forall mem o v T,
  denotes mem o v ->
  match o with
  | ODataView dt s =>
      if ((dt =? BRIDGE_BYTES) && cty_eqb T CStr) || ((dt =? BRIDGE_STRING) && cty_eqb T CBytes)
      then w_GetView T o = Throw ERuntime
      else exists r, w_GetView T o = Ok r /\ (r <> None <-> dt = dt_of_cty T)
  | _ => w_GetView T o = Ok None
  end.
Proof.
  intros mem o v T H. destruct H as [| dt s x Hv | | |]; try reflexivity.
  destruct Hv as [w s Hw|w s Hw|t n Hn]; destruct T as [| | |t']; cbn; eauto;
    try (eexists; split; [reflexivity|]; split; [intros _; reflexivity|discriminate]; fail);
    try (destruct t'; cbn; eexists; (split; [reflexivity|]); split; intros H; try discriminate; now contradiction H);
    try (destruct t; cbn; eexists; (split; [reflexivity|]); split; intros H; try discriminate; now contradiction H);
    try (eexists; split; [reflexivity|]; split; intros H; try discriminate; now contradiction H).
  destruct t, t'; cbn; eexists; (split; [reflexivity|]); split; intros H; try discriminate; try reflexivity; now contradiction H.
Qed.

Example C24_met : denotes (fun _ => Some k_id) (data_view_of_string {| v_buf := 0; v_off := 0; v_len := 2 |}) (VScalar (VStr k_id)).
Proof. apply den_data_view. constructor. reflexivity. Qed.

(** ** C34.  The i-th construction of this Data is the one of the i-th assignment. *)
Lemma assigns_log l : forall d, typed d -> Forall ordinary l ->
  NoDup (d_destroyed d) -> Forall (fun i => (i < d_next d)%nat) (d_destroyed d) ->
  (forall i, In i (old_payload d) -> (i < d_next d)%nat /\ ~ In i (d_destroyed d)) ->
  exists d', assigns l d = Ok d' /\ d_next d' = (d_next d + length l)%nat /\ NoDup (d_destroyed d') /\
    (forall i, In i (old_payload d') -> (i < d_next d')%nat /\ ~ In i (d_destroyed d')) /\
    (forall i, In i (d_destroyed d') <->
       In i (d_destroyed d) \/ (l <> [] /\ In i (old_payload d)) \/
       exists j a, i = (d_next d + j)%nat /\ nth_error l j = Some a /\ owned a = true /\ (S j < length l)%nat).
Proof.
  induction l as [|a l IH]; intros d Hd Hl Hnd Hb Hold; cbn [assigns].
  - exists d. split; [reflexivity|]. split; [cbn; lia|]. split; [exact Hnd|]. split; [exact Hold|].
    intros i. split; [tauto|]. intros [H|[[H _]|(j & b & _ & H & _)]]; [exact H|now contradiction H|now destruct j].
  - inversion Hl as [|? ? Ha Hl']; subst.
    destruct (assign_ok d a Hd Ha) as (d1 & H1 & Hh & Hn & Hds & s & Hsl & Hop). rewrite H1. cbn [obind].
    assert (Hin1 : forall i, In i (d_destroyed d1) <-> In i (old_payload d) \/ In i (d_destroyed d)) by (intros i; rewrite Hds, in_app_iff; tauto).
    assert (Hopd : (length (old_payload d) <= 1)%nat) by (unfold old_payload; destruct (d_slot d) as [|? []]; cbn; lia).
    destruct (IH d1) as (d' & E1 & E2 & E3 & E4 & E5); [right; eauto|exact Hl'| | | |].
    + rewrite Hds. destruct (old_payload d) as [|i [|? ?]] eqn:Ho; cbn in *; [exact Hnd| |lia].
      constructor; [|exact Hnd]. apply Hold. now left.
    + rewrite Hds, Hn. apply Forall_app. split.
      * apply Forall_forall. intros i Hi. apply Hold in Hi. lia.
      * eapply Forall_impl; [|exact Hb]. cbn. lia.
    + intros i Hi. rewrite Hop in Hi. destruct (owned a); [|destruct Hi]. destruct Hi as [<-|[]]. split; [lia|].
      rewrite Hin1. intros [Hi|Hi]; [apply Hold in Hi; lia|]. rewrite Forall_forall in Hb. specialize (Hb _ Hi). lia.
    + exists d'. split; [exact E1|]. split; [rewrite E2; cbn; lia|]. split; [exact E3|]. split; [exact E4|].
      intros i. rewrite E5, Hin1, Hop. split.
      * intros [[H|H]|[[Hne H]|(j & b & -> & Hj & Hb' & Hlt)]].
        -- right. left. split; [discriminate|exact H].
        -- now left.
        -- destruct (owned a) eqn:Hoa; [|destruct H]. destruct H as [<-|[]]. right. right.
           exists 0%nat, a. cbn. destruct l; [now contradiction Hne|]. cbn. repeat split; auto; lia.
        -- right. right. exists (S j), b. cbn. repeat split; auto; lia.
      * intros [H|[[_ H]|(j & b & -> & Hj & Hb' & Hlt)]]; [tauto|tauto|].
        destruct j as [|j]; cbn in Hj.
        -- injection Hj as ->. right. left. split; [intros ->; cbn in Hlt; lia|]. rewrite Hb'. left. lia.
        -- right. right. exists j, b. rewrite Hn. cbn in Hlt. repeat split; auto; lia.
Qed.

(** Payload number [i] is the one stored by assignment [i]. *)
Theorem C34_released_once : forall l,
  Forall ordinary l ->
  exists d, assigns l dl_default = Ok d /\           (* nothing is destroyed twice or misused *)
    NoDup (d_destroyed d) /\
    forall i, In i (d_destroyed d) <->
      exists a, nth_error l i = Some a /\ owned a = true /\ (S i < length l)%nat.
Proof.
  intros l Hl. destruct (assigns_log l dl_default) as (d & H1 & H2 & H3 & _ & H5);
    [left; split; reflexivity|exact Hl|constructor|constructor|intros i []|].
  exists d. split; [exact H1|]. split; [exact H3|]. intros i. rewrite H5. split.
  - intros [[]|[[_ []]|(j & a & -> & Hj & Ho & Hlt)]]. exists a. cbn in *. auto.
  - intros (a & Ha & Ho & Hlt). right. right. exists i, a. cbn. auto.
Qed.

(** The same for a Data that starts with a value (constructed or parsed): its first
    payload has number 0 and is released by the first assignment. *)
Theorem C34_released_once_from_value : forall d0 a0 l,
  Data_new a0 = Ok (Some d0) -> Forall ordinary l ->
  exists d, assigns l d0 = Ok d /\ NoDup (d_destroyed d) /\
    forall i, In i (d_destroyed d) <->
      exists a, nth_error (a0 :: l) i = Some a /\ owned a = true /\ (i < length l)%nat.
Proof.
  intros d0 a0 l H0 Hl.
  assert (Ha0 : ordinary a0) by (destruct a0; cbn in H0; try discriminate; discriminate).
  assert (E0 : Data_assign a0 dl_default = Ok (d0, None)).
  { destruct a0; cbn in *; try discriminate; injection H0 as <-; reflexivity. }
  destruct (C34_released_once (a0 :: l)) as (d & H1 & H2 & H3); [constructor; auto|].
  cbn [assigns] in H1. rewrite E0 in H1. cbn [obind] in H1. exists d. split; [exact H1|]. split; [exact H2|].
  intros i. rewrite H3. split; intros (a & H4 & H5 & H6); exists a; cbn [length] in *; repeat split; auto; lia.
Qed.

Example C34_met : exists d, assigns [AStr k_id; ANum I64 3; ABytes k_tags; ACustom k_sub] dl_default = Ok d /\ d_destroyed d = [2; 0]%nat.
Proof. eexists. split; reflexivity. Qed.

(** ** C50: an assignment whose argument's SerializeToBridge throws *)

(** Whatever the Data held, after the exception it claims to hold a custom value
    although its storage is dead: reading it or assigning again is undefined. *)
Theorem C50_throwing_assignment_refuted : forall d0 l a,
  starts d0 -> Forall ordinary l -> ordinary a ->
  exists d d', assigns l d0 = Ok d /\ Data_assign AThrowing d = Ok (d', Some ERuntime) /\
    dl_Get CCustom d' = UB /\ Data_assign a d' = UB.
Proof.
  intros d0 l a Hs Hl Ha. destruct (assigns_typed l d0 (starts_typed _ Hs) Hl) as (d & H1 & Ht).
  exists d. unfold Data_assign at 1. destruct Ht as [[Hd Hsl]|(b & Hb & Hd & id & Hsl)].
  - eexists. split; [exact H1|]. unfold destruct_by_datatype. rewrite Hd. cbn. split; [reflexivity|].
    unfold dl_Get, Data_assign, destruct_by_datatype, destruct. cbn. rewrite Hsl. split; reflexivity.
  - unfold destruct_by_datatype. rewrite Hd. unfold destruct. rewrite Hsl.
    destruct b as [s|s|s|s|t n| |]; try (exfalso; apply Hb; reflexivity); cbn.
    1,2,3,4: (eexists; split; [exact H1|]; split; [reflexivity|]; 
         unfold dl_Get, Data_assign, destruct_by_datatype, destruct; cbn; split; reflexivity).
    exists (set_dt BRIDGE_CUSTOM d). split; [exact H1|]. split; [destruct t; reflexivity|].
    unfold dl_Get, Data_assign, destruct_by_datatype, destruct. cbn. rewrite Hsl. split; reflexivity.
Qed.

(** What still works after the exception: reads at any built-in type are empty, and
    the old payload has been released (once, by C34). *)
Theorem C50_after_exception_partial : forall d0 l d d' T,
  starts d0 -> Forall ordinary l -> assigns l d0 = Ok d -> Data_assign AThrowing d = Ok (d', Some ERuntime) ->
  T <> CCustom -> dl_Get T d' = Ok None /\ d_destroyed d' = old_payload d ++ d_destroyed d.
Proof.
  intros d0 l d d' T Hs Hl H1 H2 HT. destruct (assigns_typed l d0 (starts_typed _ Hs) Hl) as (d1 & H1' & Ht).
  rewrite H1 in H1'. injection H1' as <-. destruct (destruct_ok d Ht) as (d2 & E1 & E2 & E3).
  unfold Data_assign in H2. rewrite E1 in H2. cbn in H2. injection H2 as <-. cbn. split; [|exact E3].
  unfold dl_Get, Data_Get. cbn. destruct T as [| | |[]]; try reflexivity. now contradiction HT.
Qed.

Example C50_met : exists d d', assigns [AStr k_id] dl_default = Ok d /\ Data_assign AThrowing d = Ok (d', Some ERuntime) /\
  dl_Get CStr d' = Ok None /\ dl_Get CCustom d' = UB.
Proof. do 2 eexists. split; [reflexivity|]. split; [reflexivity|]. split; reflexivity. Qed.

(** ** C51: assigning a Data from its own content *)
Theorem C51_self_assignment_refuted : forall d0 l s,
  starts d0 -> Forall ordinary l ->
  exists d, assigns (l ++ [AStr s]) d0 = Ok d /\ dl_Get CStr d = Ok (Some (VStr s)) /\ Data_assign AOwn d = UB.
Proof.
  intros d0 l s Hs Hl. destruct (C23_typed_reads d0 l (AStr s) (VStr s) CStr Hs Hl eq_refl) as (d & H1 & H2 & _).
  exists d. split; [exact H1|]. split; [now apply H2|].
  destruct (assigns_typed l d0 (starts_typed _ Hs) Hl) as (d1 & E1 & Ht). rewrite assigns_app, E1 in H1. cbn in H1.
  destruct (assign_ok d1 (AStr s) Ht) as (d2 & E2 & [E3 [id E4]] & _); [discriminate|]. rewrite E2 in H1. cbn in H1. injection H1 as ->.
  unfold Data_assign, destruct_by_datatype, destruct. rewrite E3, E4. reflexivity.
Qed.

(** Assigning a copy taken beforehand is fine. *)
Theorem C51_copy_first_partial : forall d0 l d s,
  starts d0 -> Forall ordinary l -> assigns l d0 = Ok d -> dl_Get CStr d = Ok (Some (VStr s)) ->
  exists d', Data_assign (AStr s) d = Ok (d', None) /\ dl_Get CStr d' = Ok (Some (VStr s)).
Proof.
  intros d0 l d s Hs Hl H1 H2. destruct (assigns_typed l d0 (starts_typed _ Hs) Hl) as (d1 & E1 & Ht).
  rewrite H1 in E1. injection E1 as <-. destruct (assign_ok d (AStr s) Ht) as (d2 & E2 & Hh & _); [discriminate|].
  exists d2. split; [exact E2|]. now rewrite (holds_get d2 (AStr s) CStr (VStr s) Hh eq_refl).
Qed.

Example C51_met : exists d, assigns [ANum U32 1; AStr k_id] dl_default = Ok d /\ dl_Get CStr d = Ok (Some (VStr k_id)).
Proof. eexists. split; reflexivity. Qed.
