(** * Property C84: parsing, editing and writing again. *)
From Verif Require Import Base BaseLemmas ModelVarint ModelData ModelSecondary ModelObject
  ModelParse ModelWrapper Spec SpecApi VarintProofs Wire NumProofs SeriProofs SeriProofs2 DocProofs ObjInd ParseLemmas
  NormalProofs SecondaryProofs ValueProofs ParaProofs RoundTrip GeneralProofs ApiProofs Samples PropRoundTrip PropDocument PropHostile FrameProofs PropTamper
  PropContainers PropCanonical Lenient LenientProofs LenientTables PropLenient PropAmplify.
From Coq Require Import ZifyBool ZifyNat ZifyN.

(** ** Specification: what an edit means *)

(** [Push x]: append an element to the array; [Put k x]: give the map an entry; [Wipe]: Clear. *)
Inductive edit (X : Type) := Push (x : X) | Put (k : bytes) (x : X) | Wipe.
Arguments Push {X} x.
Arguments Put {X} k x.
Arguments Wipe {X}.

(** The value after one edit; an edit of the wrong kind has no meaning. *)
Inductive edited : value -> edit value -> value -> Prop :=
| ed_push l v : edited (VArr l) (Push v) (VArr (l ++ [v]))
| ed_put l k v : edited (VMap l) (Put k v) (VMap ((k, v) :: l))
| ed_wipe_arr l : edited (VArr l) Wipe (VArr [])
| ed_wipe_map l : edited (VMap l) Wipe (VMap []).

Inductive history : value -> list (edit value) -> value -> Prop :=
| hi_nil v : history v [] v
| hi_cons v e v1 es v2 : edited v e v1 -> history v1 es v2 -> history v (e :: es) v2.

(** ** The same through the API *)
Definition oedit (live : pool -> bool) (o : obj) (e : edit obj) : outcome obj :=
  match e with
  | Push x => Array_Insert live o x
  | Put k x => Map_Insert live o k x
  | Wipe => Container_Clear o
  end.
Fixpoint oedits (live : pool -> bool) (o : obj) (es : list (edit obj)) : outcome obj :=
  match es with
  | [] => Ok o
  | e :: es' => obind (oedit live o e) (fun o' => oedits live o' es')
  end.

(** The objects handed over denote the values. *)
Definition edit_denotes (mem : memory) (e : edit obj) (e' : edit value) : Prop :=
  match e, e' with
  | Push x, Push v => denotes mem x v
  | Put k x, Put k' v => k = k' /\ denotes mem x v
  | Wipe, Wipe => True
  | _, _ => False
  end.

(** Objects as the sequential copying parser builds them, at the top. *)
Definition rooted (p : pool) (o : obj) : Prop :=
  match o with OArray q _ _ | OMap q _ _ => q = p | OMapView _ _ _ => False | _ => True end.

Lemma edits_ok mem live p : live p = true -> forall es es' o v v',
  rooted p o -> denotes mem o v -> Forall2 (edit_denotes mem) es es' -> history v es' v' ->
  match w_Size o with Some n => n + len es < 2 ^ 64 | None => True end ->
  exists o', oedits live o es = Ok o' /\ denotes mem o' v' /\ rooted p o'.
Proof.
  intros Hp. induction es as [|e es IH]; intros es' o v v' Hr Hd HF Hh Hn.
  - inversion HF; subst. inversion Hh; subst. exists o. auto.
  - inversion HF as [|? e' ? es1 He HF']; subst. inversion Hh as [|? ? v1 ? ? Hed Hh']; subst. rewrite len_cons in Hn.
    assert (G : exists o1, oedit live o e = Ok o1 /\ denotes mem o1 v1 /\ rooted p o1 /\
                match w_Size o1 with Some n => n + len es < 2 ^ 64 | None => True end).
    { destruct Hed as [l v0|l k v0|l|l]; destruct e as [x|k' x|]; try contradiction; inversion Hd; subst; cbn [rooted] in Hr; try contradiction; subst; cbn in Hn.
      - cbn. rewrite Hp. eexists. split; [reflexivity|]. rewrite u64_small by (rewrite W64_val; change (2 ^ 64) with 18446744073709551616 in Hn; lia).
        split; [|split; [reflexivity|cbn; lia]]. constructor; [rewrite len_cons; lia|]. rewrite rev_app_distr. cbn. constructor; auto.
      - destruct He as [-> He]. cbn. rewrite Hp. eexists. split; [reflexivity|]. rewrite u64_small by (rewrite W64_val; change (2 ^ 64) with 18446744073709551616 in Hn; lia).
        split; [|split; [reflexivity|cbn; lia]]. constructor; [rewrite len_cons; lia|]. constructor; auto.
      - cbn. eexists. split; [reflexivity|]. split; [|split; [reflexivity|cbn; lia]]. constructor; [reflexivity|constructor].
      - cbn. eexists. split; [reflexivity|]. split; [|split; [reflexivity|cbn; lia]]. constructor; [reflexivity|constructor]. }
    destruct G as (o1 & E1 & E2 & E3 & E4). cbn [oedits]. rewrite E1. cbn [obind]. eapply IH; eauto.
Qed.

Lemma size_nodes mem o v : denotes mem o v -> match w_Size o with Some n => n < nodes o | None => True end.
Proof.
  assert (P : forall o v, denotes mem o v -> 1 <= nodes o) by (clear; intros o v H; destruct H; cbn [nodes]; lia).
  intros H. destruct H as [| |q n l vs -> HF|q n l vs -> HF|q n l vs -> HF]; cbn [w_Size]; try exact I; cbn [nodes];
    induction HF as [|a b l w Hab HF IH]; cbn [map fold_right]; rewrite ?len_cons; try (change (len (@nil obj)) with 0); try (change (len (@nil (bytes * obj))) with 0);
    try (change (len (@nil (view * obj))) with 0); try lia.
  - specialize (P _ _ Hab). lia.
  - destruct Hab as [_ Hab]. specialize (P _ _ Hab). lia.
  - destruct Hab as [_ Hab]. specialize (P _ _ Hab). lia.
Qed.

(** C84.  Any document the sequential copying parser accepts - whoever wrote it -
    can be edited at its root in any sequence, while the pool lives; the result can be
    written by any build in either format, and what is read back by any scheduler, in
    either mode, on any build, shows the edited content along every path. *)
Theorem C84_edit_cycle : forall c fuel content buf p o, sane c -> fits c content ->
  Parse c fuel content buf p sequential = Ok o -> o <> ONull ->
  exists v, (forall mem, denotes mem o v) /\ (forall mem path, api_seen mem o path = Ok (seen_at v path)) /\
    forall mem live es es' v', live p = true -> Forall2 (edit_denotes mem) es es' -> history v es' v' -> len es < 2 ^ 63 ->
    exists o1, oedits live o es = Ok o1 /\
      (forall path, api_seen mem o1 path = Ok (seen_at v' path)) /\
      forall cs ty, sane cs -> exists content1, Serialize cs mem ty p o1 = Ok content1 /\
        (distinct_keys v' -> forall cp buf1 fuel1 p1 po mem1,
           sane cp -> fits cp content1 -> (length content1 <= fuel1)%nat -> (po_ref po = true -> no_custom v' /\ mem1 buf1 = Some content1) ->
           exists o2, Parse cp fuel1 content1 buf1 p1 po = Ok o2 /\ forall path, api_seen mem1 o2 path = Ok (seen_at v' path)).
Proof.
  intros c fuel content buf p o Hsane HL HP Hn. destruct (parsed_again c fuel content buf p o Hsane HL HP Hn) as (v & Ho & Hd).
  exists v. split; [exact Hd|]. split; [intros mem path; apply api_seen_ok; apply Hd|].
  intros mem live es es' v' Hlive HF Hh Hlen.
  assert (Hsz : match w_Size o with Some n => n + len es < 2 ^ 64 | None => True end).
  { pose proof (size_nodes mem o v (Hd mem)) as H1. destruct (C79_any_document_quadratic_partial c fuel content buf p o Hsane HL HP) as (H2 & _ & _).
    destruct (w_Size o) as [n|]; [|exact I]. pose proof (lim_W32 c (len content) HL) as H3. rewrite W32_val in H3.
    change (2 ^ 64) with 18446744073709551616. change (2 ^ 63) with 9223372036854775808 in Hlen. lia. }
  assert (Hr : rooted p o) by (rewrite Ho; destruct v; cbn; auto).
  destruct (edits_ok mem live p Hlive es es' o v v' Hr (Hd mem) HF Hh Hsz) as (o1 & E1 & E2 & _).
  exists o1. split; [exact E1|]. split; [intros path; now apply api_seen_ok|].
  intros cs ty Hcs.
  destruct (Serialize_document cs mem ty p o1 v' Hcs E2) as (content1 & Hs & _).
  exists content1. split; [exact Hs|]. intros Hk cp buf1 fuel1 p2 po mem1 Hcp Hf Hfuel Hnc.
  destruct (transport_seen cs cp mem ty p o1 v' content1 [] buf1 fuel1 p2 po) as (o2 & HP2 & Ho2); auto.
  { now rewrite app_nil_r. }
  { intros Hr1. now apply Hnc. }
  rewrite app_nil_r in *. exists o2. split; [exact HP2|]. apply Ho2. intros Hr1. now apply Hnc.
Qed.

(** Met by the odd document of C73: an array of one string, to which a number is
    appended. *)
Example C84_met : exists o o1, Parse x86_release 100 odd_doc 7 p1 sequential = Ok o /\ o <> ONull /\ oedits all_live o [Push (data_of_num U32 7); Push (data_of_string k_id)] = Ok o1 /\ api_seen no_mem o1 [] = Ok (SeenArray 3) /\ api_seen no_mem o1 [Idx 1] = Ok (SeenScalar (VNum U32 7)) /\ history (VArr [VScalar (VStr (str [65]))]) [Push (VScalar (VNum U32 7)); Push (VScalar (VStr k_id))]
    (VArr [VScalar (VStr (str [65])); VScalar (VNum U32 7); VScalar (VStr k_id)]).
Proof.
  do 2 eexists. split; [vm_compute; reflexivity|]. split; [discriminate|]. split; [reflexivity|]. split; [reflexivity|]. split; [reflexivity|].
  econstructor; [constructor|]. econstructor; [constructor|]. constructor.
Qed.
