(** * Property C81: depth of nesting, hence depth of recursion. *)
From Verif Require Import Base BaseLemmas ModelVarint ModelData ModelSecondary ModelObject
  ModelParse ModelWrapper Spec SpecApi VarintProofs Wire NumProofs SeriProofs SeriProofs2 DocProofs ObjInd ParseLemmas
  NormalProofs SecondaryProofs ValueProofs RoundTrip GeneralProofs ApiProofs Samples PropRoundTrip PropDocument PropHostile FrameProofs PropTamper
  PropContainers PropCanonical Lenient LenientProofs LenientTables PropLenient PropAmplify.
From Coq Require Import ZifyBool ZifyNat ZifyN.

(** [k + 1] arrays inside each other; three bytes per level. *)
Fixpoint nest (k : nat) : value := match k with O => VArr [] | S k' => VArr [nest k'] end.
Fixpoint nest_bytes (k : nat) : bytes :=
  match k with
  | O => str [0] ++ str [0] ++ concat []
  | S k' => str [1] ++ str [0] ++ concat [n2b 2 :: nest_bytes k']
  end.
Definition nest_body (k : nat) : bytes := str [1] ++ str [0] ++ concat [(str [4] ++ root_key) ++ n2b 2 :: nest_bytes k].
Definition nest_doc (k : nat) : bytes :=
  be_bytes 8 (10 + len (nest_body k)) ++ [n2b 0] ++ [n2b 0] ++ nest_body k ++ str [1] ++ str [0] ++ [].

Lemma nest_len k : len (nest_bytes k) = 3 * N.of_nat k + 2.
Proof.
  induction k as [|k IH]; [reflexivity|]. cbn [nest_bytes concat]. rewrite app_nil_r, !len_app, len_cons, IH.
  change (len (str [1])) with 1. change (len (str [0])) with 1. lia.
Qed.
Lemma nest_doc_len k : len (nest_doc k) = 3 * N.of_nat k + 22.
Proof.
  unfold nest_doc, nest_body. cbn [concat]. rewrite app_nil_r, !len_app, be_bytes_len, !len_cons, nest_len. change (len (@nil byte)) with 0.
  change (len (str [1])) with 1. change (len (str [0])) with 1. change (len (str [4])) with 1. change (len root_key) with 4. lia.
Qed.
Lemma nest_wire strict k : lwire strict None (nest k) (nest_bytes k).
Proof.
  induction k as [|k IH]; cbn [nest nest_bytes].
  - apply lw_arr with (i := 0); [vint_tac|vint_tac|constructor].
  - apply lw_arr with (i := 0); [vint_tac|vint_tac|]. cbn [rev app]. constructor; [|constructor].
    exists (n2b 2), (nest_bytes k). split; [exact IH|]. split; [destruct k; reflexivity|reflexivity].
Qed.
Lemma nest_depth k : vnesting (nest k) = N.of_nat k + 1.
Proof. induction k as [|k IH]; [reflexivity|]. cbn [nest vnesting map fold_right]. rewrite IH. lia. Qed.

(** C81 is false of the code: the parser sets no limit to nesting.  For every depth
    there is a document of three bytes per level that is accepted. *)
Theorem C81_depth_limit_refuted : forall c buf p k, sane c -> 3 * N.of_nat k + 22 < 2 ^ 31 ->
  exists content o, len content = 3 * N.of_nat k + 22 /\
    Parse c (length content) content buf p sequential = Ok o /\ nesting o = N.of_nat k + 1.
Proof.
  intros c buf p k Hsane Hk. pose proof (nest_doc_len k) as Hlen.
  exists (nest_doc k), (meaning p [(root_key, nest k)]). split; [exact Hlen|]. split.
  - apply C73_documents_accepted with (ty := NORMAL) (D := None) (rest := str [1] ++ str [0] ++ []); auto.
    + unfold fits. rewrite Hlen. change (2 ^ 31) with 2147483648 in *. change (2 ^ 32) with 4294967296. destruct (ndebug c); lia.
    + unfold nest_doc. constructor.
      * apply be_bytes_len.
      * rewrite big_endian_network, of_network_be; [reflexivity|]. unfold nest_doc in Hlen. rewrite !len_app, be_bytes_len in Hlen.
        change (2 ^ (8 * 8)) with 18446744073709551616. change (2 ^ 31) with 2147483648 in Hk. lia.
      * reflexivity.
      * now left.
      * unfold nest_body. apply lw_map with (i := 0); [vint_tac|vint_tac|]. constructor; [|constructor].
        exists (str [4] ++ root_key), (n2b 2), (nest_bytes k). split; [apply ls_plain; [reflexivity|vint_tac]|].
        split; [apply nest_wire|]. split; [destruct k; reflexivity|reflexivity].
      * discriminate.
    + apply (lt_normal true (str [1]) (str [0]) []); [vint_tac|]. apply (lsplit_ [] 0 (str [0]) [] []); [vint_tac|reflexivity|constructor|constructor].
  - assert (meaning p [(root_key, nest k)] = tree_of p (mirror (nest k))) as -> by reflexivity.
    destruct (measures p (nest k)) as (_ & _ & ->). apply nest_depth.
Qed.

(** What holds instead: the recursion is never deeper than a third of the input. *)
Theorem C81_depth_linear_partial : forall c fuel content buf p o, sane c -> fits c content ->
  Parse c fuel content buf p sequential = Ok o -> 3 * nesting o + 10 <= len content.
Proof. intros c fuel content buf p o Hs Hf H. apply (C79_any_document_quadratic_partial c fuel content buf p o Hs Hf H). Qed.

Example C81_met : exists o, Parse x86_release 100 (nest_doc 5) 7 p1 sequential = Ok o /\ nesting o = 6 /\ len (nest_doc 5) = 37.
Proof. eexists. split; [vm_compute; reflexivity|]. split; reflexivity. Qed.
