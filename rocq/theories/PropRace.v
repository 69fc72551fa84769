(** * C57 sharpened: which documents let the parallel parser race on the dictionary. *)
From Verif Require Import Base BaseLemmas ModelVarint ModelData ModelSecondary ModelObject
  ModelParse ModelWrapper ModelConcurrent Spec SpecApi VarintProofs Wire NumProofs SeriProofs SeriProofs2 DocProofs ObjInd ParseLemmas
  NormalProofs SecondaryProofs ValueProofs ParaProofs GeneralProofs FrameProofs TermProofs Samples PropDocument PropHostile
  Lenient LenientPara LenientProofs LenientTables LenientRef PropLenient LenientParaProofs PropPara PropInsitu InsituSim InsituBack PropInsituPara
  Overrun OverrunProofs PropOverrun PropAssert OverrunPara OverrunParaProofs PropOverrunPara PropConcurrent.
From Coq Require Import ZifyBool ZifyNat ZifyN.

(** A block that begins at [lo] and has [n] bytes makes a thread look up a string
    first thing: it is not empty and begins with a complete number (the id of a key). *)
Definition asks (content : bytes) (lo n : N) : Prop := 0 < n /\ exists id a, number_at content lo id a.

(** Two blocks of the root do. *)
Definition contended (blocks : list (N * list N)) (content : bytes) : Prop :=
  exists n a id b l1 n1 l2 n2 l3,
    number_at content 10 n a /\ number_at content a id b /\ In (id mod 2 ^ 32, l1 ++ n1 :: l2 ++ n2 :: l3) blocks /\
    asks content (b + fold_right N.add 0 l1) n1 /\ asks content (b + fold_right N.add 0 (l1 ++ n1 :: l2)) n2.

(** ** Computations that ask at most once before they have built the table *)
Definition still {A} (p : prog A) : Prop := match p with PRet _ | PFail _ => True | _ => False end.
Lemma still_lift {A B} (o : outcome A) (f : A -> prog B) : (forall a, still (f a)) -> still (pbind (lift o) f).
Proof. intros H. destruct o; cbn; auto. Qed.
Lemma still_step look A sh (p : prog A) sh' t' : still p -> cstep look sh (TRun p) sh' t' -> False.
Proof. intros H St. apply cstep_inv in St. destruct p; cbn in H; try contradiction; cbn in St; tauto. Qed.

Lemma cstep_inv2 look A sh (t : tree A) sh' t' : cstep look sh t sh' t' ->
  match t with
  | TRun (PRet _) | TRun (PFail _) => False
  | TRun (PGetStr id k) => (sh = Fresh /\ sh' = Building /\ t' = TBuild id k) \/ (sh = Ready /\ sh' = Ready) \/ (sh = Building /\ sh' = Building)
  | TRun (PPar ts k) => sh' = sh /\ t' = TWait (map TRun ts) k
  | TBuild id k => sh' = Ready /\ t' = TRun (answer (look id) k)
  | TWait ts k =>
      (exists l1 x l2 x', ts = l1 ++ x :: l2 /\ cstep look sh x sh' x' /\ t' = TWait (l1 ++ x' :: l2) k) \/
      (exists rs, map finished ts = map Some rs /\ sh' = sh /\ t' = TRun (k rs))
  end.
Proof. intros H; destruct H; eauto 10. Qed.

Inductive one_asks : list (prog block) -> Prop :=
| oa_none ts : Forall still ts -> one_asks ts
| oa_one l1 id k l2 : Forall still l1 -> Forall still l2 -> one_asks (l1 ++ PGetStr id k :: l2).

Section Inv.
  Variable A : Type.
  Variable look : N -> outcome view.
  Variable ts : list (prog block).
  Variable k : list (outcome block) -> prog A.
  Hypothesis Hts : one_asks ts.
  Hypothesis Hk : forall rs, still (k rs).

  Inductive calm : shared -> tree A -> Prop :=
  | ca_still sh p : still p -> calm sh (TRun p)
  | ca_start : calm Fresh (TRun (PPar ts k))
  | ca_fork : calm Fresh (TWait (map TRun ts) k)
  | ca_build l1 id k0 l2 : Forall still l1 -> Forall still l2 -> calm Building (TWait (map TRun l1 ++ TBuild id k0 :: map TRun l2) k)
  | ca_ready t : no_builder t -> calm Ready t.

  Lemma still_map l sh x sh' x' (l1 l2 : list (tree block)) : Forall still l -> map TRun l = l1 ++ x :: l2 -> cstep look sh x sh' x' -> False.
  Proof.
    intros HF Hm St. apply map_eq_app in Hm as (m1 & m2 & -> & _ & Hm). apply map_eq_cons in Hm as (y & m3 & -> & <- & _).
    apply Forall_app in HF as [_ HF]. inversion HF; subst. eapply still_step; eauto.
  Qed.

  Lemma mid_cases {X} (l1 : list X) x l2 m1 y m2 : l1 ++ x :: l2 = m1 ++ y :: m2 ->
    (l1 = m1 /\ x = y /\ l2 = m2) \/ (exists m, l1 = m1 ++ y :: m) \/ (exists m, l2 = m ++ y :: m2).
  Proof.
    revert m1. induction l1 as [|z l1 IH]; intros [|w m1] H; cbn in H; injection H as -> H.
    - left; auto.
    - right; right. eauto.
    - right; left. exists l1. reflexivity.
    - destruct (IH _ H) as [(-> & -> & ->)|[(m & ->)|(m & ->)]]; [left; auto|right; left; exists m; reflexivity|right; right; exists m; reflexivity].
  Qed.

  Lemma calm_step sh t sh' t' : calm sh t -> cstep look sh t sh' t' -> calm sh' t' /\ meaning look t' = meaning look t.
  Proof.
    intros HC St. destruct HC as [sh p Hp| | |l1 id k0 l2 H1 H2|t Ht].
    - exfalso. eapply still_step; eauto.
    - split; [|now apply (cstep_meaning _ _ _ _ _ _ St)]. apply cstep_inv2 in St. cbn in St. destruct St as [-> ->]. apply ca_fork.
    - split; [|now apply (cstep_meaning _ _ _ _ _ _ St)]. apply cstep_inv2 in St. cbn in St. destruct St as [(l1 & x & l2 & x' & Hm & St & ->)|(rs & _ & -> & ->)]; [|constructor; apply Hk].
      inversion Hts as [ts' HF HE|m1 id k0 m2 F1 F2 HE]; [exfalso; eapply still_map; eauto|].
      rewrite <- HE, map_app in Hm. cbn [map] in Hm. destruct (mid_cases _ _ _ _ _ _ Hm) as [(<- & <- & <-)|[(m & Hx)|(m & Hx)]].
      + apply cstep_inv2 in St. cbn in St. destruct St as [(_ & -> & ->)|[(? & _)|(? & _)]]; try discriminate. now constructor.
      + exfalso. eapply still_map with (l := m1); eauto.
      + exfalso. eapply still_map with (l := m2); eauto.
    - apply cstep_inv2 in St as St'. cbn in St'. destruct St' as [(m1 & x & m2 & x' & Hm & Sx & ->)|(rs & Hf & -> & ->)].
      + destruct (mid_cases _ _ _ _ _ _ Hm) as [(<- & <- & <-)|[(m & Hx)|(m & Hx)]].
        * apply cstep_inv2 in Sx. cbn in Sx. destruct Sx as [-> ->]. split.
          -- constructor. cbn [no_builder]. apply fold_mid. split; [|exact I]. rewrite <- map_app. apply no_builder_run.
          -- cbn [meaning]. rewrite !map_app. cbn [map meaning]. now rewrite run_answer.
        * exfalso. eapply still_map with (l := l1); eauto.
        * exfalso. eapply still_map with (l := l2); eauto.
      + exfalso. rewrite map_app in Hf. cbn [map finished] in Hf. symmetry in Hf. apply map_eq_app in Hf as (? & ? & _ & _ & Hf). destruct x0; discriminate.
    - destruct (no_builder_step _ _ _ _ _ _ St eq_refl Ht) as (H1 & ->). split; [now constructor|]. now apply (cstep_meaning look A Ready t Ready t').
  Qed.

  Lemma calm_steps sh t : csteps look Fresh (TRun (PPar ts k)) sh t -> calm sh t /\ meaning look t = run look (PPar ts k).
  Proof.
    intros H. remember Fresh as sh0. remember (TRun (PPar ts k)) as t0. induction H as [sh t|sh t sh1 t1 sh2 t2 H IH St]; subst.
    - split; [apply ca_start|reflexivity].
    - destruct (IH eq_refl eq_refl) as [H1 H2]. destruct (calm_step _ _ _ _ H1 St) as [H3 H4]. split; [exact H3|congruence].
  Qed.

  Lemma still_sums l : Forall (@still block) l ->
    list_sum (map (fun x => active x) (map TRun l)) = 0%nat /\ list_sum (map (fun x => in_getstr x) (map TRun l)) = 0%nat.
  Proof.
    induction 1 as [|p l Hp HF [IH1 IH2]]; [auto|]. cbn [map list_sum fold_right]. destruct p; cbn in Hp; try contradiction; cbn; auto.
  Qed.
  Lemma list_sum_mid l1 x l2 : list_sum (l1 ++ x :: l2) = (list_sum l1 + (x + list_sum l2))%nat.
  Proof. rewrite list_sum_app. reflexivity. Qed.

  Lemma calm_count sh t : calm sh t -> sh <> Ready -> in_getstr t <> 0%nat -> active t = 1%nat.
  Proof.
    intros HC Hsh Hn. destruct HC as [sh p Hp| | |l1 id k0 l2 H1 H2|t Ht]; [| | | |congruence].
    - exfalso. destruct p; cbn in Hp; try contradiction; apply Hn; reflexivity.
    - exfalso. apply Hn. reflexivity.
    - cbn [in_getstr active] in *. inversion Hts as [ts' HF HE|m1 id k0 m2 F1 F2 HE].
      + exfalso. apply Hn. apply still_sums; auto.
      + rewrite <- HE in *. destruct (still_sums m1 F1) as [A1 B1], (still_sums m2 F2) as [A2 B2]. rewrite !map_app in *. cbn [map] in *. rewrite list_sum_mid in *. cbn [active]. lia.
    - cbn [in_getstr active] in *. destruct (still_sums l1 H1) as [A1 B1], (still_sums l2 H2) as [A2 B2]. rewrite !map_app in *. cbn [map] in *. rewrite list_sum_mid in *. cbn [active]. lia.
  Qed.
End Inv.

(** ** The root of a split document *)
Section Root.
  Variable E : penv.
  Variable si : split_info.
  Variable pr : bool.
  Notation R := (b_env E).
  Notation content := (r_content (b_env E)).
  Hypothesis Hbase : r_base R = 0.
  Hypothesis Hsize : r_size R = len content.
  Hypothesis Hlim : lim (r_cfg R) (len content).
  Hypothesis Hmap : ModelParse.b_map E = true.

  Definition root_task (f : nat) (be : N * N) : prog block :=
    if pr then ParseMapViewBlock E si f (snd be) {| idx := fst be; off := fst be |} [] 0
    else ParseMapBlock E si f (snd be) {| idx := fst be; off := fst be |} [] 0.

  Lemma task_asks f lo hi : lo < hi -> (exists id a, number_at content lo id a) -> exists id k, root_task (S f) (lo, hi) = PGetStr id k.
  Proof using Hbase Hsize Hlim Hmap.
    intros Hlt (id & a & Hn). pose proof (number_ok E Hbase Hsize Hlim _ _ _ Hn) as Hp. unfold at_ in Hp at 1.
    unfold root_task. cbn [fst snd]. destruct pr; [rewrite ParseMapViewBlock_S|rewrite ParseMapBlock_S]; cbn [off];
      replace (lo <? hi) with true by lia; unfold block_key; rewrite Hmap, Hp; cbn; eauto.
  Qed.
  Lemma task_still f lo hi : ~ (lo < hi /\ exists id a, number_at content lo id a) -> still (root_task f (lo, hi)).
  Proof using Hbase Hsize Hlim Hmap.
    intros HN. unfold root_task. cbn [fst snd]. destruct f as [|f]; [destruct pr; exact I|].
    destruct pr; [rewrite ParseMapViewBlock_S|rewrite ParseMapBlock_S]; cbn [off]; (destruct (N.ltb_spec lo hi) as [Hlt|Hlt]; [|exact I]);
      unfold block_key; rewrite Hmap; (destruct (parseLength R {| idx := lo; off := lo |}) as [[id s]| | | |] eqn:Hp; cbn; try exact I);
      (exfalso; apply HN; split; [exact Hlt|]; change {| idx := lo; off := lo |} with (at_ lo) in Hp;
       apply (length_sound E Hbase Hsize Hlim) in Hp as (b & Hv & Hs & _); exists id, (lo + len b), b; auto).
  Qed.

  Lemma task_cases f lo hi : still (root_task f (lo, hi)) \/
    ((exists id k, root_task f (lo, hi) = PGetStr id k) /\ lo < hi /\ exists id a, number_at content lo id a).
  Proof using Hbase Hsize Hlim Hmap.
    destruct f as [|f]; [left; unfold root_task; destruct pr; exact I|].
    destruct (N.ltb_spec lo hi) as [Hlt|Hlt]; [|left; apply task_still; lia].
    destruct (parseLength R (at_ lo)) as [[id s]| | | |] eqn:Hp;
      try (left; apply task_still; intros (_ & i & a & Hn); apply (number_ok E Hbase Hsize Hlim) in Hn; congruence).
    right. assert (Hn : exists id a, number_at content lo id a).
    { apply (length_sound E Hbase Hsize Hlim) in Hp as (b & Hv & Hs & _). exists id, (lo + len b), b. auto. }
    split; [now apply task_asks|auto].
  Qed.
  Lemma tasks_cases f rs : one_asks (map (root_task f) rs) \/
    exists r1 lo hi r2 lo' hi' r3, rs = r1 ++ (lo, hi) :: r2 ++ (lo', hi') :: r3 /\
      (lo < hi /\ exists id a, number_at content lo id a) /\ (lo' < hi' /\ exists id a, number_at content lo' id a).
  Proof using Hbase Hsize Hlim Hmap.
    assert (G : forall rs, Forall still (map (root_task f) rs) \/ exists r1 lo hi r2, rs = r1 ++ (lo, hi) :: r2 /\ Forall still (map (root_task f) r1) /\
      (exists id k, root_task f (lo, hi) = PGetStr id k) /\ lo < hi /\ exists id a, number_at content lo id a).
    { clear rs. induction rs as [|[lo hi] rs IH]; [left; constructor|]. destruct (task_cases f lo hi) as [Ht|Ht].
      - destruct IH as [IH|(r1 & lo' & hi' & r2 & -> & H1 & H2)]; [left; now constructor|right]. exists ((lo, hi) :: r1), lo', hi', r2. split; [reflexivity|]. split; [now constructor|exact H2].
      - right. exists [], lo, hi, rs. split; [reflexivity|]. split; [constructor|exact Ht]. }
    destruct (G rs) as [HF|(r1 & lo & hi & r2 & -> & F1 & (id & k & Hk) & Ha)]; [left; now constructor|].
    destruct (G r2) as [HF|(r2' & lo' & hi' & r3 & -> & _ & _ & Ha')].
    - left. rewrite map_app. cbn [map]. rewrite Hk. now constructor.
    - right. exists r1, lo, hi, r2', lo', hi', r3. auto.
  Qed.

  (** The root's computation: it fails, or forks into its blocks. *)
  Lemma root_shape f : exists q : prog obj, CoroParse_prog E si (S f) pr = q /\
    (still q \/ exists n a id b sizes k, number_at content 10 n a /\ number_at content a id b /\ In (id mod 2 ^ 32, sizes) (si_info si) /\
       q = PPar (map (root_task f) (fst (ranges b sizes))) k /\ forall rs, still (k rs)).
  Proof using Hbase Hsize Hlim.
    eexists. split; [reflexivity|]. unfold CoroParse_prog. rewrite ParseMap_S. cbv zeta. unfold meta_size.
    change {| idx := 10; off := 10 |} with (at_ 10).
    destruct (parseLength R (at_ 10)) as [[n s1]| | | |] eqn:H1; try (left; exact I). cbn [lift pbind].
    destruct (parseLength R s1) as [[id s2]| | | |] eqn:H2; try (left; exact I). cbn [lift pbind].
    destruct (GetBlockInfoFromId si (u32 id)) as [bi| | | |] eqn:H3; try (left; exact I). cbn [lift pbind].
    apply (length_sound E Hbase Hsize Hlim) in H1 as (b1 & V1 & S1 & -> & _). apply (length_sound E Hbase Hsize Hlim) in H2 as (b2 & V2 & S2 & -> & _).
    assert (Hin : In (id mod 2 ^ 32, bi) (si_info si)).
    { unfold GetBlockInfoFromId in H3. destruct (assoc_find _ _ _) as [l|] eqn:Ha; [|discriminate]. injection H3 as ->.
      revert Ha. clear. rewrite u32_mod. induction (si_info si) as [|[i l] q IH]; cbn [assoc_find]; [discriminate|].
      destruct (N.eqb_spec (id mod 2 ^ 32) i) as [<-|_]; [intros [= ->]; now left|right; auto]. }
    cbn [idx at_]. right. exists n, (10 + len b1), id, (10 + len b1 + len b2), bi.
    destruct (ranges (10 + len b1 + len b2) bi) as [rs last] eqn:Hr. cbn [fst]. unfold root_task.
    destruct pr eqn:Hpr.
    - eexists. split; [exists b1; auto|]. split; [exists b2; auto|]. split; [exact Hin|]. split; [cbn [pbind]; reflexivity|].
      intros r. cbn. destruct (merge_all _ _ _) as [[items size]| | | |]; cbn; try exact I. destruct (MapView_take _ _ _); exact I.
    - eexists. split; [exists b1; auto|]. split; [exists b2; auto|]. split; [exact Hin|]. split; [cbn [pbind]; reflexivity|].
      intros r. cbn. destruct (merge_all _ _ _) as [[items size]| | | |]; cbn; exact I.
  Qed.
End Root.

Lemma ranges_app : forall l1 b n l2, b + len (l1 ++ n :: l2) * 2 ^ 32 < 2 ^ 64 -> Forall (fun x => x < 2 ^ 32) (l1 ++ n :: l2) ->
  fst (ranges b (l1 ++ n :: l2)) = fst (ranges b l1) ++ (b + fold_right N.add 0 l1, b + fold_right N.add 0 l1 + n) :: fst (ranges (b + fold_right N.add 0 l1 + n) l2).
Proof.
  change (2 ^ 64) with 18446744073709551616. change (2 ^ 32) with 4294967296.
  induction l1 as [|m l1 IH]; intros b n l2 Hb HF; inversion HF as [|? ? Hm HF']; subst; cbn [app] in Hb |- *; rewrite len_cons in Hb; rewrite ranges_cons'; cbn [fst fold_right ranges app].
  - rewrite N.add_0_r, u64_small by (rewrite W64_val; lia). reflexivity.
  - rewrite !(u64_small (b + m)) by (rewrite W64_val; lia). destruct (ranges (b + m) l1) as [r last] eqn:Hr. cbn [fst app]. rewrite IH by (auto; lia). rewrite Hr. cbn [fst].
    rewrite !N.add_assoc. reflexivity.
Qed.
Lemma ranges_split : forall sizes b r1 lo hi r2, b + len sizes * 2 ^ 32 < 2 ^ 64 -> Forall (fun x => x < 2 ^ 32) sizes ->
  fst (ranges b sizes) = r1 ++ (lo, hi) :: r2 ->
  exists l1 n l2, sizes = l1 ++ n :: l2 /\ lo = b + fold_right N.add 0 l1 /\ hi = lo + n /\ r2 = fst (ranges hi l2).
Proof.
  change (2 ^ 64) with 18446744073709551616. change (2 ^ 32) with 4294967296.
  induction sizes as [|n sizes IH]; intros b r1 lo hi r2 Hb HF Hr; [destruct r1; discriminate|].
  inversion HF as [|? ? Hn HF']; subst. rewrite len_cons in Hb. rewrite ranges_cons' in Hr. cbn [fst] in Hr. rewrite u64_small in Hr by (rewrite W64_val; lia).
  destruct r1 as [|[x y] r1]; cbn [app] in Hr.
  - injection Hr as <- <- <-. exists [], n, sizes. cbn. repeat split; lia.
  - injection Hr as _ _ Hr. destruct (IH (b + n) r1 lo hi r2 ltac:(lia) HF' Hr) as (l1 & m & l2 & -> & -> & -> & ->). exists (n :: l1), m, l2. cbn. repeat split; lia.
Qed.
Lemma asks_range content lo n : asks content lo n <-> lo < lo + n /\ exists id a, number_at content lo id a.
Proof. unfold asks. split; intros [H1 H2]; (split; [lia|exact H2]). Qed.

Lemma keys_unique (blocks : list (N * list N)) id l l' : NoDup (map fst blocks) -> In (id, l) blocks -> In (id, l') blocks -> l = l'.
Proof.
  intros Hnd H1 H2. apply in_split in H1 as (q1 & q2 & ->). rewrite map_app in Hnd. cbn [map fst] in Hnd. apply NoDup_remove_2 in Hnd.
  apply in_app_or in H2 as [H2|[H2|H2]]; [|congruence|]; exfalso; apply Hnd; apply in_or_app; [left|right]; apply in_map_iff; exists (id, l'); auto.
Qed.

(** What the two theorems need. *)
Lemma race_setup c fuel content buf p r d blocks :
  sane c -> len content < 2 ^ 31 -> (length content <= fuel)%nat -> framed_split content REPLACE (Some d) blocks ->
  exists sc, initFromContent c fuel content buf = Ok sc /\ NoDup (map fst blocks) /\
    Parse c fuel content buf p (coroutine_scheduler r) = run (getter c (sc_map sc)) (Parse_prog c fuel content buf p (coroutine_scheduler r) sc) /\
    exists q, Parse_prog c fuel content buf p (coroutine_scheduler r) sc = q /\
      (still q \/ exists n a id b sizes ts k, number_at content 10 n a /\ number_at content a id b /\ In (id mod 2 ^ 32, sizes) blocks /\
         q = PPar ts k /\ (forall rs, still (k rs)) /\
         (one_asks ts \/ contended blocks content) /\
         (forall l1 n1 l2 n2 l3, sizes = l1 ++ n1 :: l2 ++ n2 :: l3 -> asks content (b + fold_right N.add 0 l1) n1 ->
            asks content (b + fold_right N.add 0 (l1 ++ n1 :: l2)) n2 -> exists t1 i1 k1 t2 i2 k2 t3, ts = t1 ++ PGetStr i1 k1 :: t2 ++ PGetStr i2 k2 :: t3)).
Proof.
  intros Hsane Hl Hfuel (size & t & f & body & rest & -> & Hsz & Htot & Ht & Hf & HT).
  set (content := size ++ [t] ++ [f] ++ body ++ rest) in *.
  assert (HL : fits c content) by (unfold fits; change (2 ^ 32) with 4294967296; change (2 ^ 31) with 2147483648 in *; destruct (ndebug c); lia).
  destruct (init_pcomplete_known c fuel size t f body rest buf REPLACE (Some d) blocks Hsane HL Hfuel Hsz Htot Ht (or_intror Hf) HT) as (sc & H1 & H2 & H3 & H4 & (m & H5 & _)).
  fold content in H1. exists sc. split; [exact H1|]. destruct (ptables_bounds _ _ _ _ _ HT) as [Hnd HB].
  assert (HB' : forall id l, In (id, l) blocks -> Forall (fun x => x < 2 ^ 32) l /\ len l <= len content).
  { intros id l Hin. destruct (HB id l Hin) as [B1 B2]. split; [exact B1|]. unfold content. rewrite !len_app. lia. }
  split; [exact Hnd|]. split; [unfold Parse; now rewrite H1|].
  eexists. split; [reflexivity|]. unfold Parse_prog. cbn [po_type po_ref]. rewrite H4, Hf. change (10 =? 10) with true.
  set (E := doc_env c content buf sc). assert (Hm : ModelParse.b_map E = true) by (unfold E; cbn; now rewrite H5).
  destruct fuel as [|fuel]; [exfalso; unfold content in Hfuel; rewrite !app_length in Hfuel; cbn in Hfuel; lia|].
  destruct (root_shape E (sc_split sc) r eq_refl eq_refl HL fuel) as (q & Hq & [Hs|(n & a & id & b & sizes & k & Hn & Ha & Hin & Hqq & Hk)]); rewrite Hq; [left; exact Hs|right].
  rewrite H3 in Hin. exists n, a, id, b, sizes, (map (root_task E (sc_split sc) r fuel) (fst (ranges b sizes))), k.
  split; [exact Hn|]. split; [exact Ha|]. split; [exact Hin|]. split; [exact Hqq|]. split; [exact Hk|].
  destruct (HB' _ _ Hin) as [B1 B2].
  assert (Hb : b <= len content).
  { destruct Ha as (x & _ & (P & S & Hc & HA) & ->). apply (f_equal (@len byte)) in Hc. rewrite !len_app in Hc. change (r_content (b_env E)) with content in Hc. unfold content in *. rewrite !len_app in *. lia. }
  assert (Hov : b + len sizes * 2 ^ 32 < 2 ^ 64).
  { change (2 ^ 31) with 2147483648 in Hl. change (2 ^ 32) with 4294967296. change (2 ^ 64) with 18446744073709551616. lia. }
  split.
  - destruct (tasks_cases E (sc_split sc) r eq_refl eq_refl HL Hm fuel (fst (ranges b sizes))) as [Ho|(r1 & lo & hi & r2 & lo' & hi' & r3 & Hr & A1 & A2)]; [now left|right].
    destruct (ranges_split _ _ _ _ _ _ Hov B1 Hr) as (l1 & n1 & l2 & -> & -> & -> & Hr2). symmetry in Hr2.
    apply Forall_app in B1 as [B11 B12]. inversion B12 as [|? ? B13 B14]; subst.
    assert (Hs1 : fold_right N.add 0 l1 <= len l1 * 2 ^ 32).
    { revert B11. clear. change (2 ^ 32) with 4294967296. induction 1; cbn [fold_right]; rewrite ?len_cons; lia. }
    rewrite len_app, len_cons in Hov, B2.
    apply ranges_split in Hr2 as (l2' & n2 & l3 & -> & -> & -> & _); [|revert Hov Hs1 B13; change (2 ^ 32) with 4294967296; change (2 ^ 64) with 18446744073709551616; lia|exact B14].
    exists n, a, id, b, l1, n1, l2', n2, l3. split; [exact Hn|]. split; [exact Ha|]. split; [exact Hin|]. split; [now apply asks_range|]. apply asks_range.
    rewrite fold_right_app. cbn [fold_right]. assert (Hfr : forall x l, fold_right N.add x l = fold_right N.add 0 l + x) by (intros x; induction l; cbn; lia).
    rewrite Hfr, !N.add_assoc. exact A2.
  - intros l1 n1 l2 n2 l3 -> A1 A2. rewrite ranges_app by assumption.
    pose proof B1 as B1'. apply Forall_app in B1' as [B11 B12]. inversion B12 as [|? ? B13 B14]; subst.
    assert (Hs1 : fold_right N.add 0 l1 <= len l1 * 2 ^ 32).
    { revert B11. clear. change (2 ^ 32) with 4294967296. induction 1; cbn [fold_right]; rewrite ?len_cons; lia. }
    rewrite len_app, len_cons in Hov.
    rewrite ranges_app; [|revert Hov Hs1 B13; change (2 ^ 32) with 4294967296; change (2 ^ 64) with 18446744073709551616; lia|exact B14].
    assert (Hfr : forall x l, fold_right N.add x l = fold_right N.add 0 l + x) by (intros x; induction l; cbn; lia).
    rewrite fold_right_app in A2. cbn [fold_right] in A2. rewrite Hfr, !N.add_assoc in A2.
    destruct fuel as [|fuel]; [exfalso; unfold content in Hfuel; rewrite !app_length in Hfuel; cbn in Hfuel; unfold len in Hsz; lia|].
    apply asks_range in A1 as [X1 X2]. apply asks_range in A2 as [Y1 Y2].
    destruct (task_asks E (sc_split sc) r eq_refl eq_refl HL Hm fuel _ _ X1 X2) as (i1 & k1 & T1).
    destruct (task_asks E (sc_split sc) r eq_refl eq_refl HL Hm fuel _ _ Y1 Y2) as (i2 & k2 & T2).
    rewrite map_app. cbn [map]. rewrite T1, map_app. cbn [map]. rewrite T2. eauto 10.
Qed.

(** C57 for documents with a dictionary and a split root (the only ones left by
    [C57_no_dictionary_race_free_partial]).  If two blocks of the root begin with a key,
    some schedule reads the dictionary's reverse table while another thread is filling
    it, whatever else the document contains ... *)
Theorem C57_contended_refuted : forall c fuel content buf p r d blocks,
  sane c -> len content < 2 ^ 31 -> (length content <= fuel)%nat -> framed_split content REPLACE (Some d) blocks ->
  contended blocks content ->
  exists sc sh t, initFromContent c fuel content buf = Ok sc /\
    csteps (getter c (sc_map sc)) Fresh (TRun (Parse_prog c fuel content buf p (coroutine_scheduler r) sc)) sh t /\ crashes t = true.
Proof.
  intros c fuel content buf p r d blocks Hs Hl Hf HF (n & a & id & b & l1 & n1 & l2 & n2 & l3 & Hn & Ha & Hin & A1 & A2).
  destruct (race_setup c fuel content buf p r d blocks Hs Hl Hf HF) as (sc & Hi & Hnd & _ & q & Hq & Hc).
  assert (HL : lim c (len content)).
  { change (fits c content). unfold fits. change (2 ^ 32) with 4294967296; change (2 ^ 31) with 2147483648 in *; destruct (ndebug c); lia. }
  set (E := doc_env c content buf sc).
  assert (Huniq : forall i x j y j', number_at content i x j -> number_at content i y j' -> x = y /\ j = j').
  { intros i x j y j' H1 H2. apply (number_ok E eq_refl eq_refl HL) in H1. apply (number_ok E eq_refl eq_refl HL) in H2. rewrite H1 in H2. unfold at_ in H2. now injection H2. }
  destruct Hc as [Hst|(n' & a' & id' & b' & sizes & ts & k & Hn' & Ha' & Hin' & Hqq & Hk & _ & Htwo)].
  - (* the root cannot fail before the fork *)
    exfalso. destruct HF as (size & t & f & body & rest & Hc & Hsz & Htot & Ht & Hfl & HT).
    destruct (init_pcomplete_known c fuel size t f body rest buf REPLACE (Some d) blocks Hs ltac:(rewrite <- Hc; exact HL) ltac:(rewrite <- Hc; exact Hf) Hsz Htot Ht (or_intror Hfl) HT) as (sc' & H1 & _ & H3 & H4 & _).
    rewrite <- Hc in H1. rewrite Hi in H1. injection H1 as <-.
    unfold Parse_prog in Hq. cbn [po_type po_ref] in Hq. rewrite H4, Hfl in Hq. change (10 =? 10) with true in Hq. fold E in Hq.
    destruct fuel as [|fuel]; [rewrite Hc in Hf; rewrite !app_length in Hf; cbn in Hf; lia|].
    unfold CoroParse_prog in Hq. rewrite ParseMap_S in Hq. cbv zeta in Hq. unfold meta_size in Hq.
    pose proof (number_ok E eq_refl eq_refl HL _ _ _ Hn) as P1. pose proof (number_ok E eq_refl eq_refl HL _ _ _ Ha) as P2. unfold at_ in P1 at 1.
    rewrite P1 in Hq. cbn [lift pbind] in Hq. rewrite P2 in Hq. cbn [lift pbind] in Hq.
    assert (HG : GetBlockInfoFromId (sc_split sc) (u32 id) = Ok (l1 ++ n1 :: l2 ++ n2 :: l3)).
    { unfold GetBlockInfoFromId. rewrite u32_mod, H3. revert Hin Hnd. clear. induction blocks as [|[i l] q IH]; [intros []|]. cbn [map fst assoc_find]. intros [[= -> ->]|Hin] Hnd.
      - now rewrite N.eqb_refl.
      - inversion Hnd as [|? ? Hni Hnd']; subst. destruct (N.eqb_spec (id mod 2 ^ 32) i) as [<-|_]; [|auto].
        exfalso. apply Hni. apply in_map_iff. exists (id mod 2 ^ 32, l1 ++ n1 :: l2 ++ n2 :: l3). auto. }
    rewrite HG in Hq. cbn [lift pbind] in Hq. destruct (ranges (idx (at_ b)) (l1 ++ n1 :: l2 ++ n2 :: l3)) as [rs last].
    destruct r; cbn [pbind] in Hq; subst q; exact Hst.
  - destruct (Huniq _ _ _ _ _ Hn Hn') as [<- <-]. destruct (Huniq _ _ _ _ _ Ha Ha') as [<- <-].
    assert (Hsz : sizes = l1 ++ n1 :: l2 ++ n2 :: l3).
    { exact (keys_unique _ _ _ _ Hnd Hin' Hin). }
    destruct (Htwo _ _ _ _ _ Hsz A1 A2) as (t1 & i1 & k1 & t2 & i2 & k2 & t3 & Hts).
    exists sc, Building, (TWait ((map TRun t1 ++ TBuild i1 k1 :: map TRun t2) ++ TRun (PFail FUB) :: map TRun t3) k). split; [exact Hi|]. rewrite Hq, Hqq, Hts. split.
    + eapply cs_step; [eapply cs_step; [eapply cs_step; [apply cs_refl|apply c_fork]|]|].
      * rewrite map_app. cbn [map]. apply c_task. apply c_build.
      * rewrite map_app. cbn [map]. change (TBuild i1 k1 :: map TRun t2 ++ TRun (PGetStr i2 k2) :: map TRun t3) with ((TBuild i1 k1 :: map TRun t2) ++ TRun (PGetStr i2 k2) :: map TRun t3).
        rewrite app_assoc. apply c_task. apply c_race.
    + cbn [crashes]. rewrite existsb_app. cbn [existsb crashes]. apply Bool.orb_true_r.
Qed.

(** ... and otherwise no schedule does, and every schedule does what the sequential
    execution of the blocks does. *)
Theorem C57_uncontended_partial : forall c fuel content buf p r d blocks,
  sane c -> len content < 2 ^ 31 -> (length content <= fuel)%nat -> framed_split content REPLACE (Some d) blocks ->
  ~ contended blocks content ->
  exists sc, initFromContent c fuel content buf = Ok sc /\
  let start := TRun (Parse_prog c fuel content buf p (coroutine_scheduler r) sc) in
  let look := getter c (sc_map sc) in
  (forall sh t, csteps look Fresh start sh t -> sh <> Ready -> in_getstr t <> 0%nat -> active t = 1%nat) /\
  (forall f, ~ infinite look start f) /\
  (forall sh t o, csteps look Fresh start sh t -> t = TRun (PRet o) -> Parse c fuel content buf p (coroutine_scheduler r) = Ok o) /\
  (forall sh t e, csteps look Fresh start sh t -> t = TRun (PFail (FThrow e)) -> Parse c fuel content buf p (coroutine_scheduler r) = Throw e) /\
  (forall x, Parse c fuel content buf p (coroutine_scheduler r) = x -> (exists o, x = Ok o) \/ (exists e, x = Throw e) ->
     forall sh t, csteps look Fresh start sh t ->
       crashes t = false /\ (done t = true \/ exists sh' t', cstep look sh t sh' t')).
Proof.
  intros c fuel content buf p r d blocks Hs Hl Hf HF HN.
  destruct (race_setup c fuel content buf p r d blocks Hs Hl Hf HF) as (sc & Hi & _ & HP & q & Hq & Hc). exists sc. split; [exact Hi|].
  rewrite HP, Hq. cbv zeta. set (look := getter c (sc_map sc)).
  assert (G : forall sh t, csteps look Fresh (TRun q) sh t -> meaning look t = run look q /\ (sh <> Ready -> in_getstr t <> 0%nat -> active t = 1%nat)).
  { destruct Hc as [Hst|(n' & a' & id' & b' & sizes & ts & k & _ & _ & _ & -> & Hk & [Ho|Hco] & _)]; [| |contradiction].
    - intros sh t H. assert (HX : sh = Fresh /\ t = TRun q).
      { remember Fresh as sh0. remember (TRun q) as t0. induction H as [|sh0' t0' sh1 t1 sh2 t2 H IH St]; [auto|]. subst. destruct (IH eq_refl eq_refl) as [-> ->]. exfalso. eapply still_step; eauto. }
      destruct HX as [-> ->]. split; [reflexivity|]. intros _ Hn. exfalso. apply Hn. destruct q; cbn in Hst; try contradiction; reflexivity.
    - intros sh t H. destruct (calm_steps _ look ts k Ho Hk sh t H) as [H1 H2]. split; [exact H2|]. eapply calm_count; eauto. }
  split; [|split; [|split; [|split]]].
  - intros sh t H. apply (G sh t H).
  - intros f. apply no_infinite.
  - intros sh t o H ->. destruct (G _ _ H) as [<- _]. reflexivity.
  - intros sh t e H ->. destruct (G _ _ H) as [<- _]. reflexivity.
  - intros x Hx Hok sh t H. destruct (G _ _ H) as [Hm _]. rewrite Hx in Hm.
    assert (Hcr : crashes t = false).
    { destruct (crashes t) eqn:Hc'; [|reflexivity]. apply (crashes_hard look) in Hc'. rewrite Hm in Hc'. destruct Hok as [[? ->]|[? ->]]; discriminate. }
    split; [exact Hcr|]. destruct (progress look _ t Hcr) as [Hd|Hstep]; [now left|right; auto].
Qed.

(** Both theorems speak about something: the document of [C57_any_input_race_free_refuted]
    is contended; with the same body as one block (and an empty one) it is not. *)
Definition racy_with (sizes : list N) : bytes :=
  be_bytes 8 20 ++ [n2b 1] ++ [n2b 10] ++ racy_body ++ section (dict_bytes [(root_key, 0)]) ++ section (split_bytes [(1, sizes)]).
Definition racy_dict : N -> option bytes := fun id => if id =? 0 then Some root_key else None.

Lemma racy_framed n1 n2 : venc n1 = [n2b n1] -> venc n2 = [n2b n2] -> n1 < 128 -> n2 < 128 -> vint n1 [n2b n1] -> vint n2 [n2b n2] -> framed_split (racy_with [n1; n2]) REPLACE (Some racy_dict) [(1, [n1; n2])].
Proof.
  intros E1 E2 H1 H2 V1 V2. exists (be_bytes 8 20), (n2b 1), (n2b 10), racy_body, (section (dict_bytes [(root_key, 0)]) ++ section (split_bytes [(1, [n1; n2])])).
  do 5 (split; [reflexivity|]).
  replace (section (dict_bytes [(root_key, 0)]) ++ section (split_bytes [(1, [n1; n2])])) with
    (str [7] ++ dict_bytes [(root_key, 0)] ++ str [5] ++ split_bytes [(1, [n1; n2])] ++ []).
  2:{ unfold section, split_bytes. cbn [map concat fst snd]. rewrite E1, E2. reflexivity. }
  apply (pt_replace true (str [7]) (dict_bytes [(root_key, 0)]) [(root_key, 0)] racy_dict (str [5]) (split_bytes [(1, [n1; n2])]) [(1, [n1; n2])] []).
  - vint_tac.
  - replace (dict_bytes [(root_key, 0)]) with (str [1] ++ concat [str [4] ++ root_key ++ str [0]] ++ []) by reflexivity.
    apply ldict_ with (n := 1); [vint_tac|reflexivity|]. constructor; [|constructor]. exists (str [4]), 0, (str [0]). split; [vint_tac|]. split; [vint_tac|]. split; reflexivity.
  - intros id. unfold racy_dict, id_of. destruct (N.eqb_spec id 0) as [-> |Hn]; [reflexivity|]. intros s. cbn [assoc_find]. destruct (bytes_eqb s root_key); [|discriminate]. intros [= Hx]. congruence.
  - intros _ s1 s2 id. unfold id_of. cbn [assoc_find]. destruct (bytes_eqb_spec s1 root_key) as [-> |], (bytes_eqb_spec s2 root_key) as [-> |]; intros; try discriminate; reflexivity.
  - unfold split_bytes. cbn [map concat fst snd]. rewrite E1, E2. vint_tac.
  - replace (split_bytes [(1, [n1; n2])]) with (str [1] ++ concat [str [1] ++ str [2] ++ concat [[n2b n1]; [n2b n2]]] ++ []).
    2:{ unfold split_bytes. cbn [map concat fst snd]. rewrite E1, E2. reflexivity. }
    apply lsplit_ with (n := 1); [vint_tac|reflexivity|repeat constructor; intros []|]. constructor; [|constructor].
    exists 1, (str [1]), 2, (str [2]), [[n2b n1]; [n2b n2]]. split; [vint_tac|]. split; [reflexivity|]. split; [vint_tac|]. split; [reflexivity|]. split; [|reflexivity].
    change (2 ^ 32) with 4294967296. constructor; [|constructor; [|constructor]]; [exists n1|exists n2]; (split; [assumption|]); rewrite N.mod_small; lia.
Qed.

Example C57_contended_met :
  (racy_with [4; 4] = racy_doc /\ framed_split racy_doc REPLACE (Some racy_dict) [(1, [4; 4])] /\ contended [(1, [4; 4])] racy_doc) /\
  (framed_split (racy_with [8; 0]) REPLACE (Some racy_dict) [(1, [8; 0])] /\ ~ contended [(1, [8; 0])] (racy_with [8; 0]) /\
   exists o, Parse x86_debug 100 (racy_with [8; 0]) 7 p1 (coroutine_scheduler false) = Ok o).
Proof.
  assert (HE : racy_with [4; 4] = racy_doc) by reflexivity.
  split; [split; [exact HE|]; split|split; [|split]].
  - rewrite <- HE. apply racy_framed; try reflexivity; vint_tac.
  - exists 2, 11, 1, 12, [], 4, [], 4, []. split; [|split; [|split; [now left|split; (split; [reflexivity|])]]].
    + exists (str [2]). split; [vint_tac|]. split; [at_tac racy_doc 10%nat 11%nat|reflexivity].
    + exists (str [1]). split; [vint_tac|]. split; [at_tac racy_doc 11%nat 12%nat|reflexivity].
    + exists 0, 13, (str [0]). split; [vint_tac|]. split; [at_tac racy_doc 12%nat 13%nat|reflexivity].
    + exists 0, 17, (str [0]). split; [vint_tac|]. split; [at_tac racy_doc 16%nat 17%nat|reflexivity].
  - apply racy_framed; try reflexivity; vint_tac.
  - intros (n & a & id & b & l1 & n1 & l2 & n2 & l3 & _ & _ & [Hin|[]] & _ & [Hpos _]). injection Hin as _ Hin.
    destruct l1 as [|x [|z [|w l1]]]; cbn in Hin; [|destruct l2; discriminate|discriminate|discriminate].
    destruct l2 as [|y l2]; [|destruct l2; discriminate]. cbn in Hin. injection Hin as _ Hin _. subst n2. discriminate Hpos.
  - eexists. vm_compute. reflexivity.
Qed.
