(** * The coroutines of a parse and its result (for C99). *)
From Verif Require Import Base BaseLemmas ModelVarint ModelData ModelSecondary ModelObject ModelPool
  ModelParse ModelWrapper ModelStorage ModelFrames ModelAlloc ModelParaAlloc Spec SpecApi VarintProofs Wire NumProofs SeriProofs SeriProofs2 DocProofs ObjInd ParseLemmas
  ParaProofs InsituSim PropPool PropFrames PropAlloc.
From Coq Require Import ZifyBool ZifyNat ZifyN Permutation.

(** ** Jobs and frames *)

(** Does the job get by without an exception, and what is allocated if so. *)
Fixpoint clean (a : act) : bool :=
  match a with AAlloc _ t => negb t | AThrow => false | ASpawn _ js => forallb (forallb clean) js end.
Fixpoint cost (a : act) : list cls :=
  match a with AAlloc k _ => [k] | AThrow => [] | ASpawn _ js => flat_map (flat_map cost) js end.
Notation cleanj := (forallb clean).
Notation costj := (flat_map cost).

Fixpoint fclean (f : frame) : bool :=
  match f with FNew j | FRun _ j => cleanj j | FAwait _ _ cs j => forallb fclean cs && cleanj j | FDone _ => true | FFail => false end.
Fixpoint todo (f : frame) : list cls :=
  match f with FNew j | FRun _ j => costj j | FAwait _ _ cs j => flat_map todo cs ++ costj j | _ => [] end.

Lemma forallb_rev {A} (f : A -> bool) l : forallb f (rev l) = forallb f l.
Proof. induction l as [|x l IH]; cbn; [reflexivity|]. rewrite forallb_app, IH. cbn. rewrite andb_true_r. apply andb_comm. Qed.

Lemma merges_clean i : forall l ops ok, forallb done l = true -> merges i l = (ops, ok) -> forallb fclean l = ok.
Proof.
  induction l as [|f l IH]; intros ops ok Hd H; cbn in *.
  - now injection H as _ <-.
  - apply andb_prop in Hd as [Hf Hd]. destruct f; try discriminate Hf.
    + destruct (merges i l) as [o b] eqn:E. injection H as _ <-. cbn. eapply IH; eauto.
    + now injection H as _ <-.
Qed.
Lemma done_todo l : forallb done l = true -> flat_map todo l = [].
Proof. induction l as [|f l IH]; cbn; [reflexivity|]. intros H. apply andb_prop in H as [Hf H]. rewrite IH by exact H. destruct f; try discriminate Hf; reflexivity. Qed.

Lemma fclean_new js : forallb fclean (map FNew js) = forallb cleanj js.
Proof. induction js as [|j js IH]; cbn; [reflexivity|]. now rewrite IH. Qed.
Lemma todo_new js : flat_map todo (map FNew js) = flat_map costj js.
Proof. induction js as [|j js IH]; cbn; [reflexivity|]. now rewrite IH. Qed.

Lemma fstep_clean n f ops n' f' : fstep n f ops n' f' -> fclean f' = fclean f.
Proof.
  induction 1; try reflexivity.
  - cbn [fclean forallb clean]. rewrite fclean_new. reflexivity.
  - cbn [fclean]. rewrite !forallb_app. cbn [forallb]. now rewrite IHfstep.
  - cbn [fclean]. replace (forallb fclean cs) with true; [reflexivity|]. symmetry.
    apply merges_clean in H0; [|destruct b; [rewrite forallb_rev; exact H|exact H]]. destruct b; [now rewrite forallb_rev in H0|exact H0].
  - cbn [fclean]. replace (forallb fclean cs) with false; [reflexivity|]. symmetry.
    apply merges_clean in H0; [|destruct b; [rewrite forallb_rev; exact H|exact H]]. destruct b; [now rewrite forallb_rev in H0|exact H0].
Qed.
Lemma fsteps_clean n f ops n' f' : fsteps n f ops n' f' -> fclean f' = fclean f.
Proof. induction 1; [reflexivity|]. apply fstep_clean in H0. congruence. Qed.

(** Allocations of class [k] in a list. *)
Definition count (k : cls) (l : list cls) : nat := length (filter (cls_eqb k) l).
Lemma count_app k a b : count k (a ++ b) = (count k a + count k b)%nat.
Proof. unfold count. rewrite filter_app, app_length. reflexivity. Qed.
Lemma count_perm k a b : Permutation a b -> count k a = count k b.
Proof. unfold count. induction 1; cbn; try destruct (cls_eqb k x); try destruct (cls_eqb k y); cbn; congruence. Qed.

Lemma allocs_app k a b : allocs k (a ++ b) = (allocs k a + allocs k b)%nat.
Proof. unfold allocs. rewrite filter_app, app_length. reflexivity. Qed.
Lemma merges_allocs k i : forall l, allocs k (fst (merges i l)) = O.
Proof.
  induction l as [|f l IH]; [reflexivity|]. cbn. destruct f; try reflexivity. destruct (merges i l) as [o b]. cbn in *. exact IH.
Qed.
Lemma destroy_allocs k l : allocs k (map BpDestroy l) = O.
Proof. induction l as [|x l IH]; [reflexivity|exact IH]. Qed.

Lemma fstep_count k n f ops n' f' : fstep n f ops n' f' -> fclean f = true -> count k (todo f) = (allocs k ops + count k (todo f'))%nat.
Proof.
  induction 1; intros Hc; try reflexivity; try discriminate Hc.
  - cbn [todo flat_map cost app]. unfold count, allocs. cbn [filter]. destruct (cls_eqb k k0); reflexivity.
  - cbn [todo flat_map cost]. rewrite todo_new. reflexivity.
  - cbn [todo fclean] in *. rewrite forallb_app in Hc. cbn [forallb] in Hc. apply andb_prop in Hc as [Hc _]. apply andb_prop in Hc as [_ Hc]. apply andb_prop in Hc as [Hc _].
    rewrite !flat_map_app. cbn [flat_map]. rewrite !count_app. rewrite IHfstep by exact Hc. lia.
  - cbn [todo]. rewrite (done_todo cs H), allocs_app, destroy_allocs. replace ops with (fst (ops, true)) by reflexivity. rewrite <- H0, merges_allocs. reflexivity.
  - exfalso. apply (fstep_clean n _ _ n FFail) in Hc || idtac. cbn [fclean] in Hc. apply andb_prop in Hc as [Hc _].
    apply merges_clean in H0; [|destruct b; [rewrite forallb_rev; exact H|exact H]]. destruct b; [rewrite forallb_rev in H0|]; congruence.
Qed.
Lemma fsteps_count k n f ops n' f' : fsteps n f ops n' f' -> fclean f = true -> count k (todo f) = (allocs k ops + count k (todo f'))%nat.
Proof.
  induction 1; intros Hc; [reflexivity|]. rewrite allocs_app, IHfsteps by exact Hc. apply (fstep_count k) in H0; [lia|].
  apply fsteps_clean in H. congruence.
Qed.

(** Every execution can be carried to its end. *)
Fixpoint asize (a : act) : nat :=
  match a with ASpawn _ js => 2 + list_sum (map (fun j => 3 + list_sum (map asize j)) js) | _ => 1 end%nat.
Definition jsize (j : job) : nat := list_sum (map asize j).
Fixpoint fsize (f : frame) : nat :=
  match f with FNew j => 3 + jsize j | FRun _ j => 2 + jsize j | FAwait _ _ cs j => 3 + list_sum (map fsize cs) + jsize j | _ => 0 end%nat.

Fixpoint frame_ind' (P : frame -> Prop) (H1 : forall j, P (FNew j)) (H2 : forall i j, P (FRun i j))
  (H3 : forall i b cs j, Forall P cs -> P (FAwait i b cs j)) (H4 : forall r, P (FDone r)) (H5 : P FFail) (f : frame) : P f :=
  match f with
  | FNew j => H1 j | FRun i j => H2 i j
  | FAwait i b cs j => H3 i b cs j ((fix go l : Forall P l := match l with [] => Forall_nil P | x :: l' => Forall_cons x (frame_ind' P H1 H2 H3 H4 H5 x) (go l') end) cs)
  | FDone r => H4 r | FFail => H5
  end.

Lemma progress : forall f n, done f = false -> exists ops n' f', fstep n f ops n' f' /\ (fsize f' < fsize f)%nat.
Proof.
  induction f as [j|i j|i b cs j IH|r|] using frame_ind'; intros n Hd; try discriminate Hd.
  - eexists _, _, _. split; [constructor|]. cbn. lia.
  - destruct j as [|[k [] | |b js] j].
    + eexists _, _, _. split; [constructor|]. cbn. lia.
    + eexists _, _, _. split; [constructor|]. cbn. lia.
    + eexists _, _, _. split; [constructor|]. cbn; unfold jsize, list_sum; cbn; lia.
    + eexists _, _, _. split; [constructor|]. cbn; unfold jsize, list_sum; cbn; lia.
    + eexists _, _, _. split; [constructor|]. cbn [fsize]. unfold jsize. cbn [map list_sum fold_right asize].
      assert (list_sum (map fsize (map FNew js)) = list_sum (map (fun j => 3 + list_sum (map asize j))%nat js)) as ->.
      { rewrite map_map. reflexivity. }
      unfold list_sum. cbn [map fold_right asize]. lia.
  - destruct (forallb done cs) eqn:Hall.
    + destruct (merges i (if b then rev cs else cs)) as [ops []] eqn:Hm.
      * eexists _, _, _. split; [eapply f_join; eassumption|]. cbn. lia.
      * eexists _, _, _. split; [eapply f_rethrow; eassumption|]. cbn. lia.
    + assert (exists l1 c l2, cs = l1 ++ c :: l2 /\ done c = false) as (l1 & c & l2 & -> & Hc).
      { clear - Hall. induction cs as [|c cs IH]; [discriminate|]. cbn in Hall. destruct (done c) eqn:E.
        - destruct (IH Hall) as (l1 & x & l2 & -> & H). exists (c :: l1), x, l2. auto.
        - exists [], c, cs. auto. }
      apply Forall_app in IH as [_ IH]. inversion IH as [|? ? HI _]; subst. destruct (HI n Hc) as (ops & n' & c' & Hs & Hlt).
      exists ops, n', (FAwait i b (l1 ++ c' :: l2) j). split; [now constructor|]. cbn [fsize]. rewrite !map_app, !list_sum_app. cbn [map list_sum fold_right]. unfold list_sum. cbn [fold_right]. lia.
Qed.

Lemma fsteps_trans n f o1 n1 f1 o2 n2 f2 : fsteps n f o1 n1 f1 -> fsteps n1 f1 o2 n2 f2 -> fsteps n f (o1 ++ o2) n2 f2.
Proof. intros H1 H2. induction H2; [now rewrite app_nil_r|]. rewrite app_assoc. eapply fs_step; eauto. Qed.

Lemma completes : forall s f n, (fsize f <= s)%nat -> exists ops n' f', fsteps n f ops n' f' /\ done f' = true.
Proof.
  induction s as [|s IH]; intros f n Hs; destruct (done f) eqn:Hd; try (exists [], n, f; split; [constructor|exact Hd]);
    destruct (progress f n Hd) as (ops & n' & f' & Hst & Hlt); [lia|].
  destruct (IH f' n') as (ops' & n'' & f'' & Hr & Hd'); [lia|]. exists (ops ++ ops'), n'', f''. split; [|exact Hd'].
  eapply fsteps_trans; [|exact Hr]. apply (fs_step n f [] n f ops); [constructor|exact Hst].
Qed.

(** ** The jobs of a parse *)
Definition is_ok {A} (o : outcome A) : bool := match o with Ok _ => true | _ => false end.

Section Par.
  Context {I : Type}.
  Variable get : N -> outcome view.
  Variable mk : list I -> N -> block.
  Variable mrg : list I * N -> outcome block -> outcome (list I * N).
  Variable g : I -> list cls.
  Hypothesis Hm : forall acc items n, mrg acc (Ok (mk items n)) = Ok (match items with [] => acc | _ => (items ++ fst acc, u64 (snd acc + n)) end).
  Hypothesis Hinv : forall acc r acc', mrg acc r = Ok acc' -> exists items n, r = Ok (mk items n).

  Lemma merge_flat : forall ic acc n res m, merge_all mrg (acc, n) (map (fun x => Ok (mk (fst x) (snd x))) ic) = Ok (res, m) ->
    Permutation (flat_map g res) (flat_map (fun x => flat_map g (fst x)) ic ++ flat_map g acc).
  Proof using Hm.
    induction ic as [|[a k] ic IH]; intros acc n res m H; cbn [map merge_all fst snd] in *.
    - injection H as <- <-. reflexivity.
    - rewrite Hm in H. cbn [obind fst snd] in H. cbn [flat_map fst]. destruct a as [|x a].
      + apply IH in H. exact H.
      + apply IH in H. rewrite H, flat_map_app. rewrite <- !app_assoc.
        rewrite (Permutation_app_comm (flat_map g (x :: a)) (flat_map (fun x => flat_map g (fst x)) ic ++ flat_map g acc)), <- !app_assoc.
        apply Permutation_app_head, Permutation_app_comm.
  Qed.
  Lemma merge_fine : forall ic acc, is_ok (merge_all mrg acc (map (fun x => Ok (mk (fst x) (snd x))) ic)) = true.
  Proof using Hm. induction ic as [|[a k] ic IH]; intros acc; cbn [map merge_all fst snd]; [reflexivity|]. rewrite Hm. cbn [obind]. apply IH. Qed.

  Lemma par_jobs {X} (T : X -> prog block) (Jb : X -> job) (b : bool) rs :
    (forall x, cleanj (Jb x) = is_ok (run get (T x))) ->
    (forall x r, run get (T x) = Ok r -> exists new m, r = mk new m /\ Permutation (costj (Jb x)) (flat_map g new)) ->
    let outs := map (fun t => run get t) (map T rs) in
    let merged := merge_all mrg ([], 0) (if b then rev outs else outs) in
    forallb cleanj (map Jb rs) = match hard_failure outs with Some _ => false | None => is_ok merged end /\
    (forall items n, merged = Ok (items, n) -> Permutation (flat_map costj (map Jb rs)) (flat_map g items)).
  Proof using Hm Hinv.
    intros HC HP outs merged.
    assert (Hok : forall res, merged = Ok res -> exists ic, outs = map (fun x => Ok (mk (fst x) (snd x))) ic).
    { intros res H. apply (merge_all_inv' mk mrg Hinv) in H as (ic & Hic). destruct b; [|eauto]. exists (rev ic). rewrite map_rev, <- Hic. now rewrite rev_involutive. }
    split.
    - destruct (forallb cleanj (map Jb rs)) eqn:HA.
      + assert (exists ic, outs = map (fun x => Ok (mk (fst x) (snd x))) ic) as (ic & Hic).
        { clear - HC HP HA. unfold outs. induction rs as [|x rs IH]; [exists []; reflexivity|]. cbn [map forallb] in *. apply andb_prop in HA as [H1 H2].
          destruct (IH H2) as (ic & ->). rewrite HC in H1. destruct (run get (T x)) as [r| | | |] eqn:E; try discriminate H1. destruct (HP _ _ E) as (new & m & -> & _). exists ((new, m) :: ic). reflexivity. }
        assert (hard_failure outs = None) as ->. { rewrite Hic. clear. induction ic as [|x ic IH]; [reflexivity|exact IH]. }
        unfold merged. rewrite Hic. symmetry. destruct b; [rewrite <- map_rev|]; apply merge_fine.
      + destruct (hard_failure outs); [reflexivity|]. destruct merged as [res| | | |] eqn:E; try reflexivity. exfalso.
        destruct (Hok _ eq_refl) as (ic & Hic). rewrite (proj2 (forallb_forall _ _)) in HA; [discriminate|].
        intros j Hj. apply in_map_iff in Hj as (x & <- & Hx). rewrite HC. assert (Hin : In (run get (T x)) outs) by (unfold outs; rewrite map_map; now apply in_map with (f := fun x => run get (T x))).
        rewrite Hic in Hin. apply in_map_iff in Hin as (y & <- & _). reflexivity.
    - intros items n H. destruct (Hok _ H) as (ic & Hic).
      assert (HQ : Permutation (flat_map costj (map Jb rs)) (flat_map (fun x => flat_map g (fst x)) ic)).
      { clear - HP Hic Hm. unfold outs in Hic. revert ic Hic. induction rs as [|x rs IH]; intros [|y ic] Hic; try discriminate Hic; [constructor|]. cbn [map flat_map] in *.
        injection Hic as H1 H2. apply Permutation_app; [|auto]. destruct (HP _ _ H1) as (new & m & E & Hp).
        assert (Hmk : merge_all mrg ([], 0) (map (fun x => Ok (mk (fst x) (snd x))) [y]) = merge_all mrg ([], 0) (map (fun x => Ok (mk (fst x) (snd x))) [(new, m)])).
        { cbn [map merge_all fst snd]. now rewrite E. }
        rewrite Hp. destruct (merge_all mrg ([], 0) (map (fun x => Ok (mk (fst x) (snd x))) [y])) as [[rs' m']| | | |] eqn:E2; [|exfalso; pose proof (merge_fine [y] ([], 0)) as F; rewrite E2 in F; discriminate F ..].
        pose proof (merge_flat _ _ _ _ _ E2) as P1. symmetry in Hmk. pose proof (merge_flat _ _ _ _ _ Hmk) as P2. cbn [flat_map fst app] in P1, P2. rewrite !app_nil_r in P1, P2. now rewrite <- P2. }
      rewrite HQ. unfold merged in H. rewrite Hic in H. destruct b.
      + rewrite <- map_rev in H. apply merge_flat in H. rewrite H. cbn [flat_map]. rewrite app_nil_r. symmetry. apply flat_map_rev.
      + apply merge_flat in H. rewrite H. cbn [flat_map]. now rewrite app_nil_r.
  Qed.
End Par.

Lemma clean_allocs l : cleanj (map (fun k => AAlloc k false) l) = true.
Proof. induction l as [|k l IH]; [reflexivity|exact IH]. Qed.
Lemma cost_allocs l : costj (map (fun k => AAlloc k false) l) = l.
Proof. induction l as [|k l IH]; [reflexivity|]. cbn. now rewrite IH. Qed.

Section Exact.
  Variable E : penv.
  Variable si : split_info.
  Variable get : N -> outcome view.
  Variable pr : bool.
  Notation R := (b_env E).
  Notation arr_item := (fun x => KArrayItem :: cls_of x :: below x).
  Notation map_item := (fun e : bytes * obj => KMapItem :: cls_of (snd e) :: below (snd e)).
  Notation view_item := (fun e : view * obj => KMapViewItem :: cls_of (snd e) :: below (snd e)).

  Lemma array_job_S f os : array_job E si get (S f) pr os =
    match split_ranges E si os with
    | Ok rs => [AAlloc KArray false; ASpawn true (map (fun be => array_block_job E si get f pr (snd be) {| idx := fst be; off := fst be |}) rs)]
    | _ => [AThrow]
    end.
  Proof. reflexivity. Qed.
  Lemma map_job_S f os : map_job E si get (S f) pr os =
    match split_ranges E si os with
    | Ok rs => [AAlloc (kind pr TMap) false; ASpawn false (map (fun be => map_block_job E si get f pr (snd be) {| idx := fst be; off := fst be |}) rs)]
    | _ => [AThrow]
    end.
  Proof. reflexivity. Qed.
  Lemma value_job_S f s : value_job E si get (S f) pr s =
    match parseObjectType_split R s with
    | Ok (t, need_to_split, s1) =>
        if need_to_split : bool then
          match t with
          | TArray => [ASpawn false [array_job E si get f pr (idx s1)]]
          | TMap => [ASpawn false [map_job E si get f pr (idx s1)]]
          | TData => [AThrow]
          end
        else
          AAlloc (kind pr t) false :: map (fun k => AAlloc k false) (value_allocs E get CoroFrame pr f t s1) ++
          match run get (valueParse E CoroFrame pr f t s1) with Ok _ => [] | _ => [AThrow] end
    | _ => [AThrow]
    end.
  Proof. reflexivity. Qed.
  Lemma array_block_job_S f end_ s : array_block_job E si get (S f) pr end_ s =
    if off s <? end_ then
      value_job E si get f pr s ++
      match run get (block_value E si f pr s) with
      | Ok (_, s1) => AAlloc KArrayItem false :: array_block_job E si get f pr end_ s1
      | _ => []
      end
    else [].
  Proof. reflexivity. Qed.
  Lemma map_block_job_S f end_ s : map_block_job E si get (S f) pr end_ s =
    if off s <? end_ then
      match run get (block_key E s) with
      | Ok (kv, s1) =>
          match (if pr then Ok [] else read_local R kv) with
          | Ok _ =>
              value_job E si get f pr s1 ++
              match run get (block_value E si f pr s1) with
              | Ok (_, s2) => AAlloc (entry_kind pr) false :: map_block_job E si get f pr end_ s2
              | _ => []
              end
          | _ => [AThrow]
          end
      | _ => [AThrow]
      end
    else [].
  Proof. reflexivity. Qed.

  Definition mirrors (j : job) (r : outcome (obj * N)) : Prop :=
    cleanj j = is_ok r /\ forall o x, r = Ok (o, x) -> Permutation (costj j) (cls_of o :: below o).
  Definition mirrors_block {I} (mk : list I -> N -> block) (item : I -> list cls) (acc : list I) (j : job) (r : outcome block) : Prop :=
    cleanj j = is_ok r /\ forall b, r = Ok b -> exists new m, b = mk (rev acc ++ new) m /\ Permutation (costj j) (flat_map item new).

  Lemma item_then {I} mk (item : I -> list cls) acc x j (j2 : job) r k n : cls_of n :: below n = tl (item x) -> hd k (item x) = k -> (exists y t, item x = y :: t) ->
    cleanj j = true -> Permutation (costj j) (cls_of n :: below n) ->
    mirrors_block mk item (x :: acc) j2 r -> mirrors_block mk item acc (j ++ AAlloc k false :: j2) r.
  Proof using.
    intros Ht Hh (y & t & Hi) Hc HP [H1 H2]. rewrite Hi in Ht, Hh. cbn [tl hd] in Ht, Hh. subst y. split.
    - rewrite forallb_app, Hc. cbn [forallb clean negb andb]. exact H1.
    - intros b Hb. destruct (H2 b Hb) as (new & m & -> & HN). exists (x :: new), m. split; [cbn [rev]; now rewrite <- app_assoc|].
      rewrite flat_map_app. cbn [flat_map cost app]. rewrite HP, HN, Ht, Hi. cbn [app]. symmetry. apply Permutation_middle.
  Qed.

  Lemma jobs_exact : forall fuel,
    (forall i, mirrors (array_job E si get fuel pr i) (run get (ParseArray E si fuel pr i))) /\
    (forall i, mirrors (map_job E si get fuel pr i) (run get (ParseMap E si fuel pr i))) /\
    (forall s, cleanj (value_job E si get fuel pr s) = is_ok (run get (block_value E si fuel pr s)) /\
       forall o s', run get (block_value E si fuel pr s) = Ok (o, s') -> Permutation (costj (value_job E si get fuel pr s)) (cls_of o :: below o)) /\
    (forall e s acc n, mirrors_block BArr arr_item acc (array_block_job E si get fuel pr e s) (run get (ParseArrayBlock E si fuel pr e s acc n))) /\
    (pr = false -> forall e s acc n, mirrors_block BMap map_item acc (map_block_job E si get fuel pr e s) (run get (ParseMapBlock E si fuel e s acc n))) /\
    (pr = true -> forall e s acc n, mirrors_block BMapView view_item acc (map_block_job E si get fuel pr e s) (run get (ParseMapViewBlock E si fuel e s acc n))).
  Proof using.
    induction fuel as [|f (IA & IM & IV & IAB & IMB & IVB)].
    { repeat split; intros; discriminate. }
    split; [|split; [|split; [|split; [|split]]]].
    - intros i. rewrite array_job_S, ParseArray_S. cbv zeta. unfold split_ranges. rewrite run_bind, run_lift.
      destruct (parseLength R _) as [[n s1]| | | |]; try (split; [reflexivity|discriminate]). cbn [obind fst snd]. rewrite run_bind, run_lift.
      destruct (parseLength R s1) as [[id s2]| | | |]; try (split; [reflexivity|discriminate]). cbn [obind fst snd]. rewrite run_bind, run_lift.
      destruct (GetBlockInfoFromId si (u32 id)) as [sizes| | | |]; try (split; [reflexivity|discriminate]). unfold omap. cbn [obind].
      destruct (ranges (idx s2) sizes) as [rs last]. cbn [fst]. rewrite run_PPar.
      destruct (par_jobs get BArr merge_arr arr_item) with (T := fun be : N * N => ParseArrayBlock E si f pr (snd be) {| idx := fst be; off := fst be |} [] 0)
        (Jb := fun be : N * N => array_block_job E si get f pr (snd be) {| idx := fst be; off := fst be |}) (b := true) (rs := rs) as [P1 P2].
      { reflexivity. }
      { clear. intros acc [[]| | | |] acc' H; cbn in H; try discriminate. eauto. }
      { intros x. apply (IAB _ _ [] 0). }
      { intros x r Hr. destruct (IAB (snd x) {| idx := fst x; off := fst x |} [] 0) as [_ Q]. destruct (Q r Hr) as (new & m & -> & HP). exists new, m. auto. }
      cbv zeta in P1, P2. split.
      + cbn [forallb clean negb]. rewrite P1. destruct (hard_failure _) as [h|]; [destruct h; reflexivity|]. rewrite run_bind, run_lift. rewrite andb_true_r. cbn [andb].
        destruct (merge_all _ _ _) as [[items size]| | | |]; reflexivity.
      + intros o x Ho. destruct (hard_failure _) as [h|]; [destruct h; discriminate|]. rewrite run_bind, run_lift in Ho.
        destruct (merge_all _ _ _) as [[items size]| | | |] eqn:Hmg; try discriminate. cbn [obind run] in Ho. injection Ho as <- <-. cbn [flat_map cost cls_of below app].
        rewrite app_nil_r. apply perm_skip. eapply P2; reflexivity.
    - intros i. rewrite map_job_S, ParseMap_S. cbv zeta. unfold split_ranges. rewrite run_bind, run_lift.
      destruct (parseLength R _) as [[n s1]| | | |]; try (split; [reflexivity|discriminate]). cbn [obind fst snd]. rewrite run_bind, run_lift.
      destruct (parseLength R s1) as [[id s2]| | | |]; try (split; [reflexivity|discriminate]). cbn [obind fst snd]. rewrite run_bind, run_lift.
      destruct (GetBlockInfoFromId si (u32 id)) as [sizes| | | |]; try (split; [reflexivity|discriminate]). unfold omap. cbn [obind].
      destruct (ranges (idx s2) sizes) as [rs last]. cbn [fst]. destruct pr eqn:Hpr.
      + rewrite run_PPar.
        destruct (par_jobs get BMapView merge_mapview view_item) with (T := fun be : N * N => ParseMapViewBlock E si f (snd be) {| idx := fst be; off := fst be |} [] 0)
          (Jb := fun be : N * N => map_block_job E si get f true (snd be) {| idx := fst be; off := fst be |}) (b := false) (rs := rs) as [P1 P2].
        { reflexivity. }
        { clear. intros acc [[]| | | |] acc' H; cbn in H; try discriminate. eauto. }
        { intros x. apply (IVB eq_refl _ _ [] 0). }
        { intros x r Hr. destruct (IVB eq_refl (snd x) {| idx := fst x; off := fst x |} [] 0) as [_ Q]. destruct (Q r Hr) as (new & m & -> & HP). exists new, m. auto. }
        cbv zeta in P1, P2. split.
        * cbn [forallb clean negb]. rewrite P1. destruct (hard_failure _) as [h|]; [destruct h; reflexivity|]. rewrite run_bind, run_lift. rewrite andb_true_r. cbn [andb].
          destruct (merge_all _ _ _) as [[items size]| | | |]; reflexivity.
        * intros o x Ho. destruct (hard_failure _) as [h|]; [destruct h; discriminate|]. rewrite run_bind, run_lift in Ho.
          destruct (merge_all _ _ _) as [[items size]| | | |] eqn:Hmg; try discriminate. cbn [obind run] in Ho. injection Ho as <- <-. cbn [flat_map cost cls_of below app kind].
          rewrite app_nil_r. apply perm_skip. eapply P2; reflexivity.
      + rewrite run_PPar.
        destruct (par_jobs get BMap merge_map map_item) with (T := fun be : N * N => ParseMapBlock E si f (snd be) {| idx := fst be; off := fst be |} [] 0)
          (Jb := fun be : N * N => map_block_job E si get f false (snd be) {| idx := fst be; off := fst be |}) (b := false) (rs := rs) as [P1 P2].
        { reflexivity. }
        { clear. intros acc [[]| | | |] acc' H; cbn in H; try discriminate. eauto. }
        { intros x. apply (IMB eq_refl _ _ [] 0). }
        { intros x r Hr. destruct (IMB eq_refl (snd x) {| idx := fst x; off := fst x |} [] 0) as [_ Q]. destruct (Q r Hr) as (new & m & -> & HP). exists new, m. auto. }
        cbv zeta in P1, P2. split.
        * cbn [forallb clean negb]. rewrite P1. destruct (hard_failure _) as [h|]; [destruct h; reflexivity|]. rewrite run_bind, run_lift. rewrite andb_true_r. cbn [andb].
          destruct (merge_all _ _ _) as [[items size]| | | |]; reflexivity.
        * intros o x Ho. destruct (hard_failure _) as [h|]; [destruct h; discriminate|]. rewrite run_bind, run_lift in Ho.
          destruct (merge_all _ _ _) as [[items size]| | | |] eqn:Hmg; try discriminate. cbn [obind run] in Ho. injection Ho as <- <-. cbn [flat_map cost cls_of below app kind].
          rewrite app_nil_r. apply perm_skip. eapply P2; reflexivity.
    - intros s. rewrite value_job_S, block_value_S, run_bind, run_lift. destruct (parseObjectType_split R s) as [[[t ns] s1]| | | |]; try (split; [reflexivity|discriminate]).
      cbn [obind]. destruct ns.
      + destruct t; [split; [reflexivity|discriminate]| |].
        * rewrite run_bind. destruct (IM (idx s1)) as [Q1 Q2]. cbn [forallb clean]. rewrite Q1. rewrite !andb_true_r. split.
          -- destruct (run get _) as [[o e]| | | |]; reflexivity.
          -- intros o s' H. destruct (run get (ParseMap E si f pr (idx s1))) as [[o0 e]| | | |]; try discriminate H. cbn [obind run] in H. injection H as <- <-.
             cbn [flat_map cost]. rewrite !app_nil_r. eapply Q2; reflexivity.
        * rewrite run_bind. destruct (IA (idx s1)) as [Q1 Q2]. cbn [forallb clean]. rewrite Q1. rewrite !andb_true_r. split.
          -- destruct (run get _) as [[o e]| | | |]; reflexivity.
          -- intros o s' H. destruct (run get (ParseArray E si f pr (idx s1))) as [[o0 e]| | | |]; try discriminate H. cbn [obind run] in H. injection H as <- <-.
             cbn [flat_map cost]. rewrite !app_nil_r. eapply Q2; reflexivity.
      + cbn [forallb clean negb andb]. rewrite forallb_app, clean_allocs. destruct (run get (valueParse E CoroFrame pr f t s1)) as [[o s2]| | | |] eqn:Hv; try (split; [reflexivity|discriminate]).
        split; [reflexivity|]. intros o' s' [= <- <-]. cbn [flat_map cost app]. rewrite flat_map_app, cost_allocs. cbn [flat_map]. rewrite app_nil_r.
        destruct (allocs_exact E get CoroFrame pr f) as (AE & _). destruct (AE _ _ _ _ Hv) as [-> HP]. now apply perm_skip.
    - intros e s acc n. rewrite array_block_job_S, ParseArrayBlock_S. destruct (off s <? e).
      + rewrite run_bind. destruct (IV s) as [Q1 Q2]. destruct (run get (block_value E si f pr s)) as [[o s1]| | | |] eqn:Hv.
        * cbn [obind]. apply item_then with (x := o) (n := o); [reflexivity|reflexivity|eauto|exact Q1|eapply Q2; reflexivity|apply IAB].
        * cbn [obind]. rewrite app_nil_r. split; [exact Q1|discriminate].
        * cbn [obind]. rewrite app_nil_r. split; [exact Q1|discriminate].
        * cbn [obind]. rewrite app_nil_r. split; [exact Q1|discriminate].
        * cbn [obind]. rewrite app_nil_r. split; [exact Q1|discriminate].
      + split; [reflexivity|]. intros b [= <-]. exists [], n. rewrite app_nil_r. auto.
    - intros Hpr e s acc n. rewrite map_block_job_S, ParseMapBlock_S. destruct (off s <? e).
      + rewrite run_bind. destruct (run get (block_key E s)) as [[kv s0]| | | |]; try (split; [reflexivity|discriminate]). cbn [obind]. rewrite run_bind, run_lift.
        replace (if pr then Ok [] else read_local R kv) with (read_local R kv) by (now rewrite Hpr). destruct (read_local R kv) as [key| | | |]; try (split; [reflexivity|discriminate]). cbn [obind]. rewrite run_bind.
        destruct (IV s0) as [Q1 Q2]. replace (block_value E si f false s0) with (block_value E si f pr s0) by (now rewrite Hpr). destruct (run get (block_value E si f pr s0)) as [[o s1]| | | |] eqn:Hv.
        * cbn [obind]. replace (entry_kind pr) with KMapItem by (now rewrite Hpr). apply item_then with (x := (key, o)) (n := o); [reflexivity|reflexivity|eauto|exact Q1|eapply Q2; reflexivity|apply IMB; exact Hpr].
        * cbn [obind]. rewrite app_nil_r. split; [exact Q1|discriminate].
        * cbn [obind]. rewrite app_nil_r. split; [exact Q1|discriminate].
        * cbn [obind]. rewrite app_nil_r. split; [exact Q1|discriminate].
        * cbn [obind]. rewrite app_nil_r. split; [exact Q1|discriminate].
      + split; [reflexivity|]. intros b [= <-]. exists [], n. rewrite app_nil_r. auto.
    - intros Hpr e s acc n. rewrite map_block_job_S, ParseMapViewBlock_S. destruct (off s <? e).
      + rewrite run_bind. destruct (run get (block_key E s)) as [[kv s0]| | | |]; try (split; [reflexivity|discriminate]). cbn [obind].
        replace (if pr then Ok [] else read_local R kv) with (@Ok bytes []) by (now rewrite Hpr). rewrite run_bind.
        destruct (IV s0) as [Q1 Q2]. replace (block_value E si f true s0) with (block_value E si f pr s0) by (now rewrite Hpr). destruct (run get (block_value E si f pr s0)) as [[o s1]| | | |] eqn:Hv.
        * cbn [obind]. replace (entry_kind pr) with KMapViewItem by (now rewrite Hpr). apply item_then with (x := (kv, o)) (n := o); [reflexivity|reflexivity|eauto|exact Q1|eapply Q2; reflexivity|apply IVB; exact Hpr].
        * cbn [obind]. rewrite app_nil_r. split; [exact Q1|discriminate].
        * cbn [obind]. rewrite app_nil_r. split; [exact Q1|discriminate].
        * cbn [obind]. rewrite app_nil_r. split; [exact Q1|discriminate].
        * cbn [obind]. rewrite app_nil_r. split; [exact Q1|discriminate].
      + split; [reflexivity|]. intros b [= <-]. exists [], n. rewrite app_nil_r. auto.
  Qed.
End Exact.
