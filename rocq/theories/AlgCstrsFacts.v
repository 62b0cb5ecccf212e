From Coq Require Import List Bool Arith ZArith Lia Permutation.
From Verif Require Import Dbl DblFacts Outcome BaseFacts StdSort SpecOrder Compare CompareFacts Problem SpecProblem ProblemFacts Rng Generic
  Constrained SpecConstrained ConstrainedFacts ConstrainedFacts2 Population SpecPopulation PopulationFacts PopulationFacts3 Algo SpecAlgo AlgoFacts AlgoFacts2 NotPop SpecLocal AlgCompass AlgCompassFacts AlgCstrs SpecCstrs.
Import ListNotations.

(** ** Loops that cannot fail *)
Lemma mfold_total {T A} (I : T -> Prop) (f : T -> A -> outcome T) l : forall t, I t ->
  (forall t a, In a l -> I t -> exists t', f t a = Ok t' /\ I t') -> exists t', mfold f t l = Ok t' /\ I t'.
Proof.
  induction l as [|a l IH]; intros t H S; [exists t; auto|]. destruct (S t a (or_introl eq_refl) H) as (t1 & E & H1). cbn. rewrite E. cbn [bind].
  apply IH; [exact H1|]. intros t2 a2 I2. apply S. now right.
Qed.
Lemma mmap_total {A B} (f : A -> outcome B) l : (forall a, In a l -> exists b, f a = Ok b) -> exists r, mmap f l = Ok r /\ length r = length l.
Proof.
  induction l as [|a l IH]; intros S; [exists []; auto|]. destruct (S a (or_introl eq_refl)) as (b & E). destruct IH as (r & E2 & L); [intros; apply S; now right|].
  exists (b :: r). cbn. rewrite E. cbn [bind]. rewrite E2. split; [reflexivity|cbn; lia].
Qed.
Lemma scan_total c b l n : b < n -> (forall i, In i l -> i < n) -> (forall i j, i < n -> j < n -> exists k, c i j = Ok k) ->
  exists h, scan c b l = Ok h /\ h < n.
Proof.
  intros Hb Hl C. apply (mfold_total (fun h => h < n)); [exact Hb|]. intros h i Hi Hh. destruct (C i h (Hl i Hi) Hh) as (k & E). rewrite E. cbn [bind]. exists (if k then i else h). split; [reflexivity|]. destruct k; auto.
Qed.

(** ** Keys of the cache *)
Lemma equal_to_f_iff a b : equal_to_f a b = true <-> a = b.
Proof.
  destruct a, b; cbn; try (split; [reflexivity|reflexivity] || (split; [discriminate|discriminate])); unfold equal_to_f; cbn.
  split; [intros H; apply Z.eqb_eq in H; now subst|intros H; apply Z.eqb_eq; congruence].
Qed.
Lemma equal_to_vf_iff a : forall b, equal_to_vf a b = true <-> a = b.
Proof.
  unfold equal_to_vf. induction a as [|u a IH]; intros [|v b]; cbn; try (split; [discriminate|discriminate]); try (split; reflexivity).
  specialize (IH b). destruct (Nat.eqb (length a) (length b)) eqn:E; cbn in *.
  - rewrite andb_true_iff, equal_to_f_iff, IH. split; [intros [-> ->]; reflexivity|intros H; injection H as -> ->; auto].
  - split; [discriminate|]. intros H. injection H as -> ->. rewrite Nat.eqb_refl in E. discriminate E.
Qed.
Lemma cache_find_some m x f : cache_find m x = Some f -> In (x, f) m.
Proof.
  induction m as [|(y, h) m IH]; cbn; [discriminate|]. destruct (equal_to_vf y x) eqn:E; [|auto]. apply equal_to_vf_iff in E. intros H. injection H as ->. subst y. now left.
Qed.
Lemma cache_find_none m x : cache_find m x = None <-> ~ In x (map fst m).
Proof.
  induction m as [|(y, h) m IH]; cbn; [tauto|]. destruct (equal_to_vf y x) eqn:E.
  - apply equal_to_vf_iff in E. subst y. split; [discriminate|]. intros H. destruct H. now left.
  - rewrite IH. assert (y <> x) by (intros ->; rewrite (proj2 (equal_to_vf_iff x x) eq_refl) in E; discriminate E). tauto.
Qed.
Lemma cache_find_ex m x : In x (map fst m) -> exists f, cache_find m x = Some f.
Proof. intros H. destruct (cache_find m x) eqn:E; [eauto|]. apply cache_find_none in E. contradiction. Qed.

(** ** The penalized problem *)
Section U.
Context (p : problem) (PO : prob_obj p).
Let nc := get_nc p.
Lemma tol_len : length (p_ctol p) = nc.
Proof. destruct (prob_obj_facts _ PO) as (_ & _ & LT & _). exact LT. Qed.
Lemma violation_eq f j : length f = S nc -> j < nc -> violation (p_nec p) (p_ctol p) f j = Ok (breach p f j).
Proof.
  intros L Hj. unfold violation, breach. rewrite (vget_nth f (j + 1) NaN) by lia. cbn [bind]. rewrite (vget_nth (p_ctol p) j NaN) by (rewrite tol_len; lia). reflexivity.
Qed.
Lemma c_max_ok F : (forall f, In f F -> length f = S nc) -> exists cm, compute_c_max (p_nec p) nc (p_ctol p) F = Ok cm /\ length cm = nc.
Proof.
  intros LF. unfold compute_c_max. apply (mfold_total (fun cm => length cm = nc)); [apply repeat_length|]. intros cm f Hf Lc.
  apply (mfold_total (fun cm => length cm = nc)); [exact Lc|]. intros c j Hj Lc'. apply in_seq in Hj.
  rewrite (vget_nth c j NaN) by lia. cbn [bind]. rewrite violation_eq by (auto; lia). cbn [bind]. rewrite vset_in_range by lia. eexists. split; [reflexivity|]. now rewrite upd_length.
Qed.
Lemma infeas_ok cm f : length cm = nc -> length f = S nc -> exists v, compute_infeasibility cm (p_nec p) nc (p_ctol p) f = Ok v.
Proof.
  intros Lc Lf. unfold compute_infeasibility.
  destruct (mfold_total (fun _ : dbl => True) (fun a j => bind (vget cm j) (fun m => if dgt m dzero then bind (violation (p_nec p) (p_ctol p) f j) (fun v => Ok (dadd a (ddiv v m))) else Ok a)) (seq 0 nc) dzero I) as (a & E & _).
  { intros a j Hj _. apply in_seq in Hj. rewrite (vget_nth cm j NaN) by lia. cbn [bind]. destruct (dgt _ _); [|eauto]. rewrite violation_eq by lia. cbn [bind]. eauto. }
  rewrite E. cbn [bind]. eauto.
Qed.
Lemma pen_value_ok dexp g f : length (pn_cmax g) = nc -> length f = S nc -> exists v, pen_value dexp g p f = Ok v.
Proof.
  intros Lc Lf. unfold pen_value. rewrite (vget_nth f 0 NaN) by lia. cbn [bind]. destruct (infeas_ok _ f Lc Lf) as (v & E). fold nc. rewrite E. cbn [bind]. eauto.
Qed.
Lemma obj_at_ok F i : (forall f, In f F -> length f = S nc) -> i < length F -> obj_at F i = Ok (obj (nth i F [])).
Proof.
  intros LF Hi. unfold obj_at. rewrite (vget_nth F i []) by exact Hi. cbn [bind]. rewrite (vget_nth _ 0 NaN) by (rewrite (LF (nth i F [])) by (apply nth_In, Hi); lia). reflexivity.
Qed.
Lemma obj_less_ok F i b : (forall f, In f F -> length f = S nc) -> i < length F -> b < length F -> obj_less F i b = Ok (dlt (obj (nth i F [])) (obj (nth b F []))).
Proof. intros LF Hi Hb. unfold obj_less. rewrite !obj_at_ok by auto. reflexivity. Qed.
Lemma inf_or_ok cmp Iv c n i b : length Iv = n -> i < n -> b < n -> (exists k, c i b = Ok k) -> exists k, inf_or cmp Iv c i b = Ok k.
Proof.
  intros L Hi Hb (k & E). unfold inf_or. rewrite (vget_nth Iv i NaN), (vget_nth Iv b NaN) by lia. cbn [bind]. destruct (cmp _ _); [|eauto]. destruct (deq _ _); eauto.
Qed.
Lemma first_below_ok F fd l : (forall f, In f F -> length f = S nc) -> (forall i, In i l -> i < length F) ->
  exists o, first_below F fd l = Ok o /\ forall i, o = Some i -> In i l /\ dlt (obj (nth i F [])) fd = true.
Proof.
  intros LF. induction l as [|i l IH]; intros Hl; [exists None; split; [reflexivity|discriminate]|]. cbn. rewrite obj_at_ok by (auto; apply Hl; now left). cbn [bind].
  destruct (dlt _ fd) eqn:D; [exists (Some i); split; [reflexivity|]; intros j E; injection E as <-; split; [now left|exact D]|].
  destruct IH as (o & E & H); [intros j Hj; apply Hl; now right|]. exists o. split; [exact E|]. intros j Ej. destruct (H j Ej). split; [now right|assumption].
Qed.
Lemma fold_put_rev (l m : list (list dbl * list dbl)) : fold_left (fun m e => cache_put m (fst e) (snd e)) l m = rev l ++ m.
Proof. revert m. induction l as [|(x, f) l IH]; intros m; [reflexivity|]. cbn. rewrite IH. unfold cache_put. now rewrite <- app_assoc. Qed.

Lemma hats_ok F Iv feas infe : (forall f, In f F -> length f = S nc) -> length Iv = length F -> (forall i, In i feas -> i < length F) -> (forall i, In i infe -> i < length F) ->
  0 < length F -> infe <> [] -> exists hd hu b, pen_hats F Iv feas infe = Ok (hd, hu, b) /\ hd < length F /\ hu < length F.
Proof.
  intros LF LI Hfe Hin N NI.
  assert (C1 : forall i j, i < length F -> j < length F -> exists k, obj_less F i j = Ok k) by (intros i j Hi Hj; rewrite obj_less_ok by auto; eauto).
  assert (C2 : forall cmp (c : nat -> nat -> outcome bool) i j, (forall i j, i < length F -> j < length F -> exists k, c i j = Ok k) -> i < length F -> j < length F -> exists k, inf_or cmp Iv c i j = Ok k) by (intros cmp c i j C Hi Hj; apply (inf_or_ok cmp Iv c (length F) i j LI Hi Hj); auto).
  assert (SQ : forall i, In i (seq 1 (length F - 1)) -> i < length F) by (intros i Hi; apply in_seq in Hi; lia).
  destruct feas as [|d0 feas]; cbn [pen_hats].
  - destruct (scan_total (inf_or dle Iv (obj_less F)) 0 (seq 1 (length F - 1)) (length F) N SQ) as (hd & E1 & H1); [intros; now apply C2|].
    destruct (scan_total (inf_or dge Iv (fun i b => obj_less F b i)) 0 (seq 1 (length F - 1)) (length F) N SQ) as (hu & E2 & H2); [intros; apply C2; auto|].
    rewrite E1. cbn [bind]. rewrite E2. cbn [bind]. exists hd, hu, true. auto.
  - destruct (scan_total (obj_less F) d0 feas (length F)) as (hd & E1 & H1); [apply Hfe; now left|intros; apply Hfe; now right|exact C1|].
    rewrite E1. cbn [bind]. rewrite obj_at_ok by auto. cbn [bind].
    destruct (first_below_ok F (obj (nth hd F [])) infe LF Hin) as (o & E2 & HO). rewrite E2. cbn [bind]. destruct o as [u0|].
    + destruct (HO u0 eq_refl) as [Hu0 _].
      destruct (scan_total (fun i b => bind (obj_at F i) (fun u => if dlt u (obj (nth hd F [])) then inf_or dge Iv (obj_less F) i b else Ok false)) u0 infe (length F)) as (hu & E3 & H3); [auto|auto| |].
      { intros i j Hi Hj. rewrite obj_at_ok by auto. cbn [bind]. destruct (dlt _ _); [now apply C2|eauto]. }
      rewrite E3. cbn [bind]. exists hd, hu, true. auto.
    + destruct infe as [|u0 infe]; [contradiction|]. cbn [tl]. rewrite (vget_nth (u0 :: infe) 0 0) by (cbn; lia). cbn [bind nth].
      destruct (scan_total (inf_or dge Iv (fun i b => obj_less F b i)) u0 infe (length F)) as (hu & E3 & H3); [apply Hin; now left|intros; apply Hin; now right|intros; apply C2; auto|].
      rewrite E3. cbn [bind]. exists hd, hu, false. auto.
Qed.
Lemma filter_none {A} (f : A -> bool) l : filter f l = [] -> filter (fun a => negb (f a)) l = l.
Proof. induction l as [|a l IH]; cbn; [reflexivity|]. destruct (f a); cbn; [discriminate|]. intros H. f_equal. auto. Qed.
Lemma update_ok X F : (forall f, In f F -> length f = S nc) -> 0 < length F ->
  exists g, pen_update p X F = Ok g /\ length (pn_cmax g) = nc /\ pn_map g = rev (combine X F).
Proof.
  intros LF N. unfold pen_update. fold nc. destruct (c_max_ok F LF) as (cm & E1 & L1). rewrite E1. cbn [bind].
  destruct (mmap_total (compute_infeasibility cm (p_nec p) nc (p_ctol p)) F) as (Iv & E2 & L2); [intros f Hf; apply infeas_ok; auto|]. rewrite E2. cbn [bind].
  rewrite fold_put_rev, app_nil_r.
  set (inf := fun i => dgt (nth i Iv dzero) dzero). set (feas := filter (fun i => negb (inf i)) (seq 0 (length F))). set (infe := filter inf (seq 0 (length F))).
  change (filter (fun i => negb (dgt (nth i Iv dzero) dzero)) (seq 0 (length F))) with feas. change (filter (fun i => dgt (nth i Iv dzero) dzero) (seq 0 (length F))) with infe.
  assert (FL : forall i, In i feas -> i < length F) by (intros i Hi; apply filter_In in Hi; destruct Hi as [Hi _]; apply in_seq in Hi; lia).
  assert (IL : forall i, In i infe -> i < length F) by (intros i Hi; apply filter_In in Hi; destruct Hi as [Hi _]; apply in_seq in Hi; lia).
  destruct (Nat.eqb_spec (length feas) (length F)) as [EQ|NQ].
  - rewrite obj_at_ok by auto. cbn [bind]. eexists. split; [reflexivity|]. cbn. auto.
  - assert (NI : infe <> []). { intros EN. apply NQ. unfold feas. rewrite (filter_none inf _ EN). apply seq_length. }
    destruct (hats_ok F Iv feas infe LF L2 FL IL N NI) as (hd & hu & b & E3 & H1 & H2). rewrite E3. cbn [bind].
    destruct (scan_total (fun i b => obj_less F b i) 0 (seq 1 (length F - 1)) (length F) N) as (hr & E4 & H4).
    { intros i Hi; apply in_seq in Hi; lia. } { intros i j Hi Hj. rewrite obj_less_ok by auto. eauto. }
    rewrite E4. cbn [bind]. rewrite !obj_at_ok by auto. cbn [bind]. rewrite (vget_nth Iv hd NaN), (vget_nth Iv hu NaN) by lia. cbn [bind].
    eexists. split; [reflexivity|]. cbn. auto.
Qed.
End U.
