(** The Schwefel function: value, symmetries, bounds. *)
From Coq Require Import List ZArith Reals Lra Lia Permutation.
Import ListNotations.
From Verif Require Import Outcome TestArith TestProblems SpecTest TestFacts TestFacts4 Schwefel SpecSchwefel.
Local Open Scope R_scope.

Lemma rsum_list (g : R -> R) x : rsum (fun i => g (nth i x 0)) (seq 0 (length x)) = fold_right Rplus 0 (map g x).
Proof.
  unfold rsum. induction x as [|a x IH]; [reflexivity|]. cbn [length seq fold_right map nth]. f_equal. rewrite <- seq_shift. rewrite <- IH.
  generalize (seq 0 (length x)). intros l. induction l as [|i l IL]; [reflexivity|]. cbn [map fold_right nth]. now rewrite IL.
Qed.
Lemma schwefel_is x : schwefel_fitness Rar x = Ok [schwefel_value x].
Proof.
  unfold schwefel_fitness. rewrite (sum_loop_ok (fun i => (fun a => a * sin (sqrt (Rabs a))) (nth i x 0))).
  - cbn [bind]. rewrite (rsum_list (fun a => a * sin (sqrt (Rabs a)))). rewrite lit1, <- INR_IZR_INZ. f_equal. f_equal. cbn [ar_sub ar_mul ar_lit Rar]. change (10 ^ 13)%Z with 10000000000000%Z. unfold schwefel_value.
    induction x as [|a x IH]; [cbn; lra|]. change (length (a :: x)) with (S (length x)). rewrite S_INR. cbn [map fold_right]. rewrite <- IH. unfold schwefel_term. ring.
  - intros i I. apply in_seq in I. rewrite vget_nth by lia. reflexivity.
Qed.
Lemma value_app x y : schwefel_value (x ++ y) = schwefel_value x + schwefel_value y.
Proof. unfold schwefel_value. induction x as [|a x IH]; cbn [app map fold_right]; [ring|rewrite IH; ring]. Qed.
Lemma value_perm x y : Permutation x y -> schwefel_value x = schwefel_value y.
Proof. unfold schwefel_value. induction 1; cbn [map fold_right]; try congruence; ring. Qed.
Lemma term_neg a : schwefel_term a + schwefel_term (- a) = 2 * (4189828872724338 / 10000000000000).
Proof. unfold schwefel_term. rewrite Rabs_Ropp. ring. Qed.
Lemma value_neg x : schwefel_value x + schwefel_value (map Ropp x) = 2 * (4189828872724338 / 10000000000000) * INR (length x).
Proof.
  unfold schwefel_value. induction x as [|a x IH]; [cbn; ring|]. change (length (a :: x)) with (S (length x)). rewrite S_INR. cbn [map fold_right].
  pose proof (term_neg a). lra.
Qed.
Lemma term_bounds a b : 0 <= b -> Rabs a <= b -> 4189828872724338 / 10000000000000 - b <= schwefel_term a <= 4189828872724338 / 10000000000000 + b.
Proof.
  intros B H. unfold schwefel_term. assert (K : Rabs (a * sin (sqrt (Rabs a))) <= b).
  { rewrite Rabs_mult. assert (S : Rabs (sin (sqrt (Rabs a))) <= 1) by (apply Rabs_le; apply SIN_bound). pose proof (Rabs_pos a). pose proof (Rabs_pos (sin (sqrt (Rabs a)))). nra. }
  pose proof (Rle_abs (a * sin (sqrt (Rabs a)))). pose proof (Rle_abs (- (a * sin (sqrt (Rabs a))))). rewrite Rabs_Ropp in *. lra.
Qed.
Lemma value_bounds b x : 0 <= b -> Forall (fun a => Rabs a <= b) x ->
  INR (length x) * (4189828872724338 / 10000000000000 - b) <= schwefel_value x <= INR (length x) * (4189828872724338 / 10000000000000 + b).
Proof.
  intros B H. unfold schwefel_value. induction H as [|a x Ha H IH]; [cbn; lra|]. change (length (a :: x)) with (S (length x)). rewrite S_INR. cbn [map fold_right].
  pose proof (term_bounds a b B Ha). lra.
Qed.
Lemma in_box_abs dim x : in_bounds x (schwefel_bounds Rar dim) -> length x = dim /\ Forall (fun a => Rabs a <= 500) x.
Proof.
  unfold schwefel_bounds. rewrite !lit1. intros (L & _ & H). cbn [fst snd] in *. rewrite repeat_length in L. split; [exact L|].
  apply Forall_forall. intros a Ha. destruct (In_nth x a 0 Ha) as (i & Hi & <-). specialize (H i Hi). rewrite !nth_rep in H by lia. apply Rabs_le. lra.
Qed.
Lemma schwefel_box dim x : in_bounds x (schwefel_bounds Rar dim) -> exists f, schwefel_fitness Rar x = Ok [f] /\ INR dim * -82 <= f <= INR dim * 919.
Proof.
  intros H. apply in_box_abs in H. destruct H as [L H]. eexists. split; [apply schwefel_is|]. pose proof (value_bounds 500 x ltac:(lra) H) as K. rewrite L in K. pose proof (pos_INR dim). lra.
Qed.
Lemma schwefel_best_in dim : in_bounds (schwefel_best Rar dim) (schwefel_bounds Rar dim).
Proof. unfold schwefel_best, schwefel_bounds. rewrite !lit1. apply in_bounds_const. cbn [ar_lit Rar]. lra. Qed.
Lemma schwefel_best_fit dim : exists f, schwefel_fitness Rar (schwefel_best Rar dim) = Ok [f] /\ INR dim * -2 <= f.
Proof.
  eexists. split; [apply schwefel_is|]. assert (H : Forall (fun a => Rabs a <= 4209687 / 10000) (schwefel_best Rar dim)).
  { apply Forall_forall. intros a Ha. apply repeat_spec in Ha. subst a. cbn [ar_lit Rar]. rewrite Rabs_pos_eq; lra. }
  pose proof (value_bounds (4209687 / 10000) _ ltac:(lra) H) as K. unfold schwefel_best in *. rewrite repeat_length in K. pose proof (pos_INR dim). lra.
Qed.
(** Outside the box: at the squares of pi / 2 + 2 k pi the sine is 1. *)
Lemma term_low k : schwefel_term ((PI / 2 + 2 * INR k * PI) * (PI / 2 + 2 * INR k * PI)) <= 419 - INR k.
Proof.
  pose proof PI2_3_2 as P3. pose proof (pos_INR k) as K0. set (t := PI / 2 + 2 * INR k * PI). assert (T : 3 / 2 + INR k <= t) by (unfold t; nra).
  unfold schwefel_term. rewrite Rabs_pos_eq by nra. rewrite sqrt_square by lra. unfold t at 3. rewrite sin_period, sin_PI2. nra.
Qed.
Lemma above r : exists k, r < INR k.
Proof.
  exists (Z.to_nat (up r)). destruct (archimed r) as [A _]. rewrite INR_IZR_INZ. destruct (Z.le_gt_cases 0 (up r)) as [H | H]; [rewrite Z2Nat.id by exact H; lra|].
  apply IZR_lt in H. pose proof (IZR_le 0 (Z.of_nat (Z.to_nat (up r))) ltac:(lia)). lra.
Qed.
Lemma schwefel_unbounded dim M : schwefel_ctor dim = Ok dim -> exists x f, length x = dim /\ schwefel_fitness Rar x = Ok [f] /\ f < M.
Proof.
  unfold schwefel_ctor. destruct dim as [|d]; [discriminate|]. intros _.
  destruct (above (419 + INR d * 419 - M)) as (k & Hk).
  exists ((PI / 2 + 2 * INR k * PI) * (PI / 2 + 2 * INR k * PI) :: repeat 0 d). eexists. split; [cbn [length]; now rewrite repeat_length|]. split; [apply schwefel_is|].
  change (?a :: ?l) with ([a] ++ l). rewrite value_app. unfold schwefel_value at 1. cbn [map fold_right]. pose proof (term_low k).
  assert (Z : Forall (fun a => Rabs a <= 0) (repeat 0 d)) by (apply Forall_forall; intros a Ha; apply repeat_spec in Ha; subst a; rewrite Rabs_R0; lra).
  pose proof (value_bounds 0 _ (Rle_refl 0) Z) as V. rewrite repeat_length in V. pose proof (pos_INR d). lra.
Qed.
Lemma schwefel_all : (forall x, schwefel_fitness Rar x = Ok [schwefel_value x]) /\ (forall x y, schwefel_value (x ++ y) = schwefel_value x + schwefel_value y) /\
  (forall x y, Permutation x y -> schwefel_fitness Rar x = schwefel_fitness Rar y) /\
  (forall x, schwefel_value x + schwefel_value (map Ropp x) = 2 * (4189828872724338 / 10000000000000) * INR (length x)).
Proof. split; [exact schwefel_is|]. split; [exact value_app|]. split; [|exact value_neg]. intros x y H. rewrite !schwefel_is. now rewrite (value_perm x y H). Qed.
Lemma schwefel_within dim : schwefel_ctor dim = Ok dim -> in_bounds (schwefel_best Rar dim) (schwefel_bounds Rar dim) /\
  (exists f, schwefel_fitness Rar (schwefel_best Rar dim) = Ok [f] /\ INR dim * -2 <= f) /\
  (forall x, in_bounds x (schwefel_bounds Rar dim) -> exists f, schwefel_fitness Rar x = Ok [f] /\ INR dim * -82 <= f <= INR dim * 919).
Proof. intros _. split; [apply schwefel_best_in|]. split; [apply schwefel_best_fit|apply schwefel_box]. Qed.
Lemma schwefel_not_min dim : schwefel_ctor dim = Ok dim -> forall v, ~ minimum_at dim (schwefel_fitness Rar) (schwefel_bounds Rar dim) (schwefel_best Rar dim) v.
Proof.
  intros C v (_ & _ & _ & H). destruct (schwefel_unbounded dim v C) as (x & f & L & E & B). destruct (H x L) as (f' & E' & G & _). rewrite E in E'. injection E' as ->. lra.
Qed.
Lemma schwefel_ctor_iff dim : schwefel_ctor dim = Ok dim <-> (1 <= dim)%nat.
Proof. unfold schwefel_ctor. destruct dim; cbn; split; intros H; try discriminate; try lia; reflexivity. Qed.
Lemma schwefel_origin : schwefel_value [0; 0] = 2 * (4189828872724338 / 10000000000000).
Proof. unfold schwefel_value, schwefel_term. cbn [map fold_right]. ring. Qed.
