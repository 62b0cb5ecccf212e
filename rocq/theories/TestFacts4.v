(** The minima of rosenbrock, rastrigin, griewank and ackley. *)
From Coq Require Import List ZArith Lia Reals Lra Bool.
Import ListNotations.
From Verif Require Import Outcome BaseFacts Problem TestArith TestProblems SpecTest TestFacts TestFacts2 TestFacts3.
Local Open Scope R_scope.

Lemma in_bounds_const dim v l u : l <= v <= u -> in_bounds (repeat v dim) (repeat l dim, repeat u dim).
Proof.
  intros H. split; [cbn [fst]; now rewrite !repeat_length |]. split; [cbn [snd]; now rewrite !repeat_length |].
  intros i I. rewrite repeat_length in I. cbn [fst snd]. rewrite !(nth_indep _ 0 v) by now rewrite repeat_length.
  rewrite (nth_indep (repeat l dim) v l), (nth_indep (repeat u dim) v u) by now rewrite repeat_length. now rewrite !nth_repeat.
Qed.
Lemma eq_repeat dim (x : list R) v : length x = dim -> (forall i, (i < dim)%nat -> nth i x 0 = v) -> x = repeat v dim.
Proof.
  intros L H. apply (nth_ext x (repeat v dim) 0 0); [now rewrite repeat_length |]. intros i I. rewrite H by lia.
  rewrite (nth_indep _ 0 v) by (rewrite repeat_length; lia). now rewrite nth_repeat.
Qed.
Lemma nth_rep (v : R) dim i : (i < dim)%nat -> nth i (repeat v dim) 0 = v.
Proof. intros H. rewrite (nth_indep _ 0 v) by now rewrite repeat_length. apply nth_repeat. Qed.

Lemma rosT_nonneg i x : 0 <= rosT i x.
Proof.
  unfold rosT. cbv zeta. set (a := nth i x 0). set (b := nth (i + 1) x 0).
  replace (100 * (a * a - b) * (a * a - b)) with (100 * ((a * a - b) * (a * a - b))) by ring.
  pose proof (Rle_0_sqr (a * a - b)) as H1. pose proof (Rle_0_sqr (a - 1)) as H2. unfold Rsqr in *. lra.
Qed.
Lemma rosenbrock_minimum dim : (2 <= dim)%nat -> minimum_at dim (rosenbrock_fitness Rar dim) (rosenbrock_bounds Rar dim) (rosenbrock_best Rar dim) 0.
Proof.
  intros D. unfold rosenbrock_best, rosenbrock_bounds. rewrite !lit1.
  split; [apply repeat_length |]. split; [apply in_bounds_const; lra |]. split.
  - rewrite rosenbrock_value by apply repeat_length. f_equal. f_equal. rewrite (rsum_ext _ (fun _ => 0)); [apply rsum_zero |].
    intros i I. apply in_seq in I. unfold rosT. rewrite !nth_rep by lia. ring.
  - intros x L. rewrite rosenbrock_value by exact L. eexists. split; [reflexivity |].
    assert (N : forall i, In i (seq 0 (dim - 1)) -> 0 <= rosT i x) by (intros; apply rosT_nonneg). split; [now apply rsum_nonneg |].
    intros Z. assert (ZZ := rsum_zero_all _ _ N Z).
    assert (P : forall i, (i < dim - 1)%nat -> nth i x 0 = 1 /\ nth (i + 1) x 0 = 1).
    { intros i I. assert (E : rosT i x = 0) by (apply ZZ, in_seq; lia). unfold rosT in E. cbv zeta in E.
      set (a := nth i x 0) in *. set (b := nth (i + 1) x 0) in *.
      replace (100 * (a * a - b) * (a * a - b)) with (100 * ((a * a - b) * (a * a - b))) in E by ring.
      pose proof (Rle_0_sqr (a * a - b)) as H1. pose proof (Rle_0_sqr (a - 1)) as H2. unfold Rsqr in *.
      assert (E2 : (a - 1) * (a - 1) = 0) by lra. apply Rmult_integral in E2. assert (A1 : a = 1) by (destruct E2; lra).
      assert (E1 : (a * a - b) * (a * a - b) = 0) by lra. apply Rmult_integral in E1. rewrite A1 in E1. split; [exact A1 |]. destruct E1; lra. }
    apply eq_repeat; [exact L |]. intros i I. destruct (Nat.eq_dec i 0) as [-> | NZ]; [apply P; lia |].
    replace i with ((i - 1) + 1)%nat by lia. apply P. lia.
Qed.

Lemma rasT_low i x : nth i x 0 * nth i x 0 - 10 <= rasT i x.
Proof. unfold rasT. pose proof (COS_bound (2 * PI * nth i x 0)). lra. Qed.
Lemma sq_nonneg a : 0 <= a * a.
Proof. exact (Rle_0_sqr a). Qed.
Lemma rastrigin_sum x : rsum (fun i => rasT i x) (seq 0 (length x)) + 10 * INR (length x) = rsum (fun i => rasT i x + 10) (seq 0 (length x)).
Proof. rewrite rsum_plus, rsum_const, seq_length. ring. Qed.
Lemma rastrigin_minimum dim : minimum_at dim (rastrigin_fitness Rar) (rastrigin_bounds Rar dim) (rastrigin_best Rar dim) 0.
Proof.
  unfold rastrigin_best, rastrigin_bounds. rewrite !lit1. cbn [ar_lit Rar].
  split; [apply repeat_length |]. split; [apply in_bounds_const; lra |]. split.
  - rewrite rastrigin_value, rastrigin_sum. f_equal. f_equal. rewrite (rsum_ext _ (fun _ => 0)); [apply rsum_zero |].
    intros i I. apply in_seq in I. rewrite repeat_length in I. unfold rasT. rewrite !nth_rep by lia. rewrite !Rmult_0_r, cos_0. ring.
  - intros x L. rewrite rastrigin_value, rastrigin_sum. eexists. split; [reflexivity |].
    assert (N : forall i, In i (seq 0 (length x)) -> 0 <= rasT i x + 10) by (intros i _; pose proof (rasT_low i x); pose proof (sq_nonneg (nth i x 0)); lra).
    split; [now apply rsum_nonneg |]. intros Z. assert (ZZ := rsum_zero_all _ _ N Z).
    apply eq_repeat; [exact L |]. intros i I. assert (E : rasT i x + 10 = 0) by (apply ZZ, in_seq; lia).
    pose proof (rasT_low i x). pose proof (sq_nonneg (nth i x 0)). assert (Q : nth i x 0 * nth i x 0 = 0) by lra.
    apply Rmult_integral in Q. tauto.
Qed.

(** griewank *)
Definition griP (x : list R) (i : nat) : R := cos (nth i x 0 / sqrt (INR i + 1)).
Definition rprod (T : nat -> R) (l : list nat) : R := fold_left (fun p i => p * T i) l 1.
Lemma fold_prod T l : forall (t : nat -> outcome R) p, (forall i, In i l -> t i = Ok (T i)) -> mfold (fun p i => bind (t i) (fun v => Ok (p * v))) p l = Ok (fold_left (fun p i => p * T i) l p).
Proof.
  induction l as [|i l IH]; intros t p H; cbn [mfold fold_left]; [reflexivity |]. rewrite (H i (or_introl eq_refl)). cbn [bind]. apply IH. intros k K. apply H. now right.
Qed.
Lemma prod_bound (T : nat -> R) l : (forall i, -1 <= T i <= 1) -> forall p, -1 <= p <= 1 -> -1 <= fold_left (fun p i => p * T i) l p <= 1.
Proof.
  intros H. induction l as [|i l IH]; intros p P; cbn [fold_left]; [exact P |]. apply IH. pose proof (H i).
  assert (A : Rabs (p * T i) <= 1). { rewrite Rabs_mult. assert (Rabs p <= 1) by (apply Rabs_le; lra). assert (Rabs (T i) <= 1) by (apply Rabs_le; lra).
    pose proof (Rabs_pos p). pose proof (Rabs_pos (T i)). nra. }
  pose proof (Rle_abs (p * T i)). pose proof (Rle_abs (- (p * T i))). rewrite Rabs_Ropp in *. lra.
Qed.
Lemma griewank_value x : griewank_fitness Rar x = Ok [rsum (fun i => nth i x 0 * nth i x 0) (seq 0 (length x)) / 4000 - rprod (griP x) (seq 0 (length x)) + 1].
Proof.
  unfold griewank_fitness. rewrite (sum_loop_ok (fun i => nth i x 0 * nth i x 0)); [| intros i I; apply in_seq in I; rewrite vget_nth by lia; reflexivity].
  cbn [bind]. match goal with |- context [mfold ?ff ?p0 ?l] => assert (EM : mfold ff p0 l = Ok (rprod (griP x) (seq 0 (length x)))) end.
  { rewrite !lit1. unfold rprod. rewrite <- (fold_prod (griP x) _ (fun i => Ok (griP x i))) by reflexivity. apply mfold_ext_in.
    intros i s I. apply in_seq in I. rewrite vget_nth by lia. cbn [bind]. rewrite lit1. rewrite <- INR_IZR_INZ. reflexivity. }
  rewrite EM. cbn [bind]. rewrite !lit1. reflexivity.
Qed.
Lemma griewank_minimum dim : minimum_at dim (griewank_fitness Rar) (griewank_bounds Rar dim) (griewank_best Rar dim) 0.
Proof.
  unfold griewank_best, griewank_bounds. rewrite !lit1.
  split; [apply repeat_length |]. split; [apply in_bounds_const; lra |]. split.
  - rewrite griewank_value. f_equal. f_equal. rewrite repeat_length. rewrite (rsum_ext _ (fun _ => 0)); [rewrite rsum_zero |].
    + assert (E : rprod (griP (repeat 0 dim)) (seq 0 dim) = 1); [| rewrite E; lra].
      assert (G : forall l p, (forall i, In i l -> (i < dim)%nat) -> fold_left (fun p i => p * griP (repeat 0 dim) i) l p = p).
      { induction l as [|i l IH]; intros p H; cbn [fold_left]; [reflexivity |]. rewrite IH by (intros k K; apply H; now right). unfold griP. rewrite nth_rep by (apply H; now left).
        unfold Rdiv. rewrite Rmult_0_l, cos_0. ring. }
      apply G. intros i I. apply in_seq in I. lia.
    + intros i I. apply in_seq in I. rewrite nth_rep by lia. ring.
  - intros x L. rewrite griewank_value. eexists. split; [reflexivity |].
    assert (N : forall i, In i (seq 0 (length x)) -> 0 <= nth i x 0 * nth i x 0) by (intros; apply sq_nonneg).
    assert (S := rsum_nonneg _ _ N). assert (P : -1 <= rprod (griP x) (seq 0 (length x)) <= 1) by (apply prod_bound; [intros i; apply COS_bound | lra]).
    split; [lra |]. intros Z. assert (Z' : rsum (fun i => nth i x 0 * nth i x 0) (seq 0 (length x)) = 0) by lra. assert (ZZ := rsum_zero_all _ _ N Z').
    apply eq_repeat; [exact L |]. intros i I. assert (E : nth i x 0 * nth i x 0 = 0) by (apply ZZ, in_seq; lia). apply Rmult_integral in E. tauto.
Qed.

(** ackley *)
Definition ackV (x : list R) : R :=
  let s1 := rsum (fun i => nth i x 0 * nth i x 0) (seq 0 (length x)) in let s2 := rsum (fun i => cos (2 * PI * nth i x 0)) (seq 0 (length x)) in
  -20 * exp (-2 / 10 * sqrt (1 / INR (length x) * s1)) - exp (1 / INR (length x) * s2) + 20 + exp 1.
Lemma ackley_value x : ackley_fitness Rar x = Ok [ackV x].
Proof.
  unfold ackley_fitness. rewrite (sum_loop_ok (fun i => nth i x 0 * nth i x 0)); [| intros i I; apply in_seq in I; rewrite vget_nth by lia; reflexivity].
  cbn [bind]. rewrite (sum_loop_ok (fun i => cos (2 * PI * nth i x 0))); [| intros i I; apply in_seq in I; rewrite vget_nth by lia; cbn [bind]; rewrite omega_R; reflexivity].
  cbn [bind]. cbv zeta. rewrite !lit1, <- INR_IZR_INZ. reflexivity.
Qed.
Lemma exp_mono a b : a <= b -> exp a <= exp b.
Proof. intros [H | ->]; [left; now apply exp_increasing | lra]. Qed.
Lemma ackley_minimum dim : (1 <= dim)%nat -> minimum_at dim (ackley_fitness Rar) (ackley_bounds Rar dim) (ackley_best Rar dim) 0.
Proof.
  intros D. unfold ackley_best, ackley_bounds. rewrite !lit1.
  assert (D0 : 0 < INR dim) by (apply lt_0_INR; lia).
  split; [apply repeat_length |]. split; [apply in_bounds_const; lra |]. split.
  - rewrite ackley_value. f_equal. f_equal. unfold ackV. cbv zeta. rewrite repeat_length.
    rewrite (rsum_ext _ (fun _ => 0)); [rewrite rsum_zero | intros i I; apply in_seq in I; rewrite nth_rep by lia; ring].
    rewrite (rsum_ext (fun i => cos _) (fun _ => 1)); [rewrite rsum_const, seq_length | intros i I; apply in_seq in I; rewrite nth_rep by lia; rewrite Rmult_0_r; apply cos_0].
    rewrite !Rmult_0_r, sqrt_0, Rmult_0_r, exp_0. replace (1 / INR dim * (INR dim * 1)) with 1 by (field; lra). ring.
  - intros x L. rewrite ackley_value. eexists. split; [reflexivity |]. unfold ackV. cbv zeta. rewrite L.
    set (s1 := rsum (fun i => nth i x 0 * nth i x 0) _). set (s2 := rsum (fun i => cos _) _).
    assert (N : forall i, In i (seq 0 dim) -> 0 <= nth i x 0 * nth i x 0) by (intros; apply sq_nonneg).
    assert (S1 : 0 <= s1) by now apply rsum_nonneg.
    assert (S2 : s2 <= INR dim). { replace (INR dim) with (rsum (fun _ => 1) (seq 0 dim)) by (rewrite rsum_const, seq_length; ring). apply rsum_le. intros i _. apply COS_bound. }
    assert (E2 : exp (1 / INR dim * s2) <= exp 1). { apply exp_mono. replace 1 with (1 / INR dim * INR dim) at 2 by (field; lra). apply Rmult_le_compat_l; [| exact S2]. left. apply Rdiv_lt_0_compat; lra. }
    assert (Q : 0 <= 1 / INR dim * s1) by (apply Rmult_le_pos; [left; apply Rdiv_lt_0_compat; lra | exact S1]).
    pose proof (sqrt_pos (1 / INR dim * s1)) as SP. assert (E1 : exp (-2 / 10 * sqrt (1 / INR dim * s1)) <= 1) by (apply Rle_trans with (exp 0); [apply exp_mono; lra | rewrite exp_0; lra]).
    split; [lra |]. intros Z.
    assert (E1' : exp (-2 / 10 * sqrt (1 / INR dim * s1)) = exp 0) by (rewrite exp_0; lra). apply exp_inv in E1'.
    assert (Z1 : sqrt (1 / INR dim * s1) = 0) by lra. apply sqrt_eq_0 in Z1; [| exact Q].
    assert (Z2 : s1 = 0). { apply Rmult_integral in Z1. destruct Z1 as [Z1 | Z1]; [| exact Z1]. assert (0 < 1 / INR dim) by (apply Rdiv_lt_0_compat; lra). lra. }
    assert (ZZ := rsum_zero_all _ _ N Z2). apply eq_repeat; [exact L |]. intros i I. assert (E : nth i x 0 * nth i x 0 = 0) by (apply ZZ, in_seq; lia). apply Rmult_integral in E. tauto.
Qed.

Lemma rosenbrock_ctor_ok dim : rosenbrock_ctor dim = Ok dim -> (2 <= dim)%nat.
Proof. unfold rosenbrock_ctor. destruct (Nat.ltb_spec dim 2); [discriminate |]. auto. Qed.
Lemma luksan_ctor_ok dim : luksan_ctor dim = Ok dim -> (3 <= dim)%nat.
Proof. unfold luksan_ctor. destruct (Nat.ltb_spec dim 3); [discriminate |]. auto. Qed.
Lemma rosenbrock_right_ctor dim : rosenbrock_ctor dim = Ok dim -> gradient_right dim 1 (rosenbrock_fitness Rar dim) (rosenbrock_gradient Rar dim) (dense_gradient 1 dim).
Proof. intros H. now apply rosenbrock_right, rosenbrock_ctor_ok. Qed.
Lemma rosenbrock_minimum_ctor dim : rosenbrock_ctor dim = Ok dim -> minimum_at dim (rosenbrock_fitness Rar dim) (rosenbrock_bounds Rar dim) (rosenbrock_best Rar dim) 0.
Proof. intros H. now apply rosenbrock_minimum, rosenbrock_ctor_ok. Qed.
Lemma luksan_right_ctor dim : luksan_ctor dim = Ok dim -> gradient_right dim (1 + luksan_nec dim) (luksan_fitness Rar) (luksan_gradient Rar) (luksan_gs dim).
Proof.
  intros H. apply luksan_ctor_ok in H. unfold luksan_nec. replace (1 + (dim - 2))%nat with (dim - 1)%nat by Lia.lia. now apply luksan_right.
Qed.
