(** Facts about the ZDT problems. *)
From Coq Require Import List ZArith Lia Reals Lra Bool.
Import ListNotations.
From Verif Require Import Outcome BaseFacts TestArith TestProblems SpecTest SpecPareto TestFacts TestFacts2 TestFacts4 Zdt.
Local Open Scope R_scope.

Lemma dom2 a b c d : Forall2 Rle [a; b] [c; d] -> a <= c /\ b <= d.
Proof. intros H. inversion H as [| ? ? ? ? H1 H']; subst. inversion H'; subst. auto. Qed.
(** the shape of all these problems *)
Section Core.
Context (D : list R -> Prop) (fit : list R -> outcome (list R)) (f1 g : list R -> R) (F : R -> R -> R) (P : R -> Prop) (gmin : R).
Context (VAL : forall x, D x -> fit x = Ok [f1 x; F (f1 x) (g x)]).
Context (LOW : forall x, D x -> gmin <= g x).
Context (RNG : forall x, D x -> P (f1 x)).
Context (INC : forall a u v, P a -> gmin <= u -> u < v -> F a u < F a v).
Lemma core_necessary : (forall x, D x -> exists y, D y /\ f1 y = f1 x /\ g y = gmin) -> forall x, pareto_optimal D fit x -> g x = gmin.
Proof using VAL LOW RNG INC.
  intros WIT x [Dx O]. destruct (Req_dec (g x) gmin) as [E | E]; [exact E |]. exfalso. destruct (WIT x Dx) as [y [Dy [Y1 Y2]]].
  pose proof (LOW x Dx). assert (L : F (f1 x) gmin < F (f1 x) (g x)) by (apply INC; [auto | lra | lra]).
  apply (O y _ _ Dy (VAL x Dx) (VAL y Dy)). rewrite Y1, Y2. split.
  - repeat constructor; lra.
  - intros Q. inversion Q. lra.
Qed.
Lemma core_sufficient : (forall a b, P a -> P b -> a < b -> F b gmin < F a gmin) -> forall x, D x -> g x = gmin -> pareto_optimal D fit x.
Proof using VAL LOW RNG INC.
  intros DEC x Dx G. split; [exact Dx |]. intros y fx fy Dy Ex Ey [H N]. rewrite (VAL x Dx) in Ex. rewrite (VAL y Dy) in Ey. injection Ex as <-. injection Ey as <-.
  apply dom2 in H. destruct H as [H1 H2]. rewrite G in *.
  assert (L : F (f1 y) gmin <= F (f1 y) (g y)). { destruct (LOW y Dy) as [Q | Q]; [left; apply INC; auto; lra | rewrite <- Q; lra]. }
  destruct (Rle_lt_or_eq_dec _ _ H1) as [Q | Q]; [pose proof (DEC _ _ (RNG y Dy) (RNG x Dx) Q); lra |].
  apply N. rewrite Q in *. f_equal. f_equal. lra.
Qed.
End Core.

(** sums over the components from the second on *)
Definition tail (T : R -> R) (x : list R) : R := rsum (fun i => T (nth i x 0)) (seq 1 (length x - 1)).
Lemma zdt_sum_R x : zdt_sum Rar x = Ok (tail (fun v => v) x).
Proof. change (zdt_sum Rar x) with (sum_loop Rar (fun i => vget x i) (seq 1 (length x - 1))). apply sum_loop_ok. intros i I. apply in_seq in I. apply vget_nth. lia. Qed.
Definition t4 (v : R) : R := v * v - 10 * cos (4 * PI * v).
Lemma zdt4_loop_R x g : zdt4_loop Rar x g = Ok (g + tail t4 x).
Proof.
  unfold zdt4_loop, tail. rewrite <- (fold_sum (seq 1 (length x - 1)) (fun i => t4 (nth i x 0)) (fun i => Ok (t4 (nth i x 0)))) by reflexivity. apply mfold_ext_in.
  intros i s I. apply in_seq in I. rewrite vget_nth by lia. cbn [bind]. rewrite !lit1. reflexivity.
Qed.
Lemma size_less_one_R x : (1 <= length x)%nat -> (Z.of_nat (length x) < 2 ^ 32)%Z -> size_less_one Rar x = INR (length x - 1).
Proof. intros H L. unfold size_less_one. rewrite lit1, Z.mod_small by lia. rewrite INR_IZR_INZ. f_equal. lia. Qed.
Definition flat (x : list R) : list R := nth 0 x 0 :: repeat 0 (length x - 1).
Lemma flat_length x : (1 <= length x)%nat -> length (flat x) = length x.
Proof. intros H. unfold flat. cbn. rewrite repeat_length. lia. Qed.
Lemma flat_nth x i : (1 <= i)%nat -> nth i (flat x) 0 = 0.
Proof. intros H. unfold flat. destruct i; [lia |]. cbn [nth]. destruct (Nat.ltb_spec i (length x - 1)); [now apply nth_rep |]. apply nth_overflow. rewrite repeat_length. lia. Qed.
Lemma flat_tail T x : (1 <= length x)%nat -> tail T (flat x) = INR (length x - 1) * T 0.
Proof.
  intros H. unfold tail. rewrite flat_length by exact H. rewrite (rsum_ext _ (fun _ => T 0)); [rewrite rsum_const, seq_length; reflexivity |].
  intros i I. apply in_seq in I. rewrite flat_nth by lia. reflexivity.
Qed.

(** the boxes *)
Lemma rep_nth {A} (a d : A) m i : (i < m)%nat -> nth i (repeat a m) d = a.
Proof. revert i. induction m as [| m IH]; intros i H; [lia |]. destruct i; cbn; [reflexivity | apply IH; lia]. Qed.
Lemma box01 id dim x : (id =? 4)%Z = false -> in_bounds x (zdt_bounds Rar id dim) <-> length x = dim /\ forall i, (i < dim)%nat -> 0 <= nth i x 0 <= 1.
Proof.
  intros H. unfold in_bounds, zdt_bounds. rewrite H, !lit1. cbn [fst snd]. rewrite !repeat_length. split.
  - intros [L [_ B]]. split; [exact L |]. intros i I. specialize (B i). rewrite !rep_nth in B by exact I. apply B. lia.
  - intros [L B]. split; [exact L |]. split; [exact L |]. intros i I. rewrite !rep_nth by lia. apply B. lia.
Qed.
Lemma box4 dim x : (1 <= dim)%nat -> in_bounds x (zdt_bounds Rar 4 dim) <-> length x = dim /\ 0 <= nth 0 x 0 <= 1 /\ forall i, (1 <= i < dim)%nat -> -5 <= nth i x 0 <= 5.
Proof.
  intros H. destruct dim as [| m]; [lia |]. unfold in_bounds, zdt_bounds. cbn [Z.eqb Pos.eqb repeat fst snd length]. rewrite !lit1. rewrite !repeat_length. split.
  - intros [L [_ B]]. split; [exact L |]. split; [specialize (B 0%nat); cbn [nth] in B; apply B; lia |]. intros i I. specialize (B i). destruct i; [lia |]. cbn [nth] in B. rewrite !rep_nth in B by lia. apply B. lia.
  - intros [L [B0 B]]. split; [exact L |]. split; [exact L |]. intros i I. destruct i; [exact B0 |]. cbn [nth]. rewrite !rep_nth by lia. apply B. lia.
Qed.
Lemma adm0 b x : admissible b 0 x <-> in_bounds x b.
Proof. split; [now intros [H _] |]. intros H. split; [exact H |]. intros i I. lia. Qed.

(** growth of the second objective *)
Lemma root_inc a u v : 0 <= a <= 1 -> 1 <= u -> u < v -> u * (1 - sqrt (a / u)) < v * (1 - sqrt (a / v)).
Proof.
  intros A U V. rewrite !sqrt_div by lra. assert (SU : sqrt u * sqrt u = u) by (apply sqrt_sqrt; lra). assert (SV : sqrt v * sqrt v = v) by (apply sqrt_sqrt; lra).
  assert (U0 : 1 <= sqrt u) by (rewrite <- sqrt_1; apply sqrt_le_1; lra). assert (UV : sqrt u < sqrt v) by (apply sqrt_lt_1; lra).
  assert (A1 : sqrt a <= 1) by (rewrite <- sqrt_1; apply sqrt_le_1; lra). pose proof (sqrt_pos a) as A0.
  set (p := sqrt u) in *. set (q := sqrt v) in *. set (s := sqrt a) in *. rewrite <- SU, <- SV.
  replace (p * p * (1 - s / p)) with (p * p - s * p) by (field; lra). replace (q * q * (1 - s / q)) with (q * q - s * q) by (field; lra). nra.
Qed.
Lemma root_dec a b : 0 <= a <= 1 -> 0 <= b <= 1 -> a < b -> 1 * (1 - sqrt (b / 1)) < 1 * (1 - sqrt (a / 1)).
Proof. intros A B H. rewrite !Rdiv_1 || (replace (b / 1) with b by field; replace (a / 1) with a by field). assert (sqrt a < sqrt b) by (apply sqrt_lt_1; lra). lra. Qed.
Lemma square_inc a u v : 0 <= a <= 1 -> 1 <= u -> u < v -> u * (1 - a / u * (a / u)) < v * (1 - a / v * (a / v)).
Proof.
  intros A U V. replace (u * (1 - a / u * (a / u))) with (u - a * a * / u) by (field; lra). replace (v * (1 - a / v * (a / v))) with (v - a * a * / v) by (field; lra).
  assert (I : / v <= / u) by (apply Rinv_le_contravar; lra). assert (0 <= a * a) by nra. nra.
Qed.
Lemma square_dec a b : 0 <= a <= 1 -> 0 <= b <= 1 -> a < b -> 1 * (1 - b / 1 * (b / 1)) < 1 * (1 - a / 1 * (a / 1)).
Proof. intros A B H. replace (b / 1) with b by field. replace (a / 1) with a by field. nra. Qed.
Lemma wave_inc a u v : 0 <= a <= 1 -> 1 <= u -> u < v -> u * (1 - sqrt (a / u) - a / u * sin (10 * PI * a)) < v * (1 - sqrt (a / v) - a / v * sin (10 * PI * a)).
Proof.
  intros A U V. pose proof (root_inc a u v A U V). set (s := sin _). replace (u * (1 - sqrt (a / u) - a / u * s)) with (u * (1 - sqrt (a / u)) - a * s) by (field; lra).
  replace (v * (1 - sqrt (a / v) - a / v * s)) with (v * (1 - sqrt (a / v)) - a * s) by (field; lra). lra.
Qed.

(** problems 1, 2, 3 *)
Definition g123 (x : list R) : R := 1 + 9 * tail (fun v => v) x / INR (length x - 1).
Definition box (dim : nat) (x : list R) : Prop := length x = dim /\ forall i, (i < dim)%nat -> 0 <= nth i x 0 <= 1.
Lemma tail_nonneg T x : (forall i, (1 <= i < length x)%nat -> 0 <= T (nth i x 0)) -> 0 <= tail T x.
Proof. intros H. apply rsum_nonneg. intros i I. apply in_seq in I. apply H. lia. Qed.
Lemma g123_low dim x : (2 <= dim)%nat -> box dim x -> 1 <= g123 x.
Proof.
  intros N [L B]. unfold g123. assert (0 <= tail (fun v => v) x) by (apply tail_nonneg; intros i I; apply B; lia).
  assert (0 < INR (length x - 1)) by (apply lt_0_INR; lia). assert (0 <= 9 * tail (fun v => v) x / INR (length x - 1)); [| lra].
  apply Rmult_le_pos; [lra | left; now apply Rinv_0_lt_compat].
Qed.
Lemma flat_box dim x : (1 <= dim)%nat -> box dim x -> box dim (flat x).
Proof.
  intros N [L B]. split; [rewrite flat_length; lia |]. intros i I. destruct i as [| i]; [apply (B 0%nat); lia |]. rewrite flat_nth by lia. lra.
Qed.
Lemma flat_g123 x : (2 <= length x)%nat -> g123 (flat x) = 1.
Proof. intros H. unfold g123. rewrite flat_tail, flat_length by lia. assert (0 < INR (length x - 1)) by (apply lt_0_INR; lia). field. lra. Qed.
Lemma zdt123_dist dim x : (2 <= dim)%nat -> (Z.of_nat dim < 2 ^ 32)%Z -> box dim x -> zdt123_p_distance Rar x = Ok (g123 x - 1).
Proof.
  intros N M [L B]. unfold zdt123_p_distance. rewrite zdt_sum_R. cbn [bind]. rewrite size_less_one_R by lia. rewrite !lit1. unfold g123. f_equal. cbn [ar_add ar_sub ar_mul ar_div Rar]. ring.
Qed.
Definition h1 (a g : R) : R := g * (1 - sqrt (a / g)).
Definition h2 (a g : R) : R := g * (1 - a / g * (a / g)).
Definition h3 (a g : R) : R := g * (1 - sqrt (a / g) - a / g * sin (10 * PI * a)).
Lemma zdt1_value dim x : (2 <= dim)%nat -> (Z.of_nat dim < 2 ^ 32)%Z -> box dim x -> zdt1_fitness Rar x = Ok [nth 0 x 0; h1 (nth 0 x 0) (g123 x)].
Proof. intros N M [L B]. unfold zdt1_fitness. rewrite vget_nth by lia. cbn [bind]. rewrite zdt_sum_R. cbn [bind]. rewrite size_less_one_R by lia. rewrite !lit1. reflexivity. Qed.
Lemma zdt2_value dim x : (2 <= dim)%nat -> (Z.of_nat dim < 2 ^ 32)%Z -> box dim x -> zdt2_fitness Rar x = Ok [nth 0 x 0; h2 (nth 0 x 0) (g123 x)].
Proof. intros N M [L B]. unfold zdt2_fitness. rewrite vget_nth by lia. cbn [bind]. rewrite zdt_sum_R. cbn [bind]. rewrite size_less_one_R by lia. rewrite !lit1. reflexivity. Qed.
Lemma zdt3_value dim x : (2 <= dim)%nat -> (Z.of_nat dim < 2 ^ 32)%Z -> box dim x -> zdt3_fitness Rar x = Ok [nth 0 x 0; h3 (nth 0 x 0) (g123 x)].
Proof. intros N M [L B]. unfold zdt3_fitness. rewrite vget_nth by lia. cbn [bind]. rewrite zdt_sum_R. cbn [bind]. rewrite size_less_one_R by lia. rewrite !lit1. reflexivity. Qed.

(** problem 4 *)
Definition box_4 (dim : nat) (x : list R) : Prop := length x = dim /\ 0 <= nth 0 x 0 <= 1 /\ forall i, (1 <= i < dim)%nat -> -5 <= nth i x 0 <= 5.
Definition g4 (x : list R) : R := 1 + 10 * INR (length x - 1) + tail t4 x.
Lemma t4_low v : -10 <= t4 v.
Proof. unfold t4. pose proof (COS_bound (4 * PI * v)). pose proof (Rle_0_sqr v) as Q. unfold Rsqr in Q. lra. Qed.
Lemma g4_low x : 1 <= g4 x.
Proof.
  unfold g4. assert (INR (length x - 1) * -10 <= tail t4 x); [| lra]. unfold tail. replace (length x - 1)%nat with (length (seq 1 (length x - 1))) at 1 by apply seq_length.
  rewrite <- rsum_const. apply rsum_le. intros i _. apply t4_low.
Qed.
Lemma flat_g4 x : (1 <= length x)%nat -> g4 (flat x) = 1.
Proof. intros H. unfold g4. rewrite flat_tail, flat_length by lia. unfold t4. rewrite !Rmult_0_r, cos_0. ring. Qed.
Lemma flat_box4 dim x : (1 <= dim)%nat -> box_4 dim x -> box_4 dim (flat x).
Proof.
  intros N [L [B0 B]]. split; [rewrite flat_length; lia |]. split; [exact B0 |]. intros i I. rewrite flat_nth by lia. lra.
Qed.
Lemma zdt4_value dim x : (2 <= dim)%nat -> (Z.of_nat dim < 2 ^ 32)%Z -> box_4 dim x -> zdt4_fitness Rar x = Ok [nth 0 x 0; h1 (nth 0 x 0) (g4 x)].
Proof. intros N M [L B]. unfold zdt4_fitness. rewrite vget_nth by lia. cbn [bind]. rewrite size_less_one_R by lia. rewrite zdt4_loop_R. cbn [bind]. rewrite !lit1. reflexivity. Qed.
Lemma zdt4_dist dim x : (2 <= dim)%nat -> (Z.of_nat dim < 2 ^ 32)%Z -> box_4 dim x -> zdt4_p_distance Rar x = Ok (g4 x - 1).
Proof. intros N M [L B]. unfold zdt4_p_distance. rewrite zdt4_loop_R. cbn [bind]. rewrite size_less_one_R by lia. rewrite !lit1. unfold g4. f_equal. cbn [ar_add ar_sub ar_mul ar_div Rar]. ring. Qed.

(** problem 6 *)
Definition f6 (x : list R) : R := 1 - exp (-4 * nth 0 x 0) * sin (6 * PI * nth 0 x 0) ^ 6.
Definition g6 (x : list R) : R := 1 + 9 * rpow (tail (fun v => v) x / INR (length x - 1)) (25 / 100).
Lemma f6_range dim x : (1 <= dim)%nat -> box dim x -> 0 <= f6 x <= 1.
Proof.
  intros N [L B]. unfold f6. specialize (B 0%nat). assert (B0 : 0 <= nth 0 x 0 <= 1) by (apply B; lia).
  assert (E : 0 < exp (-4 * nth 0 x 0) <= 1). { split; [apply exp_pos |]. apply Rle_trans with (exp 0); [apply exp_mono; lra | rewrite exp_0; lra]. }
  set (s := sin _). assert (S : 0 <= s ^ 6 <= 1). { pose proof (SIN_bound (6 * PI * nth 0 x 0)) as Q. fold s in Q. replace (s ^ 6) with ((s * s) * (s * s) * (s * s)) by ring. assert (Q2 : 0 <= s * s <= 1) by nra. set (w := s * s) in *. assert (0 <= w * w <= 1) by nra. nra. }
  nra.
Qed.
Lemma rpow_quarter_nonneg a : 0 <= a -> 0 <= rpow a (25 / 100).
Proof.
  intros H. unfold rpow. destruct (Rlt_dec 0 a) as [P | P]; [left; apply exp_pos |]. assert (a = 0) by lra. subst. destruct (Req_EM_T _ _) as [Q | Q]; [| lra]. exfalso.
  set (k := Int_part (25 / 100)) in *. assert (K : 0 < IZR k < 1) by lra. destruct K as [K1 K2]. apply lt_IZR in K1, K2. lia.
Qed.
Lemma rpow_quarter_0 : rpow 0 (25 / 100) = 0.
Proof.
  unfold rpow. destruct (Rlt_dec 0 0) as [P | P]; [lra |]. destruct (Req_EM_T _ _) as [Q | Q]; [| reflexivity]. exfalso.
  set (k := Int_part (25 / 100)) in *. assert (K : 0 < IZR k < 1) by lra. destruct K as [K1 K2]. apply lt_IZR in K1, K2. lia.
Qed.
Lemma g6_low dim x : (2 <= dim)%nat -> box dim x -> 1 <= g6 x.
Proof.
  intros N [L B]. unfold g6. assert (T : 0 <= tail (fun v => v) x) by (apply tail_nonneg; intros i I; apply B; lia). assert (0 < INR (length x - 1)) by (apply lt_0_INR; lia).
  assert (0 <= rpow (tail (fun v => v) x / INR (length x - 1)) (25 / 100)); [| lra]. apply rpow_quarter_nonneg. apply Rmult_le_pos; [lra | left; now apply Rinv_0_lt_compat].
Qed.
Lemma flat_g6 x : (2 <= length x)%nat -> g6 (flat x) = 1.
Proof. intros H. unfold g6. rewrite flat_tail, flat_length by lia. assert (0 < INR (length x - 1)) by (apply lt_0_INR; lia). replace (INR (length x - 1) * 0 / INR (length x - 1)) with 0 by (field; lra). rewrite rpow_quarter_0. ring. Qed.
Lemma zdt6_value dim x : (2 <= dim)%nat -> (Z.of_nat dim < 2 ^ 32)%Z -> box dim x -> zdt6_fitness Rar x = Ok [f6 x; h2 (f6 x) (g6 x)].
Proof.
  intros N M [L B]. unfold zdt6_fitness. rewrite vget_nth by lia. cbn [bind]. rewrite zdt_sum_R. cbn [bind]. rewrite size_less_one_R by lia. rewrite !lit1.
  assert (P6 : forall s, ar_pow Rar s 6 = s ^ 6) by (intros s; change 6 with (IZR (Z.of_nat 6)); apply rpow_nat). rewrite !P6. reflexivity.
Qed.
Lemma zdt6_dist dim x : (2 <= dim)%nat -> (Z.of_nat dim < 2 ^ 32)%Z -> box dim x -> zdt6_p_distance Rar x = Ok (g6 x - 1).
Proof.
  intros N M [L B]. unfold zdt6_p_distance. rewrite zdt_sum_R. cbn [bind]. rewrite size_less_one_R by lia. rewrite !lit1. unfold g6. f_equal. cbn [ar_add ar_sub ar_mul ar_div ar_pow ar_lit Rar]. ring.
Qed.
