(** Facts on the numerical derivatives: statements for users, exact arithmetic. *)
From Coq Require Import List Bool Arith ZArith QArith Qabs Qfield Lia Lqa.
From Verif Require Import Dbl IntDbl Outcome StdSort BaseFacts Problem SpecProblem ProblemFacts Gradients SpecGradients GradientsFacts.
Import ListNotations.
Local Open Scope nat_scope.

Section U.
Context {A : Type} (o : ops A) (f : list A -> outcome (list A)) (x : list A) (dx : A).
Lemma step_is xj : step_size o dx xj = step o dx xj.
Proof. reflexivity. Qed.
Lemma in_points probes pts : (forall xj, map (fun pr => pr xj (step o dx xj)) probes = pts xj) -> forall j xj y, nth_error x j = Some xj ->
  (In y (points o x dx probes j xj) <-> exists v, In v (pts xj) /\ moved x j v y).
Proof.
  intros HP j xj y E. assert (Hj : j < length x) by (apply nth_error_Some; congruence). unfold points. rewrite in_map_iff. rewrite <- HP. split.
  - intros (pr & <- & I). exists (pr xj (step o dx xj)). split; [apply in_map_iff; exists pr; auto|]. now apply moved_upd.
  - intros (v & I & M). apply in_map_iff in I. destruct I as (pr & <- & I). exists pr. split; [symmetry; apply moved_unique; exact M|exact I].
Qed.
Lemma value_upd j v nf i a w : j < length x -> f (upd x j v) = Ok w -> length w = nf -> nth_error w i = Some a -> value_at f x j v nf i a.
Proof. intros H E L N. exists (upd x j v), w. split; [now apply moved_upd|auto]. Qed.

Lemma gradient_entries G : estimate_gradient o f x dx = Ok G -> exists f0, f x = Ok f0 /\ length G = length f0 * length x /\
  forall i j xj, i < length f0 -> nth_error x j = Some xj -> let h := step o dx xj in
    exists a b, value_at f x j (o_add o xj h) (length f0) i a /\ value_at f x j (o_sub o xj h) (length f0) i b /\
      nth_error G (j + i * length x) = Some (o_div o (o_div o (o_sub o a b) (o_num o 2)) h).
Proof.
  intros H. destruct (with_entries o f x dx _ _ G H) as (f0 & E & L & En). exists f0. split; [exact E|]. split; [exact L|]. intros i j xj Hi Ej h.
  assert (Hj : j < length x) by (apply nth_error_Some; congruence). destruct (En j Hj i xj Hi Ej) as (ws & vs & F1 & F2 & N).
  unfold points, probes2 in F1. cbn [map] in F1. inversion F1 as [|? w1 ? ws1 [A1 L1] F1']; subst. inversion F1' as [|? w2 ? ws2 [A2 L2] F1'']; subst. inversion F1''; subst.
  inversion F2 as [|? v1 ? vs1 B1 F2']; subst. inversion F2' as [|? v2 ? vs2 B2 F2'']; subst. inversion F2''; subst. exists v1, v2.
  split; [eapply value_upd; eauto|]. split; [eapply value_upd; eauto|exact N].
Qed.
Lemma gradient_h_entries G : estimate_gradient_h o f x dx = Ok G -> exists f0, f x = Ok f0 /\ length G = length f0 * length x /\
  forall i j xj, i < length f0 -> nth_error x j = Some xj -> let h := step o dx xj in let n := o_num o in
    exists r1 l1 r2 l2 r3 l3,
      value_at f x j (o_add o xj h) (length f0) i r1 /\ value_at f x j (o_sub o xj h) (length f0) i l1 /\
      value_at f x j (o_add o xj (o_mul o (n 2%Z) h)) (length f0) i r2 /\ value_at f x j (o_sub o xj (o_mul o (n 2%Z) h)) (length f0) i l2 /\
      value_at f x j (o_add o xj (o_mul o (n 3%Z) h)) (length f0) i r3 /\ value_at f x j (o_sub o xj (o_mul o (n 3%Z) h)) (length f0) i l3 /\
      nth_error G (j + i * length x) = Some (o_div o
        (o_add o (o_sub o (o_mul o (n 15%Z) (o_div o (o_sub o r1 l1) (n 2%Z))) (o_mul o (n 6%Z) (o_div o (o_sub o r2 l2) (n 4%Z))))
                 (o_div o (o_sub o r3 l3) (n 6%Z))) (o_mul o (n 10%Z) h)).
Proof.
  intros H. destruct (with_entries o f x dx _ _ G H) as (f0 & E & L & En). exists f0. split; [exact E|]. split; [exact L|]. intros i j xj Hi Ej h n.
  assert (Hj : j < length x) by (apply nth_error_Some; congruence). destruct (En j Hj i xj Hi Ej) as (ws & vs & F1 & F2 & N).
  unfold points, probes6 in F1. cbn [map] in F1.
  inversion F1 as [|? w1 ? ws1 [A1 L1] F1a]; subst. inversion F1a as [|? w2 ? ws2 [A2 L2] F1b]; subst. inversion F1b as [|? w3 ? ws3 [A3 L3] F1c]; subst. inversion F1c as [|? w4 ? ws4 [A4 L4] F1d]; subst.
  inversion F1d as [|? w5 ? ws5 [A5 L5] F1e]; subst. inversion F1e as [|? w6 ? ws6 [A6 L6] F1f]; subst. inversion F1f; subst. clear F1 F1a F1b F1c F1d F1e F1f.
  inversion F2 as [|? v1 ? vs1 B1 F2a]; subst. inversion F2a as [|? v2 ? vs2 B2 F2b]; subst. inversion F2b as [|? v3 ? vs3 B3 F2c]; subst. inversion F2c as [|? v4 ? vs4 B4 F2d]; subst.
  inversion F2d as [|? v5 ? vs5 B5 F2e]; subst. inversion F2e as [|? v6 ? vs6 B6 F2f]; subst. inversion F2f; subst. clear F2 F2a F2b F2c F2d F2e F2f.
  exists v1, v2, v3, v4, v5, v6.
  split; [exact (value_upd j _ _ i _ w1 Hj A1 L1 B1)|]. split; [exact (value_upd j _ _ i _ w2 Hj A2 L2 B2)|]. split; [exact (value_upd j _ _ i _ w3 Hj A3 L3 B3)|]. split; [exact (value_upd j _ _ i _ w4 Hj A4 L4 B4)|].
  split; [exact (value_upd j _ _ i _ w5 Hj A5 L5 B5)|]. split; [exact (value_upd j _ _ i _ w6 Hj A6 L6 B6)|exact N].
Qed.
Lemma with_outcome probes formula pts f0 : (forall xj, map (fun pr => pr xj (step o dx xj)) probes = pts xj) -> f x = Ok f0 ->
  (calls_have_size pts f x (length f0) -> exists G, estimate_with o f x dx probes formula = Ok G) /\
  (calls_return pts f x -> some_call_differs pts f x (length f0) -> estimate_with o f x dx probes formula = Throw InvalidArgument).
Proof.
  intros HP E. split.
  - intros H. apply (with_succeeds o f x dx probes formula f0 E). intros j xj y Ej Hy. apply (in_points probes pts HP j xj y Ej) in Hy. destruct Hy as (v & I & M). exact (H j xj v y Ej I M).
  - intros H (j & xj & v & y & w & Ej & I & M & Ew & Lw). apply (with_throws o f x dx probes formula f0 E).
    + intros j' xj' y' Ej' Hy. apply (in_points probes pts HP j' xj' y' Ej') in Hy. destruct Hy as (v' & I' & M'). exact (H j' xj' v' y' Ej' I' M').
    + exists j, xj, y, w. split; [exact Ej|]. split; [apply (in_points probes pts HP j xj y Ej); eauto|auto].
Qed.
Lemma gradient_outcome f0 : f x = Ok f0 ->
  ((calls_have_size (two_points o dx) f x (length f0) -> exists G, estimate_gradient o f x dx = Ok G) /\
   (calls_return (two_points o dx) f x -> some_call_differs (two_points o dx) f x (length f0) -> estimate_gradient o f x dx = Throw InvalidArgument)) /\
  ((calls_have_size (six_points o dx) f x (length f0) -> exists G, estimate_gradient_h o f x dx = Ok G) /\
   (calls_return (six_points o dx) f x -> some_call_differs (six_points o dx) f x (length f0) -> estimate_gradient_h o f x dx = Throw InvalidArgument)).
Proof. intros E. split; apply with_outcome; auto. Qed.
Lemma sparsity_entries srt S : sort_contract srt -> estimate_sparsity o f x dx srt = Ok S -> exists f0, f x = Ok f0 /\
  good_gradient_pattern (length f0) (length x) S /\ check_gradient_sparsity (length f0) (length x) S = Ok tt /\
  forall i j, In (i, j) S <-> exists xj y w a b, nth_error x j = Some xj /\ moved x j (o_add o xj (step o dx xj)) y /\ f y = Ok w /\
     nth_error w i = Some a /\ nth_error f0 i = Some b /\ o_neq o a b = true.
Proof.
  intros C H. destruct (sparsity_result o f x dx srt C S H) as (f0 & E & G & I). exists f0. split; [exact E|]. split; [exact G|]. split; [destruct (check_gradient_spec (length f0) (length x) S) as [[K _]|[_ K]]; [exact K|contradiction]|].
  intros i j. rewrite I. split.
  - intros (xj & w & a & b & Ej & Ew & Ea & Eb & N). exists xj, (sp_point o x dx j xj), w, a, b. split; [exact Ej|]. split; [apply moved_upd; apply nth_error_Some; congruence|auto].
  - intros (xj & y & w & a & b & Ej & M & Ew & Ea & Eb & N). exists xj, w, a, b. split; [exact Ej|]. split; [|auto]. rewrite (moved_unique _ _ _ _ M) in Ew. exact Ew.
Qed.
Lemma sparsity_outcome srt f0 : sort_contract srt -> f x = Ok f0 ->
  (calls_have_size (one_point o dx) f x (length f0) -> exists S, estimate_sparsity o f x dx srt = Ok S) /\
  (calls_return (one_point o dx) f x -> some_call_differs (one_point o dx) f x (length f0) -> estimate_sparsity o f x dx srt = Throw InvalidArgument).
Proof.
  intros C E. split.
  - intros H. apply (sparsity_succeeds o f x dx srt f0 C E). intros j xj Ej. apply (H j xj (o_add o xj (step o dx xj)) _ Ej); [left; reflexivity|]. apply moved_upd. apply nth_error_Some. congruence.
  - intros H (j & xj & v & y & w & Ej & [<-|[]] & M & Ew & Lw). apply (sparsity_throws o f x dx srt f0 E).
    + intros j' xj' Ej'. apply (H j' xj' (o_add o xj' (step o dx xj')) _ Ej'); [left; reflexivity|]. apply moved_upd. apply nth_error_Some. congruence.
    + exists j, xj, w. split; [exact Ej|]. rewrite (moved_unique _ _ _ _ M) in Ew. auto.
Qed.
End U.

(** ** Exact arithmetic *)
Local Open Scope Q_scope.
Lemma qstep_pos dx xj : ~ dx == 0 -> ~ step Qops dx xj == 0.
Proof.
  intros D. unfold step, Qops. cbn [o_mul o_max o_abs o_num]. destruct (Qle_bool (inject_Z 1) (Qabs xj)) eqn:E; intros H; apply Qmult_integral in H; destruct H as [H|H]; try contradiction.
  - apply Qle_bool_iff in E. change (inject_Z 1) with 1 in E. lra.
  - change (inject_Z 1) with 1 in H. lra.
Qed.
Lemma formula2_exact c0 c1 c2 x h : ~ h == 0 ->
  (peval [c0; c1; c2] (x + h) - peval [c0; c1; c2] (x - h)) / 2 / h == pderiv [c0; c1; c2] x.
Proof. intros H. unfold pderiv. cbn [peval dcoefs Z.add Pos.add Pos.succ]. unfold inject_Z. field. exact H. Qed.
Lemma formula6_exact c0 c1 c2 c3 c4 c5 c6 x h : ~ h == 0 -> let P := peval [c0; c1; c2; c3; c4; c5; c6] in
  (15 * ((P (x + h) - P (x - h)) / 2) - 6 * ((P (x + 2 * h) - P (x - 2 * h)) / 4) + (P (x + 3 * h) - P (x - 3 * h)) / 6) / (10 * h) == pderiv [c0; c1; c2; c3; c4; c5; c6] x.
Proof. intros H P. unfold P, pderiv. cbn [peval dcoefs Z.add Pos.add Pos.succ]. unfold inject_Z. field. exact H. Qed.
Lemma value_poly f x nf i j c v a : polynomial_in f x nf i j c -> value_at f x j v nf i a -> a == peval c v.
Proof. intros P (y & w & M & E & L & N). destruct (P v y M) as (w' & a' & E' & L' & N' & H). assert (w' = w) by congruence. subst w'. assert (a' = a) by congruence. subst a'. exact H. Qed.
Lemma gradient_exact f x dx G f0 : ~ dx == 0 -> estimate_gradient Qops f x dx = Ok G -> f x = Ok f0 ->
  forall i j xj c0 c1 c2, (i < length f0)%nat -> nth_error x j = Some xj -> polynomial_in f x (length f0) i j [c0; c1; c2] ->
    exists d, nth_error G (j + i * length x) = Some d /\ d == c1 + 2 * c2 * xj.
Proof.
  intros D H E i j xj c0 c1 c2 Hi Ej P. destruct (gradient_entries Qops f x dx G H) as (f0' & E' & _ & En). assert (f0' = f0) by congruence. subst f0'.
  destruct (En i j xj Hi Ej) as (a & b & Va & Vb & N). eexists. split; [exact N|]. pose proof (value_poly _ _ _ _ _ _ _ _ P Va) as Ea. pose proof (value_poly _ _ _ _ _ _ _ _ P Vb) as Eb.
  pose proof (qstep_pos dx xj D) as NZ. set (h := step Qops dx xj) in *. cbn [Qops o_add o_sub o_mul o_div o_num] in *. rewrite Ea, Eb. change (inject_Z 2) with 2. rewrite (formula2_exact c0 c1 c2 xj h NZ).
  unfold pderiv. cbn [peval dcoefs Z.add Pos.add Pos.succ]. unfold inject_Z. ring.
Qed.
Lemma gradient_h_exact f x dx G f0 : ~ dx == 0 -> estimate_gradient_h Qops f x dx = Ok G -> f x = Ok f0 ->
  forall i j xj c0 c1 c2 c3 c4 c5 c6, (i < length f0)%nat -> nth_error x j = Some xj -> polynomial_in f x (length f0) i j [c0; c1; c2; c3; c4; c5; c6] ->
    exists d, nth_error G (j + i * length x) = Some d /\ d == pderiv [c0; c1; c2; c3; c4; c5; c6] xj.
Proof.
  intros D H E i j xj c0 c1 c2 c3 c4 c5 c6 Hi Ej P. destruct (gradient_h_entries Qops f x dx G H) as (f0' & E' & _ & En). assert (f0' = f0) by congruence. subst f0'.
  destruct (En i j xj Hi Ej) as (r1 & l1 & r2 & l2 & r3 & l3 & V1 & W1 & V2 & W2 & V3 & W3 & N). eexists. split; [exact N|].
  pose proof (qstep_pos dx xj D) as NZ. pose proof (formula6_exact c0 c1 c2 c3 c4 c5 c6 xj (step Qops dx xj) NZ) as FX. cbv zeta in FX. rewrite <- FX. clear FX N En.
  cbn [Qops o_add o_sub o_mul o_div o_num] in *.
  rewrite (value_poly _ _ _ _ _ _ _ _ P V1), (value_poly _ _ _ _ _ _ _ _ P W1), (value_poly _ _ _ _ _ _ _ _ P V2), (value_poly _ _ _ _ _ _ _ _ P W2), (value_poly _ _ _ _ _ _ _ _ P V3), (value_poly _ _ _ _ _ _ _ _ P W3).
  reflexivity.
Qed.
(** A dependency the probe does not show *)
Definition f_bump (v : list Q) : outcome (list Q) := match v with [a] => Ok [(a - 1) * (a - 2)] | _ => UB end.
Lemma sparsity_misses : exists f x dx y w, estimate_sparsity Qops f x dx (@isort) = Ok [] /\ moved x 0 3 y /\ f y = Ok [w] /\
  exists w0, f x = Ok [w0] /\ ~ w == w0.
Proof.
  exists f_bump, [1], 1, [3], ((3 - 1) * (3 - 2)). split; [reflexivity|]. split.
  - split; [reflexivity|]. split; [cbn; lia|]. split; [reflexivity|]. intros [|k] D; [congruence|reflexivity].
  - split; [reflexivity|]. eexists. split; [reflexivity|]. intros C. vm_compute in C. discriminate.
Qed.
