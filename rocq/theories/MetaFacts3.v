(** Facts on unconstrain: penalties, batch mode; decompose. *)
From Coq Require Import List Bool Arith ZArith Lia.
From Verif Require Import Dbl DblFacts IntDbl Outcome BaseFacts Constrained SpecConstrained ConstrainedFacts ConstrainedFacts2 MultiObj Problem Bfe BfeFacts SpecProblem ProblemFacts ProblemFacts2 ProblemFacts3 PoliciesFacts HvFacts5 HvFacts6 GenericFacts MetaProblems SpecMeta MetaFacts MetaFacts2.
Import ListNotations.
Local Opaque one_z Z.pow.

Lemma rnd_between n lo hi d : (0 < d)%Z -> (lo * d <= n <= hi * d)%Z -> is_double (Fin lo) -> is_double (Fin hi) ->
  exists z, rnd n d = Fin z /\ (lo <= z <= hi)%Z.
Proof.
  intros Hd [H1 H2] D1 D2.
  assert (EX : forall k, is_double (Fin k) -> rnd (k * d) d = Fin k).
  { intros k (m & e & -> & He & Hm & Hz). unfold rnd. rewrite Z.abs_mul, (Z.abs_eq d) by lia. rewrite Z.abs_mul, (Z.abs_eq (2 ^ e)) by (pose proof (pow2_pos e ltac:(lia)); lia).
    rewrite rnd_nat_exact by lia. assert (A : (Z.abs m * 2 ^ e = Z.abs (m * 2 ^ e))%Z) by (rewrite Z.abs_mul, (Z.abs_eq (2 ^ e)) by (pose proof (pow2_pos e ltac:(lia)); lia); reflexivity).
    rewrite A. destruct (Z.leb_spec ovf_z (Z.abs (m * 2 ^ e))); [lia|]. f_equal. rewrite Z.sgn_mul, (Z.sgn_pos d) by lia. rewrite Z.mul_1_r. rewrite Z.mul_comm. apply Z.abs_sgn. }
  pose proof (rnd_mono _ _ d Hd H1) as M1. pose proof (rnd_mono _ _ d Hd H2) as M2. rewrite (EX _ D1) in M1. rewrite (EX _ D2) in M2.
  destruct (rnd n d) as [| |z|]; try discriminate. exists z. split; [reflexivity|]. apply dle_fin in M1, M2. lia.
Qed.
Lemma pow_split a b : (0 <= a)%Z -> (0 <= b)%Z -> (2 ^ (a + b) = 2 ^ a * 2 ^ b)%Z.
Proof. intros. apply Z.pow_add_r; assumption. Qed.
Lemma one_split : (one_z = 2 ^ 53 * 2 ^ 1021)%Z.
Proof. rewrite <- pow_split by lia. reflexivity. Qed.
Definition ratio (n nc : nat) : dbl := ddiv (d_of_Z (Z.of_nat n)) (d_of_Z (Z.of_nat nc)).
Lemma ratio_rnd n nc : n < nc -> (Z.of_nat nc < 2 ^ 53)%Z ->
  ratio n nc = rnd (Z.of_nat n * one_z * one_z) (Z.of_nat nc * one_z).
Proof.
  intros H B. unfold ratio. rewrite !d_of_Z_int by lia. unfold ddiv, dint. pose proof one_z_pos as P.
  destruct (Z.eqb_spec (Z.of_nat nc * one_z) 0); [nia|]. destruct (Z.ltb_spec (Z.of_nat nc * one_z) 0); [nia|]. reflexivity.
Qed.
Lemma dsc_is k a : (0 <= k < 2 ^ 53)%Z -> (0 <= a <= 2045)%Z -> is_double (Fin (k * 2 ^ a)).
Proof. intros. apply (dsc_double k a 53); lia. Qed.
Lemma ratio_range n nc : n < nc -> (Z.of_nat nc < 2 ^ 53)%Z -> exists z, ratio n nc = Fin z /\ (0 <= z <= (2 ^ 53 - 1) * 2 ^ 1021)%Z.
Proof.
  intros H B. rewrite ratio_rnd by assumption. pose proof one_z_pos as P. apply rnd_between; [nia| |apply (dsc_is 0 0); lia|apply dsc_is; lia].
  split; [nia|]. rewrite one_split at 1. pose proof (pow2_pos 1021 ltac:(lia)) as Q. set (q := (2 ^ 1021)%Z) in *. set (N := (2 ^ 53)%Z) in *.
  replace (Z.of_nat n * (N * q) * one_z)%Z with ((Z.of_nat n * N) * (q * one_z))%Z by ring.
  replace ((N - 1) * q * (Z.of_nat nc * one_z))%Z with (((N - 1) * Z.of_nat nc) * (q * one_z))%Z by ring.
  apply Z.mul_le_mono_nonneg_r; nia.
Qed.
Lemma ratio_mono n n' nc z z' : n <= n' -> n' < nc -> (Z.of_nat nc < 2 ^ 53)%Z -> ratio n nc = Fin z -> ratio n' nc = Fin z' -> (z <= z')%Z.
Proof.
  intros H1 H2 B E E'. rewrite ratio_rnd in E, E' by (assumption || lia). pose proof one_z_pos as P. apply dle_fin. rewrite <- E, <- E'. apply rnd_mono; [nia|].
  apply Z.mul_le_mono_nonneg_r; [lia|]. apply Z.mul_le_mono_nonneg_r; lia.
Qed.
Lemma rest_range z : (0 <= z <= (2 ^ 53 - 1) * 2 ^ 1021)%Z -> exists y, dsub done (Fin z) = Fin y /\ (2 ^ 1021 <= y <= one_z)%Z.
Proof.
  intros H. unfold dsub, done, dneg, dadd. apply rnd_between; [lia| | |].
  - rewrite !Z.mul_1_r. rewrite one_split. lia.
  - rewrite <- (Z.mul_1_l (2 ^ 1021)). apply dsc_is; lia.
  - change (Fin one_z) with done. rewrite done_int. apply is_double_int. reflexivity.
Qed.
Lemma max_double : is_double dbl_max.
Proof. apply dsc_is; lia. Qed.
Lemma max_mul_range y : (2 ^ 1021 <= y <= one_z)%Z -> exists k, dmul dbl_max (Fin y) = Fin k /\ ((2 ^ 53 - 1) * 2 ^ 1992 <= k <= (2 ^ 53 - 1) * 2 ^ 2045)%Z.
Proof.
  intros H. unfold dmul, dbl_max. apply rnd_between; [apply one_z_pos| |apply dsc_is; lia|apply dsc_is; lia].
  pose proof (pow2_pos 2045 ltac:(lia)) as Q. split.
  - rewrite one_split. apply Z.le_trans with ((2 ^ 53 - 1) * 2 ^ 2045 * 2 ^ 1021)%Z; [|apply Z.mul_le_mono_nonneg_l; lia].
    replace (2 ^ 2045)%Z with (2 ^ 1992 * 2 ^ 53)%Z by (rewrite <- pow_split by lia; reflexivity). apply Z.eq_le_incl. ring.
  - apply Z.mul_le_mono_nonneg_l; lia.
Qed.
Lemma kuri_range n nc : n < nc -> (Z.of_nat nc < 2 ^ 53)%Z -> dlt dzero (kuri_penalty n nc) = true /\ dle (kuri_penalty n nc) dbl_max = true.
Proof.
  intros H B. unfold kuri_penalty. fold (ratio n nc). destruct (ratio_range n nc H B) as (z & -> & Hz). destruct (rest_range z Hz) as (y & -> & Hy). destruct (max_mul_range y Hy) as (k & -> & Hk).
  pose proof (pow2_pos 1992 ltac:(lia)) as Q. split; [unfold dzero, dlt; apply Z.ltb_lt; nia|unfold dbl_max; apply dle_fin; lia].
Qed.
Lemma kuri_antitone n n' nc : n <= n' -> n' < nc -> (Z.of_nat nc < 2 ^ 53)%Z -> dle (kuri_penalty n' nc) (kuri_penalty n nc) = true.
Proof.
  intros H1 H2 B. unfold kuri_penalty. fold (ratio n nc). fold (ratio n' nc). destruct (ratio_range n nc ltac:(lia) B) as (z & Ez & Hz). destruct (ratio_range n' nc H2 B) as (z' & Ez' & Hz').
  pose proof (ratio_mono n n' nc z z' H1 H2 B Ez Ez') as M. rewrite Ez, Ez'. destruct (rest_range z Hz) as (y & Ey & Hy). destruct (rest_range z' Hz') as (y' & Ey' & Hy').
  assert (MY : (y' <= y)%Z). { apply dle_fin. rewrite <- Ey, <- Ey'. unfold dsub, done, dneg, dadd. apply rnd_mono; lia. }
  rewrite Ey, Ey'. unfold dmul, dbl_max. apply rnd_mono; [apply one_z_pos|]. apply Z.mul_le_mono_nonneg_l; [|exact MY]. pose proof (pow2_pos 2045 ltac:(lia)). nia.
Qed.

(** Weighted: never below the original objective *)
Lemma real_tol p t : real_problem p -> In t (p_ctol p) -> dle dzero t = true.
Proof.
  intros (u & p0 & C & H) I. destruct (construct_spec u) as [(p' & E & G & B)|[E _]]; [|congruence]. rewrite C in E. injection E as <-.
  destruct H as [->|(t0 & H)].
  - destruct B as (_ & _ & _ & _ & _ & _ & _ & _ & _ & _ & B). rewrite B in I. apply repeat_spec in I. subst t. reflexivity.
  - destruct (set_c_tol_spec p0 t0) as [(K & _ & P)|[K _]]; [|congruence]. rewrite K in H. injection H as <-. cbn in I. exact (P t I).
Qed.
Lemma off_ok p f i : real_problem p -> length f = get_nf p -> finite_all (p_ctol p) -> Forall is_double f -> finite_all f -> i < get_nc p ->
  dle (con_off p f i) dzero = false -> exists z, con_off p f i = Fin z /\ (0 <= z)%Z.
Proof.
  intros R L F D FF Hi. destruct (real_bounds p R) as (_ & _ & _ & _ & LT & NF). unfold get_nc in *.
  destruct (nth_error f (p_nobj p + i)) as [c|] eqn:Ec; [|apply nth_error_None in Ec; lia]. destruct (nth_error (p_ctol p) i) as [t|] eqn:Et; [|apply nth_error_None in Et; lia].
  unfold con_off. rewrite (nth_error_nth _ _ NaN Ec), (nth_error_nth _ _ NaN Et). unfold finite_all in *. rewrite Forall_forall in *.
  pose proof (F t (nth_error_In _ _ Et)) as Ft. pose proof (FF c (nth_error_In _ _ Ec)) as Fc. pose proof (D c (nth_error_In _ _ Ec)) as Dc. pose proof (real_tol p t R (nth_error_In _ _ Et)) as Pt.
  destruct t as [| |tz|]; try discriminate. destruct c as [| |cz|]; try discriminate. apply dle_fin in Pt. intros H.
  assert (X : exists az, (if Nat.ltb i (p_nec p) then dabs (Fin cz) else Fin cz) = Fin az /\ is_double (Fin az)).
  { destruct (Nat.ltb i (p_nec p)); [|eauto]. exists (Z.abs cz). split; [reflexivity|]. destruct Dc as (m & e & -> & He & Hm & Hz). exists (Z.abs m), e. rewrite Z.abs_mul, (Z.abs_eq (2 ^ e)) by (pose proof (pow2_pos e He); lia).
    split; [reflexivity|]. split; [exact He|]. split; [lia|]. rewrite Z.abs_mul, Z.abs_involutive, (Z.abs_eq (2 ^ e)) by (pose proof (pow2_pos e He); lia). rewrite Z.abs_mul, (Z.abs_eq (2 ^ e)) in Hz by (pose proof (pow2_pos e He); lia). exact Hz. }
  destruct X as (az & EX & DX). rewrite EX in H |- *. unfold dsub, dneg, dadd in *.
  pose proof (rnd_le_zero (az + - tz)) as K. assert (N : (0 < az + - tz)%Z). { destruct (Z.le_gt_cases (az + - tz) 0) as [G|G]; [apply K in G; congruence|exact G]. }
  destruct (rnd_between (az + - tz) 0 az 1) as (z & E & B); [lia|lia|apply (dsc_is 0 0); lia|exact DX|]. rewrite E. exists z. split; [reflexivity|lia].
Qed.
Lemma weighted_nonneg p w f : real_problem p -> length f = get_nf p -> finite_all (p_ctol p) -> Forall is_double f -> finite_all f ->
  length w = get_nc p -> finite_all w -> (forall x, In x w -> dle dzero x = true) -> nonneg (weighted_violation p w f).
Proof.
  intros R L F D FF LW FW PW. unfold weighted_violation.
  assert (G : forall l, (forall i, In i l -> i < get_nc p) -> forall s, nonneg s ->
    nonneg (fold_left (fun s i => if dle (con_off p f i) dzero then s else dadd s (dmul (nth i w NaN) (con_off p f i))) l s)).
  { induction l as [|i l IH]; intros H s Hs; [exact Hs|]. cbn [fold_left]. apply IH; [intros; apply H; right; assumption|]. destruct (dle (con_off p f i) dzero) eqn:E; [exact Hs|].
    apply dadd_nonneg; [exact Hs|]. assert (Hi : i < get_nc p) by (apply H; left; reflexivity). destruct (off_ok p f i R L F D FF Hi E) as (z & -> & Hz).
    destruct (nth_error w i) as [x|] eqn:Ew; [|apply nth_error_None in Ew; lia]. rewrite (nth_error_nth _ _ NaN Ew). pose proof (nth_error_In _ _ Ew) as I. unfold finite_all in FW. rewrite Forall_forall in FW.
    pose proof (FW x I) as Fx. pose proof (PW x I) as Px. destruct x as [| |xz|]; try discriminate. apply dle_fin in Px. unfold dmul. apply rnd_nonneg; [nia|apply one_z_pos]. }
  apply G; [intros i Hi; apply in_seq in Hi; lia|reflexivity].
Qed.
Lemma add_ge a b : is_double a -> isfinite a = true -> nonneg b -> dle a (dadd a b) = true.
Proof.
  intros D Fa H. destruct a as [| |z|]; try discriminate. apply nonneg_cases in H. destruct H as [->|(k & -> & Hk)]; [reflexivity|].
  unfold dadd. rewrite <- (rnd_exact z D) at 1. apply rnd_mono; lia.
Qed.
Lemma weighted_ge p w u x f v : real_problem p -> finite_all (p_ctol p) -> unconstrain_udp p UWeighted w = Ok u -> fst (fitness p 0 x) = Ok f ->
  Forall is_double f -> finite_all f -> finite_all w -> (forall k, In k w -> dle dzero k = true) -> u_fitness u x = Ok v ->
  forall i a b, i < p_nobj p -> nth_error f i = Some a -> nth_error v i = Some b -> dle a b = true.
Proof.
  intros R F U X D FF FW PW V i a b Hi Ea Eb. destruct (unconstrain_inv _ _ _ _ U) as ((A1 & A2 & A3) & E & _). destruct (fitness_len _ _ _ _ X) as [L _]. cbn [umethod_eqb] in A3.
  rewrite E in V. unfold unconstrain_fitness in V. rewrite X in V. cbn [bind] in V. rewrite (penalize_weighted p w f R L A3) in V. injection V as <-.
  rewrite nth_error_map, nth_error_firstn, Ea in Eb by exact Hi. injection Eb as <-. unfold finite_all in FF. rewrite Forall_forall in D, FF.
  pose proof (nth_error_In _ _ Ea) as I. apply add_ge; [apply D; exact I|apply FF; exact I|]. apply weighted_nonneg; auto; (apply Forall_forall; assumption).
Qed.
