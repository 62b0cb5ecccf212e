From Coq Require Import List Bool Arith ZArith Lia Permutation Sorting.Sorted.
From Verif Require Import Dbl DblFacts IntDbl Outcome BaseFacts StdSort Compare CompareFacts SpecOrder Rng Problem SpecProblem ProblemFacts ProblemFacts2 ProblemFacts3 Generic SpecGeneric GenericFacts.
Import ListNotations.

(** ** The reflection loop need not end *)
Lemma reflect_loops lb ub x x' : (dlt x lb || dgt x ub) = true -> (dlt x' lb || dgt x' ub) = true ->
  (forall k, reflect1 (S k) x lb ub = reflect1 k x' lb ub) -> (forall k, reflect1 (S k) x' lb ub = reflect1 k x' lb ub) ->
  forall n, reflect1 n x lb ub = NoFuel.
Proof.
  intros B B' H H'. assert (K : forall n, reflect1 n x' lb ub = NoFuel).
  { induction n as [|n IH]; [cbn [reflect1]; now rewrite B'|]. now rewrite H'. }
  intros [|n]; [cbn [reflect1]; now rewrite B|]. rewrite H. apply K.
Qed.
Definition far : Z := 2 ^ 56.
Lemma reflect_far_refuted : forall n, reflect1 n (Fin far) (Fin 0) (Fin 1) = NoFuel.
Proof.
  assert (D0 : dmul dtwo (Fin 0) = Fin 0) by (rewrite dmul_two; reflexivity).
  assert (D1 : dmul dtwo (Fin 1) = Fin 2) by (rewrite dmul_two; reflexivity).
  apply (reflect_loops _ _ _ (Fin (- far))); [reflexivity|reflexivity| |].
  - intros k. cbn [reflect1]. change (dlt (Fin far) (Fin 0)) with false. change (dgt (Fin far) (Fin 1)) with true. cbn [orb].
    change (dgt (Fin far) (Fin 1)) with true. rewrite D1. reflexivity.
  - intros k. cbn [reflect1]. change (dlt (Fin (- far)) (Fin 0)) with true. cbn [orb]. rewrite D0, D1. reflexivity.
Qed.
Lemma reflect_degenerate_refuted : forall n, reflect1 n (Fin 1) (Fin 0) (Fin 0) = NoFuel.
Proof.
  assert (D0 : dmul dtwo (Fin 0) = Fin 0) by (rewrite dmul_two; reflexivity).
  apply (reflect_loops _ _ _ (Fin (- 1))); [reflexivity|reflexivity| |].
  - intros k. cbn [reflect1]. change (dlt (Fin 1) (Fin 0)) with false. change (dgt (Fin 1) (Fin 0)) with true. cbn [orb].
    change (dgt (Fin 1) (Fin 0)) with true. rewrite D0. reflexivity.
  - intros k. cbn [reflect1]. change (dlt (Fin (- 1)) (Fin 0)) with true. cbn [orb]. rewrite D0. reflexivity.
Qed.
Lemma reflection_refuted : (exists x lb ub, Forall is_double [x; lb; ub] /\ isfinite x = true /\ dlt lb ub = true /\
    forall n, force_bounds_reflection n [x] [lb] [ub] = NoFuel) /\
  (exists x b, Forall is_double [x; b] /\ isfinite x = true /\ forall n, force_bounds_reflection n [x] [b] [b] = NoFuel).
Proof.
  assert (S0 : is_double (Fin 0)) by (exists 0%Z, 0%Z; repeat split; lia).
  assert (S1 : is_double (Fin 1)) by (exists 1%Z, 0%Z; split; [reflexivity|]; split; [lia|]; split; [lia|]; unfold ovf_z; change (Z.abs 1) with (2 ^ 0)%Z; apply Z.pow_lt_mono_r; lia).
  split.
  - exists (Fin far), (Fin 0), (Fin 1). split.
    + constructor; [|constructor; [exact S0|constructor; [exact S1|constructor]]].
      exists 1%Z, 56%Z. split; [reflexivity|]. split; [lia|]. split; [lia|]. unfold far, ovf_z. rewrite Z.abs_eq by lia. apply Z.pow_lt_mono_r; lia.
    + split; [reflexivity|]. split; [reflexivity|]. intros n. unfold force_bounds_reflection. cbn [map3]. now rewrite reflect_far_refuted.
  - exists (Fin 1), (Fin 0). split; [constructor; [exact S1|constructor; [exact S0|constructor]]|]. split; [reflexivity|].
    intros n. unfold force_bounds_reflection. cbn [map3]. now rewrite reflect_degenerate_refuted.
Qed.

(** ** Random values *)
Lemma double_le_max z : is_double (Fin z) -> (z <= (2 ^ 53 - 1) * 2 ^ 2045)%Z.
Proof.
  intros (m & e & -> & He & Hm & Hz). unfold ovf_z in Hz. destruct (Z_le_gt_dec m 0) as [H|H].
  { assert (0 < 2 ^ e)%Z by (apply Z.pow_pos_nonneg; lia). assert (0 <= 2 ^ 2045)%Z by (apply Z.pow_nonneg; lia). apply Z.le_trans with 0%Z; [nia|apply Z.mul_nonneg_nonneg; lia]. }
  destruct (Z_le_gt_dec e 2045) as [H1|H1].
  - assert (2 ^ e <= 2 ^ 2045)%Z by (apply Z.pow_le_mono_r; lia). assert (0 < 2 ^ e)%Z by (apply Z.pow_pos_nonneg; lia).
    apply Z.mul_le_mono_nonneg; lia.
  - replace e with ((e - 2045) + 2045)%Z in * by lia. rewrite Z.pow_add_r in * by lia. rewrite Z.abs_eq in Hz.
    2: { assert (0 < 2 ^ (e - 2045))%Z by (apply Z.pow_pos_nonneg; lia). assert (0 < 2 ^ 2045)%Z by (apply Z.pow_pos_nonneg; lia). apply Z.mul_nonneg_nonneg; [lia|apply Z.mul_nonneg_nonneg; lia]. }
    replace 2098%Z with (53 + 2045)%Z in Hz by lia. rewrite Z.pow_add_r in Hz by lia.
    assert (P : (0 < 2 ^ 2045)%Z) by (apply Z.pow_pos_nonneg; lia). rewrite Z.mul_assoc in *. apply Z.mul_lt_mono_pos_r in Hz; [|exact P].
    apply Z.mul_le_mono_nonneg_r; lia.
Qed.
Lemma dsub_le_max a b : isfinite (dsub a b) = true -> dgt (dsub a b) dbl_max = false.
Proof.
  unfold dgt, dsub. destruct a, b; try discriminate. unfold dneg, dadd.
  destruct (rnd (z + - z0) 1) as [| |w|] eqn:E; try discriminate. intros _.
  unfold dbl_max, dlt. apply Z.ltb_ge. apply double_le_max. rewrite <- E. apply rnd_is_double. lia.
Qed.
Lemma deq_eq a b : deq a b = true -> a = b.
Proof. destruct a, b; try discriminate; intros H; try reflexivity. apply Z.eqb_eq in H. now subst. Qed.
Lemma dle_cases a b : dle a b = true -> deq a b = false -> dlt a b = true.
Proof. unfold dle. destruct (dlt a b); [reflexivity|]. cbn [orb]. congruence. Qed.

Section R.
Context {G : Type} (r : rng G) (RC : rng_contract r).

Lemma real_checks_spec l u c : dle l u = true ->
  (real_checks true c true l u = Ok tt /\ ok_real l u) \/ (real_checks true c true l u = Throw InvalidArgument /\ ~ ok_real l u).
Proof.
  intros H. unfold real_checks, ok_real, throw_if. destruct (isfinite l) eqn:Fl; cbn [negb orb andb bind]; [|right; split; [reflexivity|intros (X & _); discriminate]].
  destruct (isfinite u) eqn:Fu; cbn [negb orb andb bind]; [|right; split; [reflexivity|intros (_ & X & _); discriminate]].
  assert (Hg : dgt l u = false) by exact (dle_dlt_false _ _ H). rewrite Hg, andb_false_r. cbn [bind].
  destruct (isfinite (dsub u l)) eqn:Fd; cbn [negb orb]; [|right; split; [reflexivity|intros (_ & _ & X); discriminate]].
  rewrite (dsub_le_max _ _ Fd). left. auto.
Qed.
Lemma draw_real_ok l u g : dlt l u = true -> ok_real l u -> exists v, fst (draw_real r l u g) = Ok v /\ within l u v.
Proof.
  intros H (F1 & F2 & F3). unfold draw_real. rewrite F1, F2, F3, (dlt_dle _ _ H). cbn [andb]. unfold rdraw.
  pose proof (real_in r RC l u g F1 F2 H) as W. destruct (g_real r l u g) as [v g']. exists v. split; [reflexivity|exact W].
Qed.
Lemma uniform_real_spec l u c g : dle l u = true ->
  (exists v, fst (uniform_real_impl r true c true l u g) = Ok v /\ within l u v /\ ok_real l u) \/
  (fst (uniform_real_impl r true c true l u g) = Throw InvalidArgument /\ ~ ok_real l u).
Proof.
  intros H. unfold uniform_real_impl, rbind, rlift. destruct (real_checks_spec l u c H) as [[E P]|[E P]]; rewrite E; [|right; auto].
  left. destruct (deq l u) eqn:D.
  - exists l. split; [reflexivity|]. apply deq_eq in D. subst u. split; [|exact P]. destruct (dle_not_nan _ _ H). split; now apply dle_refl.
  - destruct (draw_real_ok l u g (dle_cases _ _ H D) P) as (v & E2 & W). exists v. auto.
Qed.

(** Integers *)
Lemma d_of_Z_between k l u : is_double (Fin (l * one_z)) -> is_double (Fin (u * one_z)) -> (l <= k <= u)%Z -> within (Fin (l * one_z)) (Fin (u * one_z)) (d_of_Z k).
Proof.
  intros Dl Du H. unfold within, d_of_Z. rewrite <- (rnd_exact _ Dl), <- (rnd_exact _ Du).
  pose proof one_z_pos. split; apply rnd_mono; nia.
Qed.
Lemma d_of_Z_integral k : isfinite (d_of_Z k) = true -> integral (d_of_Z k).
Proof.
  unfold d_of_Z, rnd. rewrite Z.abs_mul, (Z.abs_eq one_z) by (pose proof one_z_pos; lia).
  destruct (ovf_z <=? rnd_nat (Z.abs k * one_z) 1)%Z; [destruct (Z.sgn (k * one_z) <? 0)%Z; discriminate|]. intros _.
  unfold integral. destruct (Z_lt_ge_dec (Z.abs k) (2 ^ 53)) as [H|H].
  - exists (Z.sgn (k * one_z) * Z.abs k)%Z. f_equal. rewrite <- Z.mul_assoc. f_equal.
    pose proof (rnd_nat_exact (Z.abs k) 1074 1 ltac:(lia) ltac:(lia) ltac:(lia)) as X. rewrite Z.mul_1_r in X. exact X.
  - rewrite rnd_nat_mant, Z.div_1_r by (try exact IntDbl.one_z_pos; try lia; try (pose proof IntDbl.one_z_pos; nia)). set (e := rnd_exp (Z.abs k * one_z)).
    assert (He : (1074 <= e)%Z).
    { unfold e, rnd_exp. assert (53 + 1074 <= Z.log2 (Z.abs k * one_z))%Z; [|lia]. apply Z.log2_le_pow2.
      - pose proof one_z_pos. nia.
      - rewrite Z.pow_add_r by lia. unfold one_z. assert (0 <= 2 ^ 1074)%Z by (apply Z.pow_nonneg; lia). nia. }
    exists (Z.sgn (k * one_z) * (mant (Z.abs k * one_z) 1 e * 2 ^ (e - 1074)))%Z. f_equal.
    replace e with ((e - 1074) + 1074)%Z at 2 by lia. rewrite Z.pow_add_r by lia. unfold one_z. ring.
Qed.
Lemma to_ll_spec x : (x = NaN \/ isfinite x = false \/ integral x) -> 
  (exists k, to_long_long x = Ok k /\ x = Fin (k * one_z) /\ (- 2 ^ 63 <= k < 2 ^ 63)%Z) \/ (to_long_long x = Throw InvalidArgument /\ ~ fits_long_long x).
Proof.
  intros H. destruct x as [| |z|]; try (right; split; [reflexivity|intros (k & E & _); discriminate]).
  destruct H as [H|[H|(k & E)]]; try discriminate. inversion E; subst z. unfold to_long_long, Z_of_d. rewrite Z.quot_mul by apply one_z_nz.
  destruct (Z.leb_spec (- 2 ^ 63) k) as [H1|H1]; cbn [andb].
  - destruct (Z.ltb_spec k (2 ^ 63)) as [H2|H2].
    + left. exists k. auto.
    + right. split; [reflexivity|]. intros (k' & E' & B). inversion E' as [E2]. apply Z.mul_cancel_r in E2; [|apply one_z_nz]. lia.
  - right. split; [reflexivity|]. intros (k' & E' & B). inversion E' as [E2]. apply Z.mul_cancel_r in E2; [|apply one_z_nz]. lia.
Qed.
Definition ok_int (l u : dbl) : Prop := fits_long_long l /\ fits_long_long u.
Lemma fits_finite x : fits_long_long x -> isfinite x = true.
Proof. intros (k & -> & _). reflexivity. Qed.
Lemma int_checks_ff l u c : dle l u = true ->
  int_checks true c false l u = if isfinite l && isfinite u then Ok tt else Throw InvalidArgument.
Proof.
  intros H. unfold int_checks, throw_if, dgt. rewrite (dle_dlt_false _ _ H), andb_false_r. destruct (isfinite l), (isfinite u); reflexivity.
Qed.
Lemma uniform_int_spec l u c g : dle l u = true -> is_double l -> is_double u -> (isfinite l = true -> integral l) -> (isfinite u = true -> integral u) ->
  (exists v, fst (uniform_integral_impl r true c false l u g) = Ok v /\ within l u v /\ integral v /\ ok_int l u) \/
  (fst (uniform_integral_impl r true c false l u g) = Throw InvalidArgument /\ ~ ok_int l u).
Proof.
  intros H Dl Du Il Iu. unfold uniform_integral_impl, rbind, rlift. rewrite (int_checks_ff l u c H).
  destruct (isfinite l) eqn:Fl; [|right; split; [reflexivity|intros (X & _); apply fits_finite in X; congruence]].
  destruct (isfinite u) eqn:Fu; [|right; split; [reflexivity|intros (_ & X); apply fits_finite in X; congruence]]. cbn [andb].
  destruct (to_ll_spec l) as [(kl & E & -> & Bl)|[E N]]; [auto| |]; rewrite E; [|right; split; [reflexivity|intros (X & _); contradiction]].
  destruct (to_ll_spec u) as [(ku & E' & -> & Bu)|[E' N]]; [auto| |]; rewrite E'; [|right; split; [reflexivity|intros (_ & X); contradiction]].
  left. assert (K : (kl <= ku)%Z). { apply dle_fin in H. pose proof one_z_pos. nia. }
  unfold draw_int. destruct (Z.leb_spec kl ku); [|lia]. unfold rdraw. pose proof (int_in r RC kl ku g K) as I. destruct (g_int r kl ku g) as [k g']. cbn [fst] in I.
  exists (d_of_Z k). pose proof (d_of_Z_between k kl ku Dl Du I) as W. split; [reflexivity|]. split; [exact W|]. split.
  - apply d_of_Z_integral. destruct W as [W1 W2]. destruct (d_of_Z k); try discriminate; reflexivity.
  - split; [exists kl|exists ku]; auto.
Qed.

(** rmap *)
Lemma rmap_cases {A B} (f : A -> RM G B) (P : A -> B -> Prop) (Q : A -> Prop) l :
  (forall a, In a l -> forall g, (exists b, fst (f a g) = Ok b /\ P a b /\ Q a) \/ (fst (f a g) = Throw InvalidArgument /\ ~ Q a)) ->
  forall g, (exists bs, fst (rmap f l g) = Ok bs /\ Forall2 P l bs /\ Forall Q l) \/ (fst (rmap f l g) = Throw InvalidArgument /\ ~ Forall Q l).
Proof.
  induction l as [|a l IH]; intros H g.
  - left. exists []. cbn. auto.
  - cbn [rmap]. unfold rbind, rret. destruct (H a (or_introl eq_refl) g) as [(b & E & Pb & Qa)|[E N]]; destruct (f a g) as [o g']; cbn [fst] in E; subst o.
    + destruct (IH (fun x Hx => H x (or_intror Hx)) g') as [(bs & E2 & F & FQ)|[E2 N]]; destruct (rmap f l g') as [o2 g'']; cbn [fst] in E2; subst o2; cbn.
      * left. exists (b :: bs). auto.
      * right. split; [reflexivity|]. intros X. inversion X; contradiction.
    + right. split; [reflexivity|]. intros X. inversion X; contradiction.
Qed.
Lemma rmap_ext {A B} (f f' : A -> RM G B) l : (forall a, In a l -> forall g, f a g = f' a g) -> forall g, rmap f l g = rmap f' l g.
Proof.
  induction l as [|a l IH]; intros H g; [reflexivity|]. cbn [rmap]. unfold rbind. rewrite (H a (or_introl eq_refl)). destruct (f' a g) as [[b| | |] g']; try reflexivity.
  rewrite IH by (intros x Hx; apply H; right; exact Hx). reflexivity.
Qed.
End R.
