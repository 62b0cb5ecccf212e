From Coq Require Import List Bool Arith ZArith Lia Permutation.
From Verif Require Import Dbl DblFacts IntDbl Outcome BaseFacts StdSort Problem SpecProblem Rng Generic SpecGeneric GenericFacts GenericFacts2 GenericFacts3 SpecGenetic RmFacts
  GeneticOps GeneticFacts Population SpecPopulation PopulationFacts ProblemFacts Algo SpecAlgo AlgoFacts AlgoFacts2 AlgDeFacts SpecHarmony AlgIhsFacts AlgSga SpecSga AlgSgaFacts AlgSgaFacts2.
Import ListNotations.

Lemma always_ub_free {G A} (m : RM G A) (Q Q' : A -> Prop) (E E' : exn -> Prop) : always m Q E -> (forall x, Q x -> Q' x) -> (forall e, E e -> E' e) -> always m Q' E'.
Proof. intros H HQ HE. exact (always_weak _ _ _ _ _ H HQ HE). Qed.
Lemma half_pow : one_z = (2 * 2 ^ 1073)%Z. Proof. unfold one_z. rewrite <- (Z.pow_succ_r 2 1073) by lia. reflexivity. Qed.
Lemma half_double : is_double (Fin (2 ^ 1073)). Proof. exists 1%Z, 1073%Z. repeat split; try lia; vm_compute; reflexivity. Qed.
Lemma is_double_opp z : is_double (Fin z) -> is_double (Fin (- z)).
Proof. intros (m & e & -> & He & Hm & Ho). exists (- m)%Z, e. split; [lia|]. split; [exact He|]. split; [now rewrite Z.abs_opp|now rewrite Z.abs_opp]. Qed.
Lemma dhalf_fin : dhalf = Fin (2 ^ 1073). Proof. reflexivity. Qed.
Local Opaque one_z Z.pow dhalf.
Lemma twice_half x : (0 <= x <= 2 ^ 1073)%Z -> exists z, dmul dtwo (Fin x) = Fin z /\ (0 <= z <= one_z)%Z.
Proof. intros H. rewrite dtwo_eq. cbn [dmul]. pose proof one_z_pos. pose proof half_pow. apply rnd_between; [lia|apply dbl0|apply dbl1|nia]. Qed.
Lemma minus_half x : (2 ^ 1073 <= x <= one_z)%Z -> exists z, dsub done (Fin x) = Fin z /\ (0 <= z <= 2 ^ 1073)%Z.
Proof. intros H. rewrite done_fin. cbn [dsub dneg dadd]. pose proof half_pow. apply rnd_between; [lia|apply dbl0|apply half_double|lia]. Qed.
Lemma dround_whole x : whole (dround x).
Proof. destruct x as [| |z|]; try (apply whole_not_finite; reflexivity). apply integral_whole. cbn [dround]. eexists. reflexivity. Qed.
Lemma raw_int_ok x : fits_int x -> exists k, x = dint k /\ raw_int x = Ok k /\ (- 2 ^ 31 <= k < 2 ^ 31)%Z.
Proof.
  intros (k & -> & H). exists k. split; [reflexivity|]. split; [|exact H]. cbn [raw_int]. unfold Z_of_d. rewrite Z.quot_mul by (pose proof one_z_pos; lia).
  destruct (Z.leb_spec (- 2 ^ 31) k), (Z.ltb_spec k (2 ^ 31)); try lia; reflexivity.
Qed.
Lemma p31_53 : (2 ^ 31 < 2 ^ 53)%Z. Proof. apply Z.pow_lt_mono_r; lia. Qed.

Section M.
Context {G : Type} (r : rng G) (RC : rng_contract r) (pw : dbl -> dbl -> dbl) (shuf : forall A, list A -> G -> list A * G) (HSh : shuffle_contract shuf)
  (binom : nat -> dbl -> G -> nat * G) (HB : binomial_contract binom) (a : sga_params).

Lemma draw_gene_ok l u (E : exn -> Prop) : fits_int l -> fits_int u -> dle l u = true -> always (draw_gene r l u) (fun v => within l u v /\ integral v) E.
Proof.
  intros Fl Fu LU. destruct (raw_int_ok l Fl) as (kl & El & Rl & Hl). destruct (raw_int_ok u Fu) as (ku & Eu & Ru & Hu). unfold draw_gene. rewrite Rl, Ru.
  eapply always_bind; [apply (always_lift _ (fun v => v = kl)); reflexivity|]. intros ? ->. eapply always_bind; [apply (always_lift _ (fun v => v = ku)); reflexivity|]. intros ? ->.
  subst l u. rewrite dle_int in LU. apply Z.leb_le in LU. eapply always_bind; [apply (draw_int_ok r RC); exact LU|]. intros k Hk. cbv beta in Hk. apply always_ret. pose proof p31_53.
  rewrite d_of_Z_int by lia. split; [|now exists k]. split; rewrite dle_int; apply Z.leb_le; lia.
Qed.

(** ** Any mutation, gene by gene *)
Lemma mutate_genes_ok dimc lb ub order N x (Val0 Val1 : nat -> dbl -> Prop) (E : exn -> Prop) :
  length lb = length x -> length ub = length x -> NoDup order -> (forall g, In g order -> g < length x) -> N <= length order ->
  (forall g v, nth_error x g = Some v -> Val0 g v) -> (forall g v, Val0 g v -> Val1 g v) ->
  (forall g v l u, nth_error lb g = Some l -> nth_error ub g = Some u -> Val0 g v -> always (mutated_gene r pw a dimc g v l u) (Val1 g) E) ->
  always (mutate_genes r pw a dimc lb ub order N x)
    (fun y => exists y0, force_bounds_stick y0 lb ub = Ok y /\ length y0 = length x /\ (forall g v, nth_error y0 g = Some v -> Val1 g v) /\
       forall g, ~ In g (firstn N order) -> nth_error y0 g = nth_error x g) E.
Proof.
  intros Ll Lu ND RO HN HV HV1 HM. unfold mutate_genes. eapply always_bind.
  - apply (always_seq _ (fun k c => length c = length x /\ (forall g v, nth_error c g = Some v -> Val1 g v) /\ forall g, ~ In g (firstn k order) -> nth_error c g = nth_error x g) E N 0).
    + split; [reflexivity|]. split; [intros g v Hg; apply HV1, HV, Hg|auto].
    + intros k c Hk (Lc & H1 & H2). destruct (nth_ex order k ltac:(lia)) as (g & Ng). assert (Hg : g < length x) by (apply RO; eapply nth_error_In; eauto).
      assert (NI : ~ In g (firstn k order)). { intros I. apply In_nth_error in I. destruct I as (j & Hj). assert (j < k) by (assert (j < length (firstn k order)) by (apply nth_error_Some; congruence); rewrite firstn_length in *; lia). rewrite nth_error_firstn in Hj by lia. rewrite NoDup_nth_error in ND. specialize (ND j k ltac:(lia)). rewrite Hj, Ng in ND. specialize (ND eq_refl). lia. }
      destruct (nth_ex x g Hg) as (v & Nv). destruct (nth_ex lb g ltac:(lia)) as (l & Nl). destruct (nth_ex ub g ltac:(lia)) as (u & Nu).
      eapply always_bind; [apply (always_vget _ _ g (fun w => w = g)); auto|]. intros ? ->.
      eapply always_bind; [apply (always_vget _ _ v (fun w => w = v)); [rewrite H2 by exact NI; exact Nv|reflexivity]|]. intros ? ->.
      eapply always_bind; [apply (always_vget _ _ l (fun w => w = l)); auto|]. intros ? ->.
      eapply always_bind; [apply (always_vget _ _ u (fun w => w = u)); auto|]. intros ? ->.
      eapply always_bind; [apply (HM g v l u Nl Nu (HV g v Nv))|]. intros w Hw. apply always_vset; [lia|]. split; [now rewrite upd_len|]. split.
      * intros j z Hj. destruct (Nat.eq_dec j g) as [->|NE]; [rewrite upd_same in Hj by lia; replace z with w by congruence; exact Hw|rewrite upd_other in Hj by exact NE; apply H1, Hj].
      * intros j Hj. rewrite Nat.add_1_r in Hj. rewrite upd_other; [apply H2; intros I; apply Hj, firstn_more, I|]. intros ->. apply Hj. now apply firstn_nth.
  - intros y0 (L0 & H1 & H2). destruct (stick_spec y0 lb ub) as (y & Ey & _); [lia|lia|]. rewrite Ey. apply always_lift. exists y0. cbn [Nat.add] in H2. auto.
Qed.
Lemma draw_count_ok n (E : exn -> Prop) : dle dzero (sg_m a) = true -> dle (sg_m a) done = true -> always (draw_count binom a n) (fun N => N <= n) E.
Proof. intros H1 H2. unfold draw_count. rewrite H1, H2. cbn [andb]. apply (draw_always). intros g. now apply HB. Qed.

Lemma mutate_keeps X lb ub nix (Pre Post : list dbl -> Prop) (E : exn -> Prop) : X <> [] ->
  (forall x, In x X -> length x = length lb /\ Pre x) -> dle dzero (sg_m a) = true -> dle (sg_m a) done = true ->
  (forall x order N, length x = length lb -> Pre x -> NoDup order -> (forall g, In g order -> g < length x) -> N <= length order -> always (mutate_genes r pw a (length lb - nix) lb ub order N x) Post E) ->
  always (sga_mutate r pw shuf binom a X lb ub nix) (fun Y => length Y = length X /\ forall y, In y Y -> Post y) E.
Proof.
  intros NE HX M1 M2 HM. unfold sga_mutate. destruct (nth_ex X 0) as (x0 & N0); [destruct X; [congruence|cbn; lia]|].
  eapply always_bind; [apply (always_vget _ _ x0 (fun w => w = x0)); auto|]. intros ? ->. assert (L0 : length x0 = length lb) by (apply HX; eapply nth_error_In; eauto). cbv zeta. rewrite L0.
  eapply always_bind.
  - apply (always_seq _ (fun i (st : list (list dbl) * list nat) => perm_of (length lb) (snd st) /\ length (fst st) = length X /\ (forall k, i <= k -> nth_error (fst st) k = nth_error X k) /\ forall k y, k < i -> nth_error (fst st) k = Some y -> Post y) E (length X) 0).
    + cbn [fst snd]. split; [apply perm_of_seq|]. split; [reflexivity|]. split; [auto|]. intros; lia.
    + intros i [Y order] Hi (PO & LY & H1 & H2). cbn [fst snd] in *. unfold mutate_step. cbn [fst snd].
      eapply always_bind; [apply (draw_always _ (fun o => Permutation order o)); intros g; apply HSh|]. intros o Po. cbv beta in Po.
      assert (PO' : perm_of (length lb) o). { destruct PO as (A1 & A2 & A3). split; [rewrite <- (Permutation_length Po); exact A1|]. split; [eapply Permutation_NoDup; eauto|]. intros k Hk. apply A3. eapply Permutation_in; [apply Permutation_sym; exact Po|exact Hk]. }
      eapply always_bind; [apply (draw_count_ok (length lb) E M1 M2)|]. intros N HN. cbv beta in HN. destruct (nth_ex X i ltac:(lia)) as (x & Nx).
      eapply always_bind; [apply (always_vget _ _ x (fun w => w = x)); [rewrite H1 by lia; exact Nx|reflexivity]|]. intros ? ->.
      destruct (HX x ltac:(eapply nth_error_In; eauto)) as [Lx Px]. destruct PO' as (B1 & B2 & B3).
      eapply always_bind; [apply (HM x o N Lx Px B2); [rewrite Lx; exact B3|lia]|]. intros y Hy.
      eapply always_bind; [apply (always_vset _ _ y (fun z => z = upd Y i y)); [lia|reflexivity]|]. intros ? ->. apply always_ret. cbn [fst snd]. split; [split; [exact B1|split; [exact B2|exact B3]]|]. split; [now rewrite upd_len|]. split.
      * intros k Hk. rewrite upd_other by lia. apply H1. lia.
      * intros k z Hk Nk. destruct (Nat.eq_dec k i) as [->|N']; [rewrite upd_same in Nk by lia; replace z with y by congruence; exact Hy|rewrite upd_other in Nk by exact N'; apply (H2 k); [lia|exact Nk]].
  - intros st (_ & L & _ & H). apply always_ret. split; [exact L|]. intros y Hy. apply In_nth_error in Hy. destruct Hy as (k & Hk). apply (H k); [|exact Hk]. rewrite <- L. apply nth_error_Some. congruence.
Qed.

(** ** Instance 1: nothing is known of the parents *)
Definition cannot_draw (p : problem) (e : exn) : Prop := e = InvalidArgument /\ ~ drawable p.
Lemma mutated_gene_any p g v l u : prob_obj p -> draws_ok a p -> nth_error (p_lb p) g = Some l -> nth_error (p_ub p) g = Some u -> always (mutated_gene r pw a (length (p_lb p) - p_nix p) g v l u) (fun _ => True) (cannot_draw p).
Proof.
  intros PO DO Nl Nu. pose proof (prob_obj_ord p PO g l u Nl Nu) as LU. unfold mutated_gene, draws_ok in *. destruct (sg_mut a).
  - eapply always_bind; [apply (draw_always _ (fun _ => True)); auto|]. intros. apply always_ret. exact I.
  - destruct (Nat.ltb_spec g (length (p_lb p) - p_nix p)) as [C|C].
    + eapply always_weak; [apply (urr_ok r RC l u LU)|auto|]. intros e (-> & NO). split; [reflexivity|]. intros D. apply NO. eapply D; eauto.
    + destruct (DO g l u C Nl Nu) as [Fl Fu]. eapply always_weak; [apply (draw_gene_ok l u (fun _ => False) Fl Fu LU)|auto|contradiction].
  - destruct (Nat.ltb_spec g (length (p_lb p) - p_nix p)) as [C|C].
    + eapply always_bind; [apply (draw01_any r RC)|]. intros w _. apply always_ret. exact I.
    + destruct (DO g l u C Nl Nu) as [Fl Fu]. eapply always_weak; [apply (draw_gene_ok l u (fun _ => False) Fl Fu LU)|auto|contradiction].
Qed.
Lemma mutate_any p x order N : prob_obj p -> draws_ok a p -> length x = length (p_lb p) -> NoDup order -> (forall g, In g order -> g < length x) -> N <= length order ->
  always (mutate_genes r pw a (length (p_lb p) - p_nix p) (p_lb p) (p_ub p) order N x) (in_box_or_nan (p_lb p) (p_ub p)) (cannot_draw p).
Proof.
  intros PO DO Lx ND RO HN. destruct (prob_obj_lens p PO) as [L1 L2]. eapply always_weak; [apply (mutate_genes_ok (length (p_lb p) - p_nix p) (p_lb p) (p_ub p) order N x (fun _ _ => True) (fun _ _ => True) (cannot_draw p)); auto; [lia|]| |auto].
  - intros g v l u Nl Nu _. now apply mutated_gene_any.
  - intros y (y0 & Ey & Ly & _ & _). destruct (stick_spec y0 (p_lb p) (p_ub p)) as (y' & Ey' & Ly' & H); [lia|lia|]. assert (y' = y) by congruence. subst y'. split; [lia|]. split; [lia|].
    intros i l u w Nl Nu Nw. destruct (nth_ex y0 i) as (v & Nv); [rewrite <- Ly'; apply nth_error_Some; congruence|]. destruct (H i l u v Nl Nu Nv (prob_obj_ord p PO i l u Nl Nu)) as (w' & Nw' & S1 & S2 & S3 & _). assert (w' = w) by congruence. subst w'.
    destruct v; [left; auto|right; apply S1; discriminate..].
Qed.

(** ** Instance 2: moderate bounds, parents in the box *)
Context (PC : pow_contract pw) (FNm : finite_normals r).
Lemma dmul_fin_nn x y : dmul (Fin x) (Fin y) <> NaN. Proof. cbn [dmul]. apply rnd_not_nan. Qed.
Lemma poly_nn v e x l u : (exists z, v = Fin z /\ (0 <= z <= one_z)%Z) -> dle dzero e = true -> moderate l -> moderate u -> within l u x ->
  (if dle v dhalf then dadd x (dmul (dsub (pw (dmul dtwo v) e) done) (dsub x l)) else dadd x (dmul (dsub done (pw (dmul dtwo (dsub done v)) e)) (dsub u x))) <> NaN.
Proof.
  intros (z & -> & Hz) He Ml Mu W. destruct (moderate_between l u x Ml Mu W) as (zl & zu & zx & -> & -> & -> & Hx & Bl & Bu & Bx).
  assert (EN : e <> NaN) by (intros ->; discriminate). rewrite dhalf_fin. destruct (dle (Fin z) (Fin (2 ^ 1073))) eqn:D.
  - apply dle_fin in D. destruct (twice_half z ltac:(lia)) as (t & Et & Ht). rewrite Et.
    assert (T0 : dle dzero (Fin t) = true) by (apply dle_fin; lia). assert (T1 : dle (Fin t) done = true) by (rewrite done_fin; apply dle_fin; lia).
    pose proof (pow_nonneg pw PC _ e T0 EN) as P0. pose proof (pow_small pw PC _ e T0 T1 He) as P1. rewrite done_fin in P1. destruct (between_fin _ _ _ P0 P1) as (q & Eq & Hq). rewrite Eq.
    assert (S1 : exists w, dsub (Fin q) done = Fin w). { rewrite done_fin. cbn [dsub dneg dadd]. destruct (rnd_between (q + - one_z) 1 (- one_z) 0) as (w & Ew & _); [lia| |apply dbl0|lia|eauto]. exact (is_double_opp _ dbl1). }
    destruct S1 as (w & Ew). rewrite Ew. destruct (moderate_sub zx zl Bx Bl) as [S3 _]. destruct (rnd_finite (zx + - zl)) as (y & Ey); [exact S3|]. assert (Ey' : dsub (Fin zx) (Fin zl) = Fin y) by exact Ey. rewrite Ey'.
    apply dadd_fin_not_nan, dmul_fin_nn.
  - assert (D' : (2 ^ 1073 <= z)%Z) by (destruct (Z.le_gt_cases z (2 ^ 1073)) as [C|C]; [apply dle_fin in C; rewrite C in D; discriminate|lia]).
    destruct (minus_half z ltac:(lia)) as (m & Em & Hm). rewrite Em. destruct (twice_half m Hm) as (t & Et & Ht). rewrite Et.
    assert (T0 : dle dzero (Fin t) = true) by (apply dle_fin; lia). assert (T1 : dle (Fin t) done = true) by (rewrite done_fin; apply dle_fin; lia).
    pose proof (pow_nonneg pw PC _ e T0 EN) as P0. pose proof (pow_small pw PC _ e T0 T1 He) as P1. rewrite done_fin in P1. destruct (between_fin _ _ _ P0 P1) as (q & Eq & Hq). rewrite Eq.
    destruct (one_minus q Hq) as (w & Ew & _). rewrite Ew. destruct (moderate_sub zu zx Bu Bx) as [S3 _]. destruct (rnd_finite (zu + - zx)) as (y & Ey); [exact S3|]. assert (Ey' : dsub (Fin zu) (Fin zx) = Fin y) by exact Ey. rewrite Ey'.
    apply dadd_fin_not_nan, dmul_fin_nn.
Qed.
Lemma within_nn l u v : within l u v -> v <> NaN.
Proof. intros [H _] ->. destruct l; discriminate. Qed.
Lemma mutated_gene_tame p g v l u : prob_obj p -> draws_ok a p -> moderate_bounds p -> sane_mutation a -> nth_error (p_lb p) g = Some l -> nth_error (p_ub p) g = Some u ->
  within l u v -> (length (p_lb p) - p_nix p <= g -> integral v) ->
  always (mutated_gene r pw a (length (p_lb p) - p_nix p) g v l u) (fun w => w <> NaN /\ (length (p_lb p) - p_nix p <= g -> whole w)) (cannot_draw p).
Proof.
  intros PO DO [ML MU] SM Nl Nu W IV. pose proof (prob_obj_ord p PO g l u Nl Nu) as LU. assert (Ml : moderate l) by (apply ML; eapply nth_error_In; eauto). assert (Mu : moderate u) by (apply MU; eapply nth_error_In; eauto).
  unfold mutated_gene, draws_ok, sane_mutation in *. set (dc := length (p_lb p) - p_nix p) in *. destruct (sg_mut a).
  - cbv zeta. destruct (moderate_between l u v Ml Mu W) as (zl & zu & zx & -> & -> & -> & Hx & Bl & Bu & Bx). destruct SM as [SM1 SM2]. rewrite done_fin in SM2. destruct (between_fin _ _ _ SM1 SM2) as (pm & Epm & Hpm). rewrite Epm.
    eapply always_bind; [apply (draw_always _ (fun z => isfinite z = true)); intros g'; apply FNm|]. intros z Fz. cbv beta in Fz. destruct z as [| |z|]; try discriminate. apply always_ret.
    destruct (moderate_sub zu zl Bu Bl) as [S3 _]. destruct (rnd_finite (zu + - zl)) as (y & Ey); [exact S3|]. assert (Ey' : dsub (Fin zu) (Fin zl) = Fin y) by exact Ey. rewrite Ey'.
    assert (Dy : is_double (Fin y)) by (rewrite <- Ey; apply rnd_is_double; lia). assert (Hy : (0 <= y)%Z) by (pose proof (rnd_nonneg (zu + - zl) 1 ltac:(lia) ltac:(lia)) as K; unfold nonneg in K; rewrite Ey in K; now apply dle_fin in K).
    assert (Es : exists sd, dmul (Fin y) (Fin pm) = Fin sd) by (cbn [dmul]; destruct (rnd_between (y * pm) one_z 0 y) as (sd & E & _); [apply one_z_pos|apply dbl0|exact Dy|pose proof one_z_pos; nia|eauto]).
    destruct Es as (sd & Es). rewrite Es. pose proof (dmul_fin_nn z sd) as NZ.
    assert (NN : forall q, q <> NaN -> dround q <> NaN) by (intros [| | |]; cbn; congruence).
    destruct (Nat.ltb_spec g dc) as [C|C]; (split; [apply dadd_fin_not_nan; auto|intros Hg; try lia]). apply whole_add; [apply integral_whole, IV, Hg|apply dround_whole].
  - destruct (Nat.ltb_spec g dc) as [C|C].
    + eapply always_weak; [apply (urr_ok r RC l u LU)|intros w Hw; split; [eapply within_nn; eauto|lia]|]. intros e (-> & NO). split; [reflexivity|]. intros D. apply NO. eapply D; eauto.
    + destruct (DO g l u C Nl Nu) as [Fl Fu]. eapply always_weak; [apply (draw_gene_ok l u (fun _ => False) Fl Fu LU)| |contradiction]. intros w [Hw1 Hw2]. split; [eapply within_nn; eauto|intros _; now apply integral_whole].
  - destruct (Nat.ltb_spec g dc) as [C|C].
    + eapply always_bind; [eapply always_weak; [apply (draw01_ok r RC)|intros w Hw; exact Hw|contradiction]|]. intros w Hw. cbv beta zeta. apply always_ret. split; [|lia]. apply poly_nn; auto.
      destruct (one_div_eta (dadd done (sg_pm a))) as [D1 D2]; [|exact D1]. apply dadd_one_ge. destruct SM as [SM1 _]. unfold nonneg. eapply dle_trans; [|exact SM1]. reflexivity.
    + destruct (DO g l u C Nl Nu) as [Fl Fu]. eapply always_weak; [apply (draw_gene_ok l u (fun _ => False) Fl Fu LU)| |contradiction]. intros w [Hw1 Hw2]. split; [eapply within_nn; eauto|intros _; now apply integral_whole].
Qed.
Lemma moderate_fin x : moderate x -> isfinite x = true. Proof. intros (z & -> & _). reflexivity. Qed.
Lemma mutate_tame p x order N : prob_obj p -> draws_ok a p -> moderate_bounds p -> sane_mutation a -> tame p x -> NoDup order -> (forall g, In g order -> g < length x) -> N <= length order ->
  always (mutate_genes r pw a (length (p_lb p) - p_nix p) (p_lb p) (p_ub p) order N x) (tame p) (cannot_draw p).
Proof.
  intros PO DO MB SM ((B1 & B2 & B3) & IT) ND RO HN. set (dc := length (p_lb p) - p_nix p).
  eapply always_weak; [apply (mutate_genes_ok dc (p_lb p) (p_ub p) order N x (fun g v => (forall l u, nth_error (p_lb p) g = Some l -> nth_error (p_ub p) g = Some u -> within l u v) /\ (dc <= g -> integral v) /\ v <> NaN) (fun g v => v <> NaN /\ (dc <= g -> whole v)) (cannot_draw p)); auto| |auto].
  - intros g v Nv. assert (Hg : g < length x) by (apply nth_error_Some; congruence). destruct (nth_ex (p_lb p) g ltac:(lia)) as (l & Nl). destruct (nth_ex (p_ub p) g ltac:(lia)) as (u & Nu). split; [intros l' u' Nl' Nu'; eapply B3; eauto|]. split; [intros Hd; apply (IT g v); [unfold dc in Hd; lia|exact Nv]|]. eapply within_nn, B3; eauto.
  - intros g v (_ & H2 & H3). split; [exact H3|]. intros Hd. apply integral_whole; auto.
  - intros g v l u Nl Nu (H1 & H2 & _). apply (mutated_gene_tame p g v l u); auto.
  - intros y (y0 & Ey & Ly & H1 & _). destruct (stick_spec y0 (p_lb p) (p_ub p)) as (y' & Ey' & Ly' & H); [lia|lia|]. assert (y' = y) by congruence. subst y'.
    assert (K : forall i w, nth_error y i = Some w -> exists l u v, nth_error (p_lb p) i = Some l /\ nth_error (p_ub p) i = Some u /\ nth_error y0 i = Some v).
    { intros i w Nw. assert (Hi : i < length y) by (apply nth_error_Some; congruence). destruct (nth_ex y0 i ltac:(lia)) as (v & Nv). destruct (nth_ex (p_lb p) i ltac:(lia)) as (l & Nl). destruct (nth_ex (p_ub p) i ltac:(lia)) as (u & Nu). eauto 8. }
    split.
    + split; [lia|]. split; [lia|]. intros i l u w Nl Nu Nw. destruct (K i w Nw) as (l' & u' & v & Nl' & Nu' & Nv). destruct (H i l u v Nl Nu Nv (prob_obj_ord p PO i l u Nl Nu)) as (w' & Nw' & S1 & _). assert (w' = w) by congruence. subst w'. apply S1. eapply H1; eauto.
    + intros i w Hi Nw. destruct (K i w Nw) as (l & u & v & Nl & Nu & Nv). pose proof (prob_obj_ord p PO i l u Nl Nu) as LU. destruct (H i l u v Nl Nu Nv LU) as (w' & Nw' & S1 & S2 & S3 & S4 & S5). assert (w' = w) by congruence. subst w'.
      assert (Hd : dc <= i) by (unfold dc; lia). destruct (H1 i v Nv) as [Vn Vw]. destruct (prob_obj_bounds p PO) as (_ & _ & _ & _ & GB). destruct (GB i l u Hd Nl Nu) as [Gl Gu]. destruct MB as [ML MU].
      assert (Fl : isfinite l = true) by (apply moderate_fin, ML; eapply nth_error_In; eauto). assert (Fu : isfinite u = true) by (apply moderate_fin, MU; eapply nth_error_In; eauto).
      destruct (dlt v l) eqn:D1; [rewrite S4 by reflexivity; auto|]. destruct (dlt u v) eqn:D2; [rewrite S5 by reflexivity; auto|].
      assert (Wv : within l u v). { split; apply dlt_false_dle; auto; intros ->; discriminate. }
      rewrite (S2 Wv) in *. apply (Vw Hd). destruct l, u, v; try discriminate; try reflexivity; destruct Wv; discriminate.
Qed.
(** Crossover keeps tame parents tame. *)
Lemma genes_tame p c x y : tame p x -> tame p y -> genes_of c x y -> tame p c.
Proof.
  intros ((A1 & A2 & A3) & A4) ((B1 & B2 & B3) & B4) (L & H).
  assert (K : forall j v, nth_error c j = Some v -> nth_error x j = Some v \/ nth_error y j = Some v).
  { intros j v Hj. assert (j < length x) by (rewrite <- L; apply nth_error_Some; congruence). destruct (H j ltac:(lia)) as [E|E]; rewrite E in Hj; auto. }
  split.
  - split; [lia|]. split; [lia|]. intros i l u v Nl Nu Nv. destruct (K i v Nv); [eapply A3|eapply B3]; eauto.
  - intros i v Hi Nv. destruct (K i v Nv) as [X|X]; [apply (A4 i v); [lia|exact X]|apply (B4 i v); [lia|exact X]].
Qed.
Lemma sbx_tame p x y : prob_obj p -> moderate_bounds p -> within done dhundred (sg_eta a) -> tame p x -> tame p y ->
  always (sbx_crossover_impl r pw x y (p_lb p) (p_ub p) (p_nix p) (sg_cr a) (sg_eta a)) (fun cs => tame p (fst cs) /\ tame p (snd cs)) never.
Proof.
  intros PO [ML MU] [E1 E2] [A1 A2] [B1 B2]. eapply always_weak; [apply (sbx_impl_ok r RC pw PC x y (p_lb p) (p_ub p) (p_nix p) (sg_cr a) (sg_eta a))| |auto]; auto.
  - unfold good2. cbn [fst snd]. auto.
  - apply (prob_obj_bounds p PO).
  - unfold nonneg. eapply dle_trans; [|exact E1]. reflexivity.
  - unfold dhundred in E2. rewrite d_of_Z_int in E2 by reflexivity. destruct (sg_eta a); try reflexivity; discriminate.
  - intros cs (C1 & C2 & C3 & C4). split; split; assumption.
Qed.
End M.
