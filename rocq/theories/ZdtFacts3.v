(** ZDT: definedness, fronts, populations and the refuted statements. *)
From Coq Require Import List ZArith Lia Reals Lra Bool.
Import ListNotations.
From Verif Require Import Outcome BaseFacts TestArith TestProblems SpecTest SpecPareto TestFacts TestFacts2 TestFacts4 TestFacts5 Zdt SpecZdt ZdtFacts ZdtFacts2.

Lemma zdt_ctor_spec id param : (0 <= id)%Z -> (zdt_ctor id param = Ok (id, param) <-> (1 <= id <= 6 /\ 2 <= param)%Z) /\ (zdt_ctor id param = Throw InvalidArgument <-> ~ (1 <= id <= 6 /\ 2 <= param)%Z).
Proof.
  intros H. unfold zdt_ctor. destruct (Z.ltb_spec param 2); [split; split; intros; try discriminate; try lia; reflexivity |].
  destruct (Z.eqb_spec id 0); cbn [orb]; [split; split; intros; try discriminate; try lia; reflexivity |]. destruct (Z.ltb_spec 6 id); split; split; intros; try discriminate; try lia; reflexivity.
Qed.
Lemma zdt_sum_ok {A} (o : arith A) x : exists s, zdt_sum o x = Ok s.
Proof.
  unfold zdt_sum. apply (mfold_ok _ (fun i => (i < length x)%nat)); [| intros b B; apply in_seq in B; lia]. intros s i I. destruct (vget_in x i I) as [v ->]. cbn [bind]. eauto.
Qed.
Lemma zdt4_loop_ok {A} (o : arith A) x g : exists s, zdt4_loop o x g = Ok s.
Proof.
  unfold zdt4_loop. apply (mfold_ok _ (fun i => (i < length x)%nat)); [| intros b B; apply in_seq in B; lia]. intros s i I. destruct (vget_in x i I) as [v ->]. cbn [bind]. eauto.
Qed.
Lemma zdt5_ones_ok {A} (o : arith A) x l : (forall k, In k l -> (k < length x)%nat) -> exists s, zdt5_ones o x l = Ok s.
Proof.
  intros H. unfold zdt5_ones. apply (mfold_ok _ (fun i => (i < length x)%nat)); [| exact H]. intros s i I. destruct (vget_in x i I) as [v ->]. cbn [bind]. eauto.
Qed.
Lemma zdt5_g_ok {A} (o : arith A) x m : length x = (30 + 5 * m)%nat -> exists s, zdt5_g o x (S m) = Ok s.
Proof.
  intros L. unfold zdt5_g. apply (mfold_ok _ (fun i => (1 <= i <= m)%nat)); [| intros b B; apply in_seq in B; lia]. intros s i I.
  destruct (zdt5_ones_ok o x (seq (30 + 5 * (i - 1)) 5)) as [v ->]; [intros k K; apply in_seq in K; lia |]. cbn [bind]. eauto.
Qed.
Lemma zdt_defined {A} (o : arith A) id param x : (0 <= id)%Z -> zdt_ctor id param = Ok (id, param) -> (id = 5 -> 30 + 5 * (param - 1) < 2 ^ 32)%Z -> Z.of_nat (length x) = zdt_dim id param ->
  (exists f1 f2, zdt_fitness o id x = Ok [f1; f2]) /\ exists d, zdt_p_distance o id x = Ok d.
Proof.
  intros I0 C W L. destruct (ctor_cases id param C I0) as [P2 IDS]. destruct (zdt_sum_ok o x) as [s S].
  destruct IDS as [-> | [-> | [-> | [-> | [-> | ->]]]]]; cbn [zdt_dim Z.eqb Pos.eqb] in L; unfold zdt_fitness, zdt_p_distance; cbn [Z.eqb Pos.eqb orb].
  5: { specialize (W eq_refl). unfold zdt_dim in L. cbn [Z.eqb Pos.eqb] in L. rewrite Z.mod_small in L by lia. set (m := Z.to_nat (param - 1)). assert (LM : length x = (30 + 5 * m)%nat) by (subst m; lia).
       unfold zdt5_fitness, zdt5_p_distance. rewrite (vectors5 x m LM) by lia. cbv zeta. rewrite (vectors5 (map (ar_floor o) x) m) by (rewrite map_length; lia).
       rewrite alloc5 by (subst m; lia). cbn [bind]. destruct (vget_in (map (ar_round o) x) 0) as [v ->]; [rewrite map_length; lia |]. cbn [bind].
       destruct (zdt5_ones_ok o (map (ar_round o) x) (seq 0 30)) as [u ->]; [intros k K; apply in_seq in K; rewrite map_length; lia |]. cbn [bind].
       destruct (zdt5_g_ok o (map (ar_round o) x) m) as [g ->]; [rewrite map_length; lia |]. destruct (zdt5_g_ok o (map (ar_floor o) x) m) as [g' ->]; [rewrite map_length; lia |]. cbn [bind]. eauto. }
  all: unfold zdt_dim in L; cbn [Z.eqb Pos.eqb] in L; destruct (vget_in x 0) as [v V]; [lia |].
  all: unfold zdt1_fitness, zdt2_fitness, zdt3_fitness, zdt4_fitness, zdt6_fitness, zdt123_p_distance, zdt4_p_distance, zdt6_p_distance; rewrite V; cbn [bind]; try (rewrite S; cbn [bind]; eauto).
  destruct (zdt4_loop_ok o x (ar_add o (ar_lit o 1 1) (ar_mul o (ar_lit o 10 1) (size_less_one o x)))) as [a ->]. destruct (zdt4_loop_ok o x (ar_lit o 0 1)) as [b ->]. cbn [bind]. eauto.
Qed.
Lemma zdt5_wraps {A} (o : arith A) x : zdt_ctor 5 858993455 = Ok (5, 858993455)%Z /\ zdt_dim 5 858993455 = 4%Z /\ (length x = 4%nat -> zdt_fitness o 5 x = Throw (UserExn 0)).
Proof.
  split; [reflexivity |]. split; [reflexivity |]. intros L. unfold zdt_fitness. cbn [Z.eqb Pos.eqb]. unfold zdt5_fitness, zdt5_vectors. rewrite L. reflexivity.
Qed.

Local Open Scope R_scope.
Lemma zdt_fronts id param : (0 <= id)%Z -> (param < 2 ^ 32)%Z -> zdt_ctor id param = Ok (id, param) -> (id = 5 -> 30 + 5 * (param - 1) < 2 ^ 32)%Z ->
  forall x, zdt_admissible id param x -> zdt_p_distance Rar id x = Ok 0 -> exists f1, zdt_fitness Rar id x = Ok [f1; zdt_front id param f1].
Proof.
  intros I0 M C W x Dx. destruct (ctor_cases id param C I0) as [P2 IDS].
  assert (N2 : (2 <= Z.to_nat param)%nat) by lia. assert (N3 : (Z.of_nat (Z.to_nat param) < 2 ^ 32)%Z) by lia.
  assert (D1 : forall a, a / 1 = a) by (intros; field).
  destruct IDS as [-> | [-> | [-> | [-> | [-> | ->]]]]]; unfold zdt_fitness, zdt_p_distance, zdt_front; cbn [Z.eqb Pos.eqb orb].
  - apply (adm_box 1 param) in Dx; [| auto]. rewrite (zdt123_dist (Z.to_nat param)) by assumption. intros H. injection H as H. rewrite (zdt1_value (Z.to_nat param)) by assumption. exists (nth 0 x 0). do 3 f_equal. unfold h1. replace (g123 x) with 1 by lra. rewrite !D1. ring.
  - apply (adm_box 2 param) in Dx; [| auto]. rewrite (zdt123_dist (Z.to_nat param)) by assumption. intros H. injection H as H. rewrite (zdt2_value (Z.to_nat param)) by assumption. exists (nth 0 x 0). do 3 f_equal. unfold h2. replace (g123 x) with 1 by lra. rewrite !D1. ring.
  - apply (adm_box 3 param) in Dx; [| auto]. rewrite (zdt123_dist (Z.to_nat param)) by assumption. intros H. injection H as H. rewrite (zdt3_value (Z.to_nat param)) by assumption. exists (nth 0 x 0). do 3 f_equal. unfold h3. replace (g123 x) with 1 by lra. rewrite !D1. ring.
  - apply (adm_box4 4 param) in Dx; [| auto | auto]. rewrite (zdt4_dist (Z.to_nat param)) by assumption. intros H. injection H as H. rewrite (zdt4_value (Z.to_nat param)) by assumption. exists (nth 0 x 0). do 3 f_equal. unfold h1. replace (g4 x) with 1 by lra. rewrite !D1. ring.
  - specialize (W eq_refl). apply (adm_box5 5 param) in Dx; [| auto | auto | auto]. assert (WM : (Z.of_nat (30 + 5 * Z.to_nat (param - 1)) < 2 ^ 32)%Z) by lia. rewrite (zdt5_dist (Z.to_nat (param - 1))) by assumption. intros H. injection H as H. rewrite (zdt5_value (Z.to_nat (param - 1))) by assumption. exists (f5 x). do 3 f_equal. unfold h5.
    replace (g5 (Z.to_nat (param - 1)) x) with (INR (Z.to_nat (param - 1))) by lra. rewrite INR_IZR_INZ, Z2Nat.id, minus_IZR by lia. unfold Rdiv. ring.
  - apply (adm_box 6 param) in Dx; [| auto]. rewrite (zdt6_dist (Z.to_nat param)) by assumption. intros H. injection H as H. rewrite (zdt6_value (Z.to_nat param)) by assumption. exists (f6 x). do 3 f_equal. unfold h2. replace (g6 x) with 1 by lra. rewrite !D1. ring.
Qed.

Lemma zdt_pop id param : (0 <= id)%Z -> (param < 2 ^ 32)%Z -> zdt_ctor id param = Ok (id, param) -> (id = 5 -> 30 + 5 * (param - 1) < 2 ^ 32)%Z -> id <> 3%Z ->
  forall xs, xs <> [] -> Forall (zdt_admissible id param) xs -> exists d, zdt_p_distance_pop Rar id xs = Ok d /\ 0 <= d /\
    (d = 0 <-> Forall (pareto_optimal (zdt_admissible id param) (zdt_fitness Rar id)) xs).
Proof.
  intros I0 M C W I3 xs NE ALL. unfold zdt_p_distance_pop.
  assert (E : forall xs c, 0 <= c -> Forall (zdt_admissible id param) xs -> exists c', mfold (fun c x => bind (zdt_p_distance Rar id x) (fun d => Ok (c + d))) c xs = Ok c' /\ c <= c' /\ (c' = 0 <-> c = 0 /\ Forall (pareto_optimal (zdt_admissible id param) (zdt_fitness Rar id)) xs)).
  { clear xs NE ALL. induction xs as [| x xs IH]; intros c C0 ALL; cbn [mfold]; [exists c; split; [reflexivity | split; [lra | split; [auto | tauto]]] |].
    inversion ALL; subst. destruct (zdt_main id param I0 M C W x) as [d [-> [D0 [N S]]]]; [assumption |]. cbn [bind]. destruct (IH (c + d)) as [c' [-> [L Q]]]; [lra | assumption |]. exists c'. split; [reflexivity |]. split; [lra |]. rewrite Q. split.
    - intros [Z F]. assert (d = 0) by lra. split; [lra |]. constructor; [now apply S | exact F].
    - intros [Z F]. inversion F; subst. assert (d = 0) by now apply N. split; [lra | assumption]. }
  destruct (E xs 0) as [c [EC [L Q]]]; [lra | exact ALL |]. rewrite lit1. cbn [ar_add Rar]. rewrite EC. cbn [bind]. eexists. split; [reflexivity |]. rewrite lit1, <- INR_IZR_INZ. cbn [ar_div Rar].
  assert (P : 0 < INR (length xs)) by (apply lt_0_INR; destruct xs; [now elim NE | cbn; lia]). split; [apply Rmult_le_pos; [exact L | left; now apply Rinv_0_lt_compat] |].
  split.
  - intros Z. apply Q. unfold Rdiv in Z. apply Rmult_integral in Z. destruct Z as [Z | Z]; [exact Z |]. apply Rinv_0_lt_compat in P. lra.
  - intros F. assert (c = 0) by (apply Q; auto). subst. unfold Rdiv. ring.
Qed.

Lemma g123_2 a b : g123 [a; b] = 1 + 9 * b.
Proof. unfold g123, tail. cbn. field. Qed.
Lemma zdt3_counterexample : exists x y fx fy, zdt_ctor 3 2 = Ok (3, 2)%Z /\ zdt_admissible 3 2 x /\ zdt_admissible 3 2 y /\ zdt_p_distance Rar 3 x = Ok 0 /\
  zdt_fitness Rar 3 x = Ok fx /\ zdt_fitness Rar 3 y = Ok fy /\ pareto_dominates fy fx.
Proof.
  exists [3 / 20; 0], [1 / 20; 0], [3 / 20; h3 (3 / 20) 1], [1 / 20; h3 (1 / 20) 1].
  assert (BX : box 2 [3 / 20; 0]). { split; [reflexivity |]. intros i I. destruct i as [| [| i]]; cbn; [lra | lra | lia]. }
  assert (BY : box 2 [1 / 20; 0]). { split; [reflexivity |]. intros i I. destruct i as [| [| i]]; cbn; [lra | lra | lia]. }
  assert (GX : g123 [3 / 20; 0] = 1) by (rewrite g123_2; lra). assert (GY : g123 [1 / 20; 0] = 1) by (rewrite g123_2; lra).
  assert (K : (2 <= 2)%nat) by lia. assert (K' : (Z.of_nat 2 < 2 ^ 32)%Z) by (cbn; lia).
  split; [reflexivity |]. split; [apply adm_box; [auto | exact BX] |]. split; [apply adm_box; [auto | exact BY] |].
  split; [change (zdt_p_distance Rar 3 [3 / 20; 0]) with (zdt123_p_distance Rar [3 / 20; 0]); rewrite (zdt123_dist 2 _ K K' BX), GX; f_equal; lra |].
  split; [change (zdt_fitness Rar 3 [3 / 20; 0]) with (zdt3_fitness Rar [3 / 20; 0]); rewrite (zdt3_value 2 _ K K' BX), GX; reflexivity |].
  split; [change (zdt_fitness Rar 3 [1 / 20; 0]) with (zdt3_fitness Rar [1 / 20; 0]); rewrite (zdt3_value 2 _ K K' BY), GY; reflexivity |].
  split; [| intros Q; injection Q; intros; lra]. constructor; [lra |]. constructor; [| constructor]. unfold h3.
  replace (10 * PI * (1 / 20)) with (PI / 2) by field. replace (10 * PI * (3 / 20)) with (3 * (PI / 2)) by field. rewrite sin_PI2, sin_3PI2.
  replace (1 / 20 / 1) with (1 / 20) by field. replace (3 / 20 / 1) with (3 / 20) by field.
  assert (A : sqrt (3 / 20) <= 4 / 10). { replace (4 / 10) with (sqrt ((4 / 10) * (4 / 10))) by (apply sqrt_square; lra). apply sqrt_le_1; lra. }
  assert (B : 2 / 10 <= sqrt (1 / 20)). { replace (2 / 10) with (sqrt ((2 / 10) * (2 / 10))) by (apply sqrt_square; lra). apply sqrt_le_1; lra. }
  lra.
Qed.

Lemma map_rep {B C} (f : B -> C) b m : map f (repeat b m) = repeat (f b) m.
Proof. induction m; cbn; congruence. Qed.
Lemma zdt5_rounds : exists x y, zdt_ctor 5 2 = Ok (5, 2)%Z /\ in_bounds x (zdt_bounds Rar 5 35) /\ in_bounds y (zdt_bounds Rar 5 35) /\ zdt_fitness Rar 5 x = zdt_fitness Rar 5 y /\
  zdt_p_distance Rar 5 x = Ok 1 /\ zdt_p_distance Rar 5 y = Ok 0.
Proof.
  exists (repeat (9 / 10) 35), (repeat 1 35). split; [reflexivity |].
  split; [apply box01; [reflexivity |]; split; [apply repeat_length |]; intros i I; rewrite rep_nth by exact I; lra |].
  split; [apply box01; [reflexivity |]; split; [apply repeat_length |]; intros i I; rewrite rep_nth by exact I; lra |].
  assert (RX : map (ar_round Rar) (repeat (9 / 10) 35) = repeat 1 35). { rewrite map_rep. f_equal. change (ar_round Rar (9 / 10)) with (rround (9 / 10)). unfold rround. destruct (Rle_dec 0 (9 / 10)); [| lra]. unfold rfloor. f_equal. apply int_part_unique. lra. }
  assert (BY : binary (repeat 1 35)) by (intros v V; apply repeat_spec in V; now right).
  assert (FX : map (ar_floor Rar) (repeat (9 / 10) 35) = repeat 0 35). { rewrite map_rep. f_equal. change (ar_floor Rar (9 / 10)) with (rfloor (9 / 10)). unfold rfloor. f_equal. apply int_part_unique. lra. }
  assert (BZ : binary (repeat 0 35)) by (intros v V; apply repeat_spec in V; now left).
  assert (K : (Z.of_nat (30 + 5 * 1) < 2 ^ 32)%Z) by (cbn; lia).
  split; [| split].
  - unfold zdt_fitness. cbn [Z.eqb Pos.eqb]. unfold zdt5_fitness, zdt5_vectors. rewrite RX, (binary_round _ BY), !repeat_length. reflexivity.
  - assert (Q : zdt_p_distance Rar 5 (repeat (9 / 10) 35) = zdt5_p_distance Rar (repeat 0 35)). { unfold zdt_p_distance. cbn [Z.eqb Pos.eqb orb]. unfold zdt5_p_distance. rewrite FX, (binary_floor _ BZ). reflexivity. }
    rewrite Q, (zdt5_dist 1 _ K) by (split; [apply repeat_length | exact BZ]). f_equal. unfold g5, rsum, blk. cbn [seq map fold_right].
    replace (cnt (repeat 0 35) _) with 0%Z; [cbn; lra |]. cbn. destruct (Req_EM_T 0 1); [lra | reflexivity].
  - change (zdt_p_distance Rar 5 (repeat 1 35)) with (zdt5_p_distance Rar (repeat 1 35)). rewrite (zdt5_dist 1 _ K) by (split; [apply repeat_length | exact BY]). f_equal. unfold g5, rsum, blk. cbn [seq map fold_right].
    replace (cnt (repeat 1 35) _) with 5%Z; [cbn; lra |]. cbn. destruct (Req_EM_T 1 1); [reflexivity | lra].
Qed.
Lemma zdt1_example : zdt_ctor 1 2 = Ok (1, 2)%Z /\ zdt_admissible 1 2 [1 / 4; 0] /\ zdt_p_distance Rar 1 [1 / 4; 0] = Ok 0 /\ zdt_admissible 1 2 [1 / 4; 1] /\ zdt_p_distance Rar 1 [1 / 4; 1] = Ok 9.
Proof.
  assert (K : (2 <= 2)%nat) by lia. assert (K' : (Z.of_nat 2 < 2 ^ 32)%Z) by (cbn; lia).
  assert (BX : box 2 [1 / 4; 0]). { split; [reflexivity |]. intros i I. destruct i as [| [| i]]; cbn; [lra | lra | lia]. }
  assert (BY : box 2 [1 / 4; 1]). { split; [reflexivity |]. intros i I. destruct i as [| [| i]]; cbn; [lra | lra | lia]. }
  split; [reflexivity |]. split; [apply adm_box; [auto | exact BX] |]. split; [change (zdt_p_distance Rar 1 [1 / 4; 0]) with (zdt123_p_distance Rar [1 / 4; 0]); rewrite (zdt123_dist 2 _ K K' BX), g123_2; f_equal; lra |].
  split; [apply adm_box; [auto | exact BY] |]. change (zdt_p_distance Rar 1 [1 / 4; 1]) with (zdt123_p_distance Rar [1 / 4; 1]); rewrite (zdt123_dist 2 _ K K' BY), g123_2; f_equal; lra.
Qed.

Lemma zdt_defined_fits {A} (o : arith A) id param x : (0 <= id)%Z -> zdt_ctor id param = Ok (id, param) -> zdt_fits id param -> Z.of_nat (length x) = zdt_dim id param ->
  (exists f1 f2, zdt_fitness o id x = Ok [f1; f2]) /\ exists d, zdt_p_distance o id x = Ok d.
Proof. intros I C [_ W] L. now apply (zdt_defined o id param). Qed.
Lemma zdt_main_fits id param : (0 <= id)%Z -> zdt_ctor id param = Ok (id, param) -> zdt_fits id param ->
  forall x, zdt_admissible id param x -> exists d, zdt_p_distance Rar id x = Ok d /\ 0 <= d /\
    (pareto_optimal (zdt_admissible id param) (zdt_fitness Rar id) x -> d = 0) /\ (id <> 3%Z -> d = 0 -> pareto_optimal (zdt_admissible id param) (zdt_fitness Rar id) x).
Proof. intros I C [M W]. now apply zdt_main. Qed.
Lemma zdt_fronts_fits id param : (0 <= id)%Z -> zdt_ctor id param = Ok (id, param) -> zdt_fits id param ->
  forall x, zdt_admissible id param x -> zdt_p_distance Rar id x = Ok 0 -> exists f1, zdt_fitness Rar id x = Ok [f1; zdt_front id param f1].
Proof. intros I C [M W]. now apply zdt_fronts. Qed.
Lemma zdt_pop_fits id param : (0 <= id)%Z -> zdt_ctor id param = Ok (id, param) -> zdt_fits id param -> id <> 3%Z ->
  forall xs, xs <> [] -> Forall (zdt_admissible id param) xs -> exists d, zdt_p_distance_pop Rar id xs = Ok d /\ 0 <= d /\
    (d = 0 <-> Forall (pareto_optimal (zdt_admissible id param) (zdt_fitness Rar id)) xs).
Proof. intros I C [M W]. now apply zdt_pop. Qed.
