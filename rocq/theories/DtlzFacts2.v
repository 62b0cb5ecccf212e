(** DTLZ: values, optimality. *)
From Coq Require Import List ZArith Lia Reals Lra Bool.
Import ListNotations.
From Verif Require Import Outcome BaseFacts TestArith TestProblems SpecTest SpecPareto TestFacts TestFacts2 TestFacts4 TestFacts5 ZdtFacts Dtlz DtlzFacts.
Local Open Scope R_scope.

Lemma pi_half_R : pi_half Rar = PI / 2.
Proof. unfold pi_half. rewrite lit1. reflexivity. Qed.
Lemma angle_signs a : 0 <= a <= 1 -> 0 <= cos (a * (PI / 2)) /\ 0 <= sin (a * (PI / 2)).
Proof.
  intros H. assert (P := PI_RGT_0). split.
  - apply cos_ge_0; nra.
  - apply sin_ge_0; nra.
Qed.
Lemma angle_one a : cos a ^ 2 + sin a ^ 2 = 1.
Proof. pose proof (sin2_cos2 a) as H. unfold Rsqr in H. lra. Qed.
Lemma rpow_alpha v alpha : (0 <= alpha)%Z -> rpow v (IZR alpha) = v ^ Z.to_nat alpha.
Proof. intros H. rewrite <- (Z2Nat.id alpha) at 1 by exact H. apply rpow_nat. Qed.
Lemma pow_unit v k : 0 <= v <= 1 -> 0 <= v ^ k <= 1.
Proof. intros H. split; [apply pow_le; lra |]. rewrite <- (pow1 k). apply pow_incr. lra. Qed.

Lemma nth_map_seq1 (T : nat -> R) m j : (j < m)%nat -> nth j (map T (seq 1 m)) 0 = T (1 + j)%nat.
Proof. intros H. rewrite (nth_indep _ 0 (T 0%nat)) by (rewrite map_length, seq_length; lia). rewrite map_nth, seq_nth by lia. reflexivity. Qed.

Section Problem.
Context (id : Z) (dim M : nat) (alpha : Z).
Context (I : (1 <= id <= 7)%Z) (M2 : (2 <= M)%nat) (MD : (M < dim)%nat) (A0 : (0 <= alpha)%Z).
Definition dd (x : list R) : R := g_func Rar id (skipn (M - 1) x).
Lemma dist_R x : length x = dim -> dtlz_p_distance Rar id dim M x = Ok (dd x).
Proof using All. intros L. unfold dtlz_p_distance. rewrite L, Nat.eqb_refl. cbn [negb]. rewrite x_M_ok by lia. cbn [bind]. rewrite lit1. unfold dd. f_equal. cbn [ar_add Rar]. ring. Qed.
Lemma dd_nonneg x : box dim x -> 0 <= dd x.
Proof using All.
  intros [L B]. apply g_nonneg; [exact I | rewrite skipn_length; lia |]. intros v V. assert (IN : In v x) by (rewrite <- (firstn_skipn (M - 1) x); apply in_or_app; now right).
  destruct (In_nth _ _ 0 IN) as [i [Hi <-]]. apply B. lia.
Qed.
Definition best (x : list R) : list R := firstn (M - 1) x ++ repeat (best_tail id) (dim - (M - 1)).
Lemma best_box x : box dim x -> box dim (best x).
Proof using All.
  intros [L B]. assert (LB : length (best x) = dim) by (unfold best; rewrite app_length, firstn_length, repeat_length; lia). split; [exact LB |]. intros i Hi. unfold best.
  destruct (Nat.ltb_spec i (M - 1)).
  - rewrite app_nth1 by (rewrite firstn_length; lia). replace (nth i (firstn (M - 1) x) 0) with (nth i x 0); [apply B; lia |]. rewrite <- (firstn_skipn (M - 1) x) at 1. rewrite app_nth1 by (rewrite firstn_length; lia). reflexivity.
  - rewrite app_nth2 by (rewrite firstn_length; lia). rewrite rep_nth by (rewrite firstn_length; lia). unfold best_tail. destruct (id <=? 5)%Z; lra.
Qed.
Lemma best_same x j : length x = dim -> (j < M - 1)%nat -> nth j (best x) 0 = nth j x 0.
Proof using All. intros L J. unfold best. rewrite app_nth1 by (rewrite firstn_length; lia). rewrite <- (firstn_skipn (M - 1) x) at 2. rewrite app_nth1 by (rewrite firstn_length; lia). reflexivity. Qed.
Lemma best_dd x : length x = dim -> dd (best x) = 0.
Proof using All.
  intros L. unfold dd, best. rewrite skipn_app, (skipn_all2 (firstn (M - 1) x)) by (rewrite firstn_length; lia). rewrite firstn_length. replace (M - 1 - Nat.min (M - 1) (length x))%nat with 0%nat by lia. cbn [app skipn]. apply g_best; [exact I | lia].
Qed.

(** DTLZ1 *)
Definition F1 (x : list R) : list R := vals (M - 1) (/ 2 * (1 + dd x)) (fun j => nth j x 0) (fun j => 1 - nth j x 0).
Lemma fit1 x : id = 1%Z -> length x = dim -> dtlz_fitness Rar id M alpha x = Ok (F1 x).
Proof using All.
  intros E L. unfold dtlz_fitness. rewrite E at 1. cbn [Z.eqb Pos.eqb]. unfold f1_objfun. rewrite x_M_ok by lia. cbn [bind]. cbv zeta. rewrite half, !lit1. fold (dd x).
  rewrite shape_R; [reflexivity | exact M2 | lia |]. intros v. cbn [ar_add ar_sub ar_mul Rar]. ring.
Qed.
(** DTLZ2 - DTLZ6 *)
Definition theta (g : R) (x : list R) : list R := nth 0 x 0 :: map (fun i => 1 / (2 * (1 + g)) + g * nth i x 0 / (1 + g)) (seq 1 (M - 1)).
Definition ang (x : list R) (j : nat) : R := if (id =? 4)%Z then nth j x 0 ^ Z.to_nat alpha else if (5 <=? id)%Z then nth j (theta (dd x) x) 0 else nth j x 0.
Definition F2 (x : list R) : list R := vals (M - 1) (1 + dd x) (fun j => cos (ang x j * (PI / 2))) (fun j => sin (ang x j * (PI / 2))).
Lemma ang_range x j : box dim x -> (j < M - 1)%nat -> 0 <= ang x j <= 1.
Proof using All.
  intros Bx J. pose proof (dd_nonneg x Bx) as G. destruct Bx as [L B]. unfold ang. destruct (id =? 4)%Z; [apply pow_unit, B; lia |]. destruct (5 <=? id)%Z; [| apply B; lia].
  unfold theta. destruct j as [| j]; [apply B; lia |]. cbn [nth]. rewrite nth_map_seq1 by lia. assert (V : 0 <= nth (1 + j) x 0 <= 1) by (apply B; lia). set (g := dd x) in *. set (v := nth (1 + j) x 0) in *.
  replace (1 / (2 * (1 + g)) + g * v / (1 + g)) with ((1 + 2 * (g * v)) / (2 * (1 + g))) by (field; lra). assert (GV : 0 <= g * v <= g) by nra. split.
  - apply Rmult_le_pos; [lra | left; apply Rinv_0_lt_compat; lra].
  - apply Rmult_le_reg_r with (2 * (1 + g)); [lra |]. unfold Rdiv. rewrite Rmult_assoc, Rinv_l by lra. lra.
Qed.
Lemma fit2 x : (2 <= id <= 6)%Z -> length x = dim -> dtlz_fitness Rar id M alpha x = Ok (F2 x).
Proof using All.
  intros E L. unfold dtlz_fitness.
  destruct (Z.eqb_spec id 1); [lia |]. destruct (Z.eqb_spec id 2); [| destruct (Z.eqb_spec id 3)]; cbn [orb].
  1, 2: unfold f23_objfun; rewrite x_M_ok by lia; cbn [bind]; cbv zeta; rewrite !lit1; fold (dd x); rewrite shape_R by (try assumption; try lia; intros; rewrite pi_half_R; reflexivity);
    f_equal; apply vals_ext; intros j J; unfold ang; destruct (Z.eqb_spec id 4); [lia |]; destruct (Z.leb_spec 5 id); [lia |]; rewrite pi_half_R; split; reflexivity.
  destruct (Z.eqb_spec id 4) as [E4 | E4].
  - unfold f4_objfun; rewrite x_M_ok by lia; cbn [bind]; cbv zeta; rewrite !lit1; fold (dd x). rewrite shape_R by (try assumption; try lia; intros; rewrite pi_half_R; reflexivity).
    f_equal; apply vals_ext; intros j J; unfold ang. destruct (Z.eqb_spec id 4); [| lia]. rewrite pi_half_R. cbn [ar_pow Rar]. rewrite rpow_alpha by exact A0. split; reflexivity.
  - assert (Q : ((id =? 5) || (id =? 6))%Z%bool = true) by (destruct (Z.eqb_spec id 5), (Z.eqb_spec id 6); try reflexivity; lia). rewrite Q.
    unfold f56_objfun; rewrite x_M_ok by lia; cbn [bind]; cbv zeta. fold (dd x). unfold f56_theta. rewrite vget_nth by lia. cbn [bind]. cbv zeta.
    rewrite (mmap_ok _ (fun i => 1 / (2 * (1 + dd x)) + dd x * nth i x 0 / (1 + dd x))) by (intros i Hi; apply in_seq in Hi; rewrite vget_nth by lia; cbn [bind]; rewrite !lit1; reflexivity).
    cbn [bind]. fold (theta (dd x) x). rewrite !lit1. rewrite shape_R; [| exact M2 | unfold theta; cbn [length]; rewrite map_length, seq_length; lia | intros; rewrite pi_half_R; reflexivity].
    f_equal; apply vals_ext; intros j J; unfold ang. destruct (Z.eqb_spec id 4); [lia |]. destruct (Z.leb_spec 5 id); [| lia]. rewrite pi_half_R. split; reflexivity.
Qed.
(** DTLZ7 *)
Definition F7 (x : list R) : list R := firstn (M - 1) x ++ [(2 + dd x) * INR M - sumf (fun v => v * (1 + sin (3 * PI * v))) (firstn (M - 1) x)].
Lemma sumf_scale c t x : sumf (fun v => t v * c) x = sumf t x * c.
Proof using All. induction x as [| v x IH]; cbn [sumf]; [ring | rewrite IH; ring]. Qed.
Lemma fit7 x : id = 7%Z -> box dim x -> dtlz_fitness Rar id M alpha x = Ok (F7 x).
Proof using All.
  intros E Bx. pose proof (dd_nonneg x Bx) as G. destruct Bx as [L B]. unfold dtlz_fitness. rewrite E. cbn [Z.eqb Pos.eqb orb]. rewrite <- E. unfold f7_objfun. rewrite x_M_ok by lia. cbn [bind]. cbv zeta. fold (dd x).
  rewrite mmap_vget by lia. cbn [bind skipn]. unfold F7. do 3 f_equal. unfold h7_func. rewrite acc_R, !lit1, <- INR_IZR_INZ. cbn [ar_add ar_sub ar_mul ar_div ar_sin ar_pi Rar].
  rewrite (sumf_ext _ (fun v => v * (1 + sin (3 * PI * v)) * / (1 + (1 + dd x)))) by (intros; unfold Rdiv; ring). rewrite (sumf_scale _ (fun v => v * (1 + sin (3 * PI * v)))). field. lra.
Qed.

Definition Fx (x : list R) : list R := if (id =? 1)%Z then F1 x else if (id =? 7)%Z then F7 x else F2 x.
Lemma fit_R x : box dim x -> dtlz_fitness Rar id M alpha x = Ok (Fx x) /\ length (Fx x) = M.
Proof using All.
  intros Bx. assert (L := proj1 Bx). unfold Fx. destruct (Z.eqb_spec id 1); [split; [now apply fit1 | unfold F1; rewrite vals_length; lia] |].
  destruct (Z.eqb_spec id 7); [split; [now apply fit7 | unfold F7; rewrite app_length, firstn_length; cbn; lia] |].
  split; [apply fit2; [lia | exact L] | unfold F2; rewrite vals_length; lia].
Qed.
Lemma sum1 x : id = 1%Z -> box dim x -> total (Fx x) = / 2 * (1 + dd x).
Proof using All. intros E _. unfold Fx. destruct (Z.eqb_spec id 1); [| contradiction]. unfold F1. apply vals_sum. intros; lra. Qed.
Lemma sum2 x : (2 <= id <= 6)%Z -> total_squares (Fx x) = (1 + dd x) ^ 2.
Proof using All.
  intros E. unfold Fx. destruct (Z.eqb_spec id 1); [lia |]. destruct (Z.eqb_spec id 7); [lia |]. unfold F2. apply vals_sumsq. intros; apply angle_one.
Qed.
Lemma nonneg16 x : (id <= 6)%Z -> box dim x -> Forall (Rle 0) (Fx x).
Proof using All.
  intros E Bx. pose proof (dd_nonneg x Bx). unfold Fx. destruct (Z.eqb_spec id 1).
  - apply vals_nonneg; [lra |]. intros j J. destruct Bx as [L B]. specialize (B j). lra || (assert (0 <= nth j x 0 <= 1) by (apply B; lia); lra).
  - destruct (Z.eqb_spec id 7); [lia |]. apply vals_nonneg; [lra |]. intros j J. apply angle_signs. now apply ang_range.
Qed.
Lemma W1 t : 0 <= t -> / 2 * (1 + 0) <= / 2 * (1 + t) /\ (/ 2 * (1 + t) = / 2 * (1 + 0) -> t = 0).
Proof using All. intros H. split; [lra | intros; lra]. Qed.
Lemma W2 t : 0 <= t -> (1 + 0) ^ 2 <= (1 + t) ^ 2 /\ ((1 + t) ^ 2 = (1 + 0) ^ 2 -> t = 0).
Proof using All. intros H. split; [nra | intros; nra]. Qed.
Lemma sufficient x : (id <= 6)%Z -> box dim x -> dd x = 0 -> pareto_optimal (box dim) (dtlz_fitness Rar id M alpha) x.
Proof using All.
  intros E Bx Z. destruct (Z.eq_dec id 1) as [E1 | E1].
  - apply (measure_sufficient (box dim) _ Fx dd total (fun t => / 2 * (1 + t)) sumL_mono W1); [| exact Bx | exact Z].
    intros y By. split; [now apply fit_R |]. split; [now apply nonneg16 |]. split; [now apply sum1 | now apply dd_nonneg].
  - apply (measure_sufficient (box dim) _ Fx dd total_squares (fun t => (1 + t) ^ 2) sumsq_mono W2); [| exact Bx | exact Z].
    intros y By. split; [now apply fit_R |]. split; [now apply nonneg16 |]. split; [apply sum2; lia | now apply dd_nonneg].
Qed.
Lemma best_le x : (id <= 4)%Z -> box dim x -> Forall2 Rle (Fx (best x)) (Fx x).
Proof using All.
  intros E Bx. pose proof (dd_nonneg x Bx) as G. assert (Z := best_dd x (proj1 Bx)). assert (S := fun j => best_same x j (proj1 Bx)). unfold Fx. destruct (Z.eqb_spec id 1).
  - unfold F1. rewrite Z. rewrite (vals_ext _ (fun j => nth j (best x) 0) _ (fun j => nth j x 0) (fun j => 1 - nth j x 0)) by (intros j J; rewrite S by exact J; auto).
    apply vals_le; [lra |]. intros j J. destruct Bx as [L B]. assert (0 <= nth j x 0 <= 1) by (apply B; lia). lra.
  - destruct (Z.eqb_spec id 7); [lia |]. unfold F2. rewrite Z. rewrite (vals_ext _ (fun j => cos (ang (best x) j * (PI / 2))) _ (fun j => cos (ang x j * (PI / 2))) (fun j => sin (ang x j * (PI / 2)))).
    + apply vals_le; [lra |]. intros j J. apply angle_signs. now apply ang_range.
    + intros j J. unfold ang. rewrite S by exact J. destruct (Z.leb_spec 5 id); [lia |]. auto.
Qed.
Lemma necessary x : (id <= 4)%Z -> pareto_optimal (box dim) (dtlz_fitness Rar id M alpha) x -> dd x = 0.
Proof using All.
  intros E O. assert (Bx := proj1 O). assert (WIT : exists y, box dim y /\ Forall2 Rle (Fx y) (Fx x) /\ dd y = 0) by (exists (best x); split; [now apply best_box | split; [now apply best_le | apply best_dd; exact (proj1 Bx)]]).
  destruct (Z.eq_dec id 1) as [E1 | E1].
  - apply (measure_necessary (box dim) _ Fx dd total (fun t => / 2 * (1 + t)) W1) with (x := x) in O; [exact O | | exact WIT].
    intros y By. split; [now apply fit_R |]. split; [apply nonneg16; [lia | exact By] |]. split; [now apply sum1 | now apply dd_nonneg].
  - apply (measure_necessary (box dim) _ Fx dd total_squares (fun t => (1 + t) ^ 2) W2) with (x := x) in O; [exact O | | exact WIT].
    intros y By. split; [now apply fit_R |]. split; [apply nonneg16; [lia | exact By] |]. split; [apply sum2; lia | now apply dd_nonneg].
Qed.
Lemma necessary7 x : id = 7%Z -> pareto_optimal (box dim) (dtlz_fitness Rar id M alpha) x -> dd x = 0.
Proof using All.
  intros E [Bx O]. pose proof (dd_nonneg x Bx) as G. destruct (Req_dec (dd x) 0) as [Q | Q]; [exact Q | exfalso].
  assert (BB := best_box x Bx). assert (Z := best_dd x (proj1 Bx)). apply (O (best x) (F7 x) (F7 (best x)) BB (fit7 x E Bx) (fit7 _ E BB)).
  assert (FE : firstn (M - 1) (best x) = firstn (M - 1) x). { unfold best. rewrite firstn_app, firstn_firstn, Nat.min_id. destruct Bx as [L _]. rewrite firstn_length. replace (M - 1 - Nat.min (M - 1) (length x))%nat with 0%nat by lia. cbn [firstn]. apply app_nil_r. }
  unfold F7. rewrite FE, Z. assert (P : 0 < INR M) by (apply lt_0_INR; lia). split.
  - apply Forall2_app; [clear; induction (firstn (M - 1) x); constructor; [lra | assumption] |]. constructor; [nra | constructor].
  - intros H. apply app_inv_head in H. injection H as H. nra.
Qed.
End Problem.
