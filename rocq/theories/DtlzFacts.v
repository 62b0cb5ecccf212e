(** Facts about the DTLZ problems. *)
From Coq Require Import List ZArith Lia Reals Lra Bool.
Import ListNotations.
From Verif Require Import Outcome BaseFacts TestArith TestProblems SpecTest SpecPareto TestFacts TestFacts2 TestFacts4 TestFacts5 ZdtFacts Dtlz.

Lemma mmap_vget {A} (x : list A) : forall m k, (k + m <= length x)%nat -> mmap (vget x) (seq k m) = Ok (firstn m (skipn k x)).
Proof.
  induction m as [| m IH]; intros k H; cbn [seq mmap]; [reflexivity |]. unfold vget at 1. destruct (nth_error x k) as [v |] eqn:E; [| apply nth_error_None in E; lia].
  cbn [bind]. rewrite IH by lia. cbn [bind]. f_equal. destruct (nth_error_split x k E) as [l1 [l2 [-> L]]]. rewrite <- L. rewrite !skipn_app, Nat.sub_diag, skipn_all.
  replace (S (length l1) - length l1)%nat with 1%nat by lia. rewrite (skipn_all2 l1) by lia. reflexivity.
Qed.
Lemma x_M_ok {A} (x : list A) M : (M - 1 <= length x)%nat -> x_M M x = Ok (skipn (M - 1) x).
Proof. intros H. unfold x_M. rewrite mmap_vget by lia. f_equal. apply firstn_all2. rewrite skipn_length. lia. Qed.

Local Open Scope R_scope.
Fixpoint sumf (t : R -> R) (x : list R) : R := match x with [] => 0 | v :: x => t v + sumf t x end.
Lemma acc_R t x : acc Rar t x = sumf t x.
Proof.
  unfold acc. rewrite lit1. cut (forall c, fold_left (fun y v => ar_add Rar y (t v)) x c = c + sumf t x); [intros E; rewrite E; ring |].
  induction x as [| v x IH]; intros c; cbn [fold_left sumf]; [ring |]. rewrite IH. cbn [ar_add Rar]. ring.
Qed.
Lemma sumf_ext t u x : (forall v, In v x -> t v = u v) -> sumf t x = sumf u x.
Proof. induction x as [| v x IH]; intros H; cbn [sumf]; [reflexivity |]. rewrite H by now left. rewrite IH; [reflexivity |]. intros; apply H; now right. Qed.
Lemma sumf_low c t x : (forall v, In v x -> c <= t v) -> INR (length x) * c <= sumf t x.
Proof.
  induction x as [| v x IH]; intros H; [cbn; lra |]. cbn [sumf length]. rewrite S_INR. assert (c <= t v) by (apply H; now left). assert (INR (length x) * c <= sumf t x) by (apply IH; intros; apply H; now right). lra.
Qed.
Lemma sumf_const t v m : sumf t (repeat v m) = INR m * t v.
Proof. induction m as [| m IH]; [cbn; ring |]. cbn [repeat sumf]. rewrite IH, S_INR. ring. Qed.

Fixpoint pr (c : nat -> R) (k : nat) : R := match k with O => 1 | S k => pr c k * c k end.
Fixpoint down (h : nat -> R) (k : nat) : list R := match k with O => [] | S k => h k :: down h k end.
Definition vals (K : nat) (b : R) (c s : nat -> R) : list R := b * pr c K :: down (fun m => b * pr c m * s m) K.
Lemma down_map h K : map (fun i => h (K - i)%nat) (seq 1 K) = down h K.
Proof.
  induction K as [| K IH]; [reflexivity |]. cbn [seq map down]. f_equal; [f_equal; lia |]. rewrite <- seq_shift, map_map. rewrite <- IH. apply map_ext. intros i. f_equal. 
Qed.
Lemma prod_R (c : nat -> R) b k : fold_left (fun p i => p * c i) (seq 0 k) b = b * pr c k.
Proof. induction k as [| k IH]; [cbn; ring |]. rewrite seq_S, fold_left_app, IH. cbn. ring. Qed.
Lemma shape_R M b C S last th : (2 <= M)%nat -> (M - 1 <= length th)%nat -> (forall v, last v = b * S v) ->
  shape Rar M b C S last th = Ok (vals (M - 1) b (fun j => C (nth j th 0)) (fun j => S (nth j th 0))).
Proof.
  intros H L Q. unfold shape. cbv zeta.
  assert (E : forall k, (k <= M - 1)%nat -> mfold (fun a j => bind (vget th j) (fun v => Ok (ar_mul Rar a (C v)))) b (seq 0 k) = Ok (b * pr (fun j => C (nth j th 0)) k)).
  { intros k K. rewrite <- prod_R. rewrite <- (fold_prod _ _ (fun j => Ok (C (nth j th 0)))) by reflexivity. apply mfold_ext_in. intros i s I. apply in_seq in I. rewrite vget_nth by lia. reflexivity. }
  rewrite E by lia. cbn [bind]. rewrite (mmap_ok _ (fun i => b * pr (fun j => C (nth j th 0)) (M - 1 - i) * S (nth (M - 1 - i) th 0))).
  - cbn [bind]. rewrite vget_nth by lia. cbn [bind]. f_equal. unfold vals. f_equal. rewrite <- (down_map (fun m => b * pr (fun j => C (nth j th 0)) m * S (nth m th 0))).
    assert (SQ : seq 1 (M - 1) = seq 1 (M - 2) ++ [(M - 1)%nat]). { replace (M - 1)%nat with (Datatypes.S (M - 2)) at 1 by lia. rewrite seq_S. do 2 f_equal. lia. }
    rewrite SQ, map_app. cbn [map]. rewrite Nat.sub_diag. cbn [pr]. rewrite Q. do 2 f_equal. ring.
  - intros i I. apply in_seq in I. rewrite E by lia. cbn [bind]. rewrite vget_nth by lia. cbn [bind]. cbn [ar_mul Rar]. replace (M - (i + 1))%nat with (M - 1 - i)%nat by lia. reflexivity.
Qed.

(** sums *)
Lemma vals_sum b c s K : (forall j, (j < K)%nat -> c j + s j = 1) -> total (vals K b c s) = b.
Proof.
  unfold vals. cbn [total fold_right]. fold (total (down (fun m => b * pr c m * s m) K)). induction K as [| K IH]; intros H; cbn [pr down total fold_right]; [ring |]. fold (total (down (fun m => b * pr c m * s m) K)).
  rewrite <- (IH ltac:(intros; apply H; lia)) at 3. replace (s K) with (1 - c K) by (rewrite <- (H K) by lia; ring). ring.
Qed.
Lemma vals_sumsq b c s K : (forall j, (j < K)%nat -> (c j) ^ 2 + (s j) ^ 2 = 1) -> total_squares (vals K b c s) = b ^ 2.
Proof.
  unfold vals. cbn [total_squares fold_right]. fold (total_squares (down (fun m => b * pr c m * s m) K)). induction K as [| K IH]; intros H; cbn [pr down total_squares fold_right]; [ring |]. fold (total_squares (down (fun m => b * pr c m * s m) K)).
  rewrite <- (IH ltac:(intros; apply H; lia)). replace ((b * pr c K * s K) ^ 2) with ((b * pr c K) ^ 2 * (1 - c K ^ 2)) by (rewrite <- (H K) by lia; ring). ring.
Qed.
Lemma pr_nonneg c K : (forall j, (j < K)%nat -> 0 <= c j) -> 0 <= pr c K.
Proof. induction K as [| K IH]; intros H; cbn [pr]; [lra |]. apply Rmult_le_pos; [apply IH; intros; apply H; lia | apply H; lia]. Qed.
Lemma vals_nonneg b c s K : 0 <= b -> (forall j, (j < K)%nat -> 0 <= c j /\ 0 <= s j) -> Forall (Rle 0) (vals K b c s).
Proof.
  intros B H. constructor; [apply Rmult_le_pos; [exact B | apply pr_nonneg; intros; now apply H] |]. induction K as [| K IH]; cbn [down]; constructor.
  - apply Rmult_le_pos; [apply Rmult_le_pos; [exact B | apply pr_nonneg; intros; apply H; lia] | apply H; lia].
  - apply IH. intros; apply H; lia.
Qed.
Lemma vals_le b b' c s K : 0 <= b <= b' -> (forall j, (j < K)%nat -> 0 <= c j /\ 0 <= s j) -> Forall2 Rle (vals K b c s) (vals K b' c s).
Proof.
  intros B H. assert (P : forall k, (k <= K)%nat -> b * pr c k <= b' * pr c k) by (intros k KK; apply Rmult_le_compat_r; [apply pr_nonneg; intros; apply H; lia | lra]).
  constructor; [apply P; lia |]. clear - H P. induction K as [| K IH]; cbn [down]; constructor.
  - apply Rmult_le_compat_r; [apply H; lia | apply P; lia].
  - apply IH; intros; [apply H; lia | apply P; lia].
Qed.
Lemma vals_ext b c s c' s' K : (forall j, (j < K)%nat -> c j = c' j /\ s j = s' j) -> vals K b c s = vals K b c' s'.
Proof.
  intros H. assert (P : forall k, (k <= K)%nat -> pr c k = pr c' k). { induction k as [| k IH]; intros KK; cbn [pr]; [reflexivity |]. rewrite IH by lia. f_equal. apply H. lia. }
  unfold vals. rewrite P by lia. f_equal. clear - H P. induction K as [| K IH]; cbn [down]; [reflexivity |]. rewrite P by lia. destruct (H K ltac:(lia)) as [_ ->]. f_equal. apply IH; intros; [apply H | apply P]; lia.
Qed.
Lemma vals_length b c s K : length (vals K b c s) = S K.
Proof. unfold vals. cbn [length]. f_equal. induction K; cbn; congruence. Qed.
Lemma sumL_mono a b : Forall2 Rle a b -> Forall (Rle 0) a -> total b <= total a -> a = b.
Proof.
  intros H _. assert (M : forall a b, Forall2 Rle a b -> total a <= total b) by (clear; induction 1 as [| x y a b XY H IH]; [cbn; lra |]; cbn [total fold_right]; fold (total a) (total b); lra).
  induction H as [| x y a b XY H IH]; [reflexivity |]. cbn [total fold_right]. fold (total a) (total b). intros S. pose proof (M a b H). f_equal; [lra | apply IH; lra].
Qed.
Lemma sumsq_mono a b : Forall2 Rle a b -> Forall (Rle 0) a -> total_squares b <= total_squares a -> a = b.
Proof.
  intros H. assert (M : forall a b, Forall2 Rle a b -> Forall (Rle 0) a -> total_squares a <= total_squares b).
  { clear. induction 1 as [| x y a b XY H IH]; intros P; [lra |]. inversion P; subst. cbn [total_squares fold_right]. fold (total_squares a) (total_squares b). specialize (IH ltac:(assumption)). nra. }
  induction H as [| x y a b XY H IH]; [reflexivity |]. intros P. inversion P; subst. cbn [total_squares fold_right]. fold (total_squares a) (total_squares b). intros S. pose proof (M a b H ltac:(assumption)). assert (x = y) by nra. subst. f_equal. apply IH; [assumption | lra].
Qed.

(** optimality from a monotone measure of the objectives *)
Section Measure.
Context (D : list R -> Prop) (fit : list R -> outcome (list R)) (F : list R -> list R) (d : list R -> R) (mu : list R -> R) (W : R -> R).
Context (MONO : forall a b, Forall2 Rle a b -> Forall (Rle 0) a -> mu b <= mu a -> a = b).
Context (WM : forall t, 0 <= t -> W 0 <= W t /\ (W t = W 0 -> t = 0)).
Context (VAL : forall x, D x -> fit x = Ok (F x) /\ Forall (Rle 0) (F x) /\ mu (F x) = W (d x) /\ 0 <= d x).
Lemma measure_sufficient x : D x -> d x = 0 -> pareto_optimal D fit x.
Proof using MONO WM VAL.
  intros Dx Z. split; [exact Dx |]. intros y fx fy Dy Ex Ey [H N]. destruct (VAL x Dx) as [Vx [_ [Mx _]]]. destruct (VAL y Dy) as [Vy [Py [My dy]]].
  rewrite Vx in Ex. rewrite Vy in Ey. injection Ex as <-. injection Ey as <-. apply N. apply MONO; [exact H | exact Py |]. rewrite Mx, My, Z. now apply WM.
Qed.
Lemma measure_necessary x : pareto_optimal D fit x -> (exists y, D y /\ Forall2 Rle (F y) (F x) /\ d y = 0) -> d x = 0.
Proof using WM VAL.
  intros [Dx O] [y [Dy [H Z]]]. destruct (VAL x Dx) as [Vx [_ [Mx dx]]]. destruct (VAL y Dy) as [Vy [Py [My _]]].
  destruct (list_eq_dec Req_EM_T (F y) (F x)) as [E | E].
  - apply WM; [exact dx |]. rewrite <- Mx, <- E, My, Z. reflexivity.
  - exfalso. apply (O y _ _ Dy Vx Vy). now split.
Qed.
End Measure.

(** the functions g *)
Lemma half : ar_lit Rar 5 10 = / 2.
Proof. cbn. lra. Qed.
Definition sq (v : R) : R := (v - / 2) ^ 2.
Definition wv (v : R) : R := (v - / 2) ^ 2 - cos (20 * PI * (v - / 2)).
Lemma g13_R x : g13_func Rar x = 100 * (sumf wv x + INR (length x)).
Proof.
  unfold g13_func. rewrite acc_R, !lit1, <- INR_IZR_INZ. cbn [ar_mul ar_add Rar]. do 2 f_equal. apply sumf_ext. intros v _. rewrite half. cbn [ar_sub ar_mul ar_pow ar_cos ar_pi Rar]. rewrite rpow_2. reflexivity.
Qed.
Lemma g245_R x : g245_func Rar x = sumf sq x.
Proof. unfold g245_func. rewrite acc_R. apply sumf_ext. intros v _. rewrite half, lit1. cbn [ar_sub ar_pow Rar]. rewrite rpow_2. reflexivity. Qed.
Lemma g6_R x : g6_func Rar x = sumf (fun v => rpow v (1 / 10)) x.
Proof. unfold g6_func. rewrite acc_R. reflexivity. Qed.
Lemma g7_R x : g7_func Rar x = 9 / INR (length x) * sumf (fun v => v) x.
Proof. unfold g7_func. rewrite acc_R, !lit1, <- INR_IZR_INZ. reflexivity. Qed.
Lemma tenth_not_int : IZR (Int_part (1 / 10)) <> 1 / 10.
Proof. intros Q. set (k := Int_part (1 / 10)) in *. assert (K : 0 < IZR k < 1) by lra. destruct K as [K1 K2]. apply lt_IZR in K1, K2. lia. Qed.
Lemma rpow_tenth_nonneg a : 0 <= a -> 0 <= rpow a (1 / 10).
Proof. intros H. unfold rpow. destruct (Rlt_dec 0 a) as [P | P]; [left; apply exp_pos |]. destruct (Req_EM_T _ _) as [Q | Q]; [now apply tenth_not_int in Q | lra]. Qed.
Lemma rpow_tenth_0 : rpow 0 (1 / 10) = 0.
Proof. unfold rpow. destruct (Rlt_dec 0 0) as [P | P]; [lra |]. destruct (Req_EM_T _ _) as [Q | Q]; [now apply tenth_not_int in Q | lra]. Qed.
Lemma g_nonneg id x : (1 <= id <= 7)%Z -> (1 <= length x)%nat -> (forall v, In v x -> 0 <= v) -> 0 <= g_func Rar id x.
Proof.
  intros I N H. unfold g_func.
  destruct (Z.eqb_spec id 6); [rewrite g6_R; assert (Q := sumf_low 0 (fun v => rpow v (1 / 10)) x); rewrite Rmult_0_r in Q; apply Q; intros; now apply rpow_tenth_nonneg, H |].
  destruct (Z.eqb_spec id 7).
  { rewrite g7_R. assert (P : 0 < INR (length x)) by (apply lt_0_INR; lia). assert (Q := sumf_low 0 (fun v => v) x). rewrite Rmult_0_r in Q. apply Rmult_le_pos; [left; apply Rdiv_lt_0_compat; lra | now apply Q]. }
  destruct (Z.eqb_spec id 1); [| destruct (Z.eqb_spec id 3)]; cbn [orb].
  1,2: rewrite g13_R; assert (Q := sumf_low (-1) wv x); apply Rmult_le_pos; [lra |]; assert (INR (length x) * -1 <= sumf wv x); [apply Q; intros v _; unfold wv; pose proof (COS_bound (20 * PI * (v - / 2))); pose proof (pow2_ge_0 (v - / 2)); lra | lra].
  destruct ((id =? 2) || (id =? 4) || (id =? 5))%Z%bool; [| rewrite lit1; lra]. rewrite g245_R. assert (Q := sumf_low 0 sq x). rewrite Rmult_0_r in Q. apply Q. intros v _. apply pow2_ge_0.
Qed.
(** the best value of the last components *)
Definition best_tail (id : Z) : R := if (id <=? 5)%Z then / 2 else 0.
Lemma g_best id m : (1 <= id <= 7)%Z -> (1 <= m)%nat -> g_func Rar id (repeat (best_tail id) m) = 0.
Proof.
  intros I N. unfold g_func, best_tail.
  destruct (Z.eqb_spec id 6) as [-> |]; [cbn [Z.leb Z.compare Pos.compare Pos.compare_cont]; rewrite g6_R, sumf_const, rpow_tenth_0; ring |].
  destruct (Z.eqb_spec id 7) as [-> |]; [cbn [Z.leb Z.compare Pos.compare Pos.compare_cont]; rewrite g7_R, sumf_const; ring |].
  destruct (Z.leb_spec id 5); [| lia].
  destruct (Z.eqb_spec id 1); [| destruct (Z.eqb_spec id 3)]; cbn [orb].
  1,2: rewrite g13_R, sumf_const, repeat_length; unfold wv; rewrite Rminus_eq_0, Rmult_0_r, cos_0; ring.
  assert (E : ((id =? 2) || (id =? 4) || (id =? 5))%Z%bool = true) by (destruct (Z.eqb_spec id 2), (Z.eqb_spec id 4), (Z.eqb_spec id 5); try reflexivity; lia). rewrite E. rewrite g245_R, sumf_const. unfold sq. ring.
Qed.
