(** The gradients of rosenbrock, rastrigin and hock_schittkowski_71. *)
From Coq Require Import List ZArith Lia Reals Lra Bool.
Import ListNotations.
From Verif Require Import Outcome BaseFacts Problem TestArith TestProblems SpecTest TestFacts.
Local Open Scope R_scope.

Lemma vset_ok (l : list R) i a : (i < length l)%nat -> vset l i a = Ok (upd l i a).
Proof. intros H. unfold vset. now apply Nat.ltb_lt in H; rewrite H. Qed.
Lemma upd_nth (l : list R) i a k : (i < length l)%nat -> nth k (upd l i a) 0 = if Nat.eqb k i then a else nth k l 0.
Proof.
  revert i k. induction l as [|b l IH]; intros i k H; cbn [length] in H; [lia |].
  destruct i as [|i], k as [|k]; cbn [upd nth Nat.eqb]; try reflexivity. apply IH. lia.
Qed.
(** A loop with an invariant *)
Lemma loop_inv {S} (f : S -> nat -> outcome S) (P : nat -> S -> Prop) m : forall b s,
  P b s -> (forall i s, (b <= i < b + m)%nat -> P i s -> exists s', f s i = Ok s' /\ P (Datatypes.S i) s') ->
  exists s', mfold f s (seq b m) = Ok s' /\ P (b + m)%nat s'.
Proof.
  induction m as [|m IH]; intros b s H0 H; cbn [seq mfold].
  - exists s. now rewrite Nat.add_0_r.
  - destruct (H b s ltac:(lia) H0) as (s1 & E1 & H1). rewrite E1. cbn [bind].
    destruct (IH (Datatypes.S b) s1 H1) as (s' & E & H'); [intros i q I; apply H; lia |].
    exists s'. split; [exact E |]. now replace (b + Datatypes.S m)%nat with (Datatypes.S b + m)%nat by lia.
Qed.
Lemma mfold_ext_in {S B} (f g : S -> B -> outcome S) l : (forall b s, In b l -> f s b = g s b) -> forall s, mfold f s l = mfold g s l.
Proof.
  induction l as [|b l IH]; intros H s; cbn [mfold]; [reflexivity |]. rewrite (H b s (or_introl eq_refl)).
  destruct (g s b); cbn [bind]; try reflexivity. apply IH. intros c q C. apply H. now right.
Qed.
(** The patterns of a single component *)
Lemma dense1 dim : dense_gradient 1 dim = map (fun i => (0%nat, i)) (seq 0 dim).
Proof. unfold dense_gradient. cbn [seq flat_map]. apply app_nil_r. Qed.
Lemma dense1_nth dim k i j : nth_error (dense_gradient 1 dim) k = Some (i, j) -> i = 0%nat /\ j = k /\ (k < dim)%nat.
Proof.
  rewrite dense1. intros H.
  assert (K : (k < dim)%nat). { rewrite <- (seq_length dim 0), <- (map_length (fun i => (0%nat, i))). apply nth_error_Some. now rewrite H. }
  rewrite (nth_error_nth' _ (0%nat, 0%nat)) in H by now rewrite map_length, seq_length.
  injection H as H. change (0%nat, 0%nat) with ((fun i => (0%nat, i)) 0%nat) in H. rewrite map_nth, seq_nth in H by exact K.
  injection H as <- <-. lia.
Qed.
Lemma dense1_in dim j : (j < dim)%nat -> In (0%nat, j) (dense_gradient 1 dim).
Proof. intros H. rewrite dense1. apply in_map_iff. exists j. split; [reflexivity |]. apply in_seq. lia. Qed.
(** For one objective and the dense pattern *)
Lemma gradient_right1 dim fit grad (F : list R -> R) :
  (forall x, length x = dim -> fit x = Ok [F x]) ->
  (forall x, length x = dim -> exists g, grad x = Ok g /\ length g = dim /\ forall j, (j < dim)%nat -> partial F x j (nth j g 0)) ->
  gradient_right dim 1 fit grad (dense_gradient 1 dim).
Proof.
  intros HF HG x L. split; [exists [F x]; split; [now apply HF | reflexivity] |].
  destruct (HG x L) as (g & EG & LG & PG). exists g. split; [exact EG |]. split; [rewrite dense1, map_length, seq_length; exact LG |].
  assert (PP : forall j, (j < dim)%nat -> partial (component fit 0) x j (nth j g 0)).
  { intros j J. eapply pd_ext; [now rewrite L | | now apply PG]. intros y Y. unfold component. rewrite HF by congruence. reflexivity. }
  split.
  - intros k i j H. apply dense1_nth in H. destruct H as (-> & -> & K). split; [lia |]. now apply PP.
  - intros i j I J N. exfalso. apply N. replace i with 0%nat by lia. now apply dense1_in.
Qed.

(** * rosenbrock *)
Definition rosT (i : nat) (x : list R) : R :=
  let a := nth i x 0 in let b := nth (i + 1) x 0 in 100 * (a * a - b) * (a * a - b) + (a - 1) * (a - 1).
Lemma rosenbrock_value dim x : length x = dim -> rosenbrock_fitness Rar dim x = Ok [rsum (fun i => rosT i x) (seq 0 (dim - 1))].
Proof.
  intros L. unfold rosenbrock_fitness. rewrite (sum_loop_ok (fun i => rosT i x)); [reflexivity |].
  intros i I. apply in_seq in I. unfold rosenbrock_term. rewrite !vget_nth by lia. cbn [bind]. rewrite !lit1. reflexivity.
Qed.
Lemma rosT_partial x i j : (j < length x)%nat ->
  partial (rosT i) x j (delta i j * (400 * nth i x 0 * (nth i x 0 * nth i x 0 - nth (i + 1) x 0) + 2 * (nth i x 0 - 1)) + delta (i + 1) j * (-200 * (nth i x 0 * nth i x 0 - nth (i + 1) x 0))).
Proof.
  intros J. eapply pd_eq; [unfold rosT; cbv zeta; pd |]. cbv beta. ring.
Qed.
Lemma delta_shift i j : delta (i + 1) j = if Nat.eqb j 0 then 0 else delta i (j - 1).
Proof.
  unfold delta. destruct (Nat.eqb_spec j 0) as [-> | N]; [destruct (Nat.eqb_spec (i + 1) 0); [lia | reflexivity] |].
  destruct (Nat.eqb_spec (i + 1) j), (Nat.eqb_spec i (j - 1)); try reflexivity; lia.
Qed.
Lemma rsum_shift (c : nat -> R) j m : rsum (fun i => delta (i + 1) j * c i) (seq 0 m) = if (Nat.leb 1 j && Nat.leb j m)%bool then c (j - 1)%nat else 0.
Proof.
  destruct (Nat.eq_dec j 0) as [-> | N].
  - rewrite (rsum_ext _ (fun _ => 0)); [rewrite rsum_zero; reflexivity |]. intros i _. rewrite delta_shift. cbn [Nat.eqb]. ring.
  - rewrite (rsum_ext _ (fun i => delta i (j - 1) * c i)).
    + rewrite rsum_delta. destruct (Nat.leb_spec 0 (j - 1)), (Nat.ltb_spec (j - 1) (0 + m)), (Nat.leb_spec 1 j), (Nat.leb_spec j m); cbn [andb]; try lia; reflexivity.
    + intros i _. rewrite delta_shift. destruct (Nat.eqb_spec j 0); [lia | reflexivity].
Qed.
Lemma rosenbrock_partial dim x j : length x = dim -> (j < dim)%nat ->
  partial (fun y => rsum (fun i => rosT i y) (seq 0 (dim - 1))) x j
    ((if Nat.ltb j (dim - 1) then 400 * nth j x 0 * (nth j x 0 * nth j x 0 - nth (j + 1) x 0) + 2 * (nth j x 0 - 1) else 0)
     + (if Nat.leb 1 j then -200 * (nth (j - 1) x 0 * nth (j - 1) x 0 - nth j x 0) else 0)).
Proof.
  intros L J. eapply pd_eq; [apply pd_rsum; intros i I; apply rosT_partial; lia |].
  rewrite rsum_plus, rsum_delta, rsum_shift. f_equal.
  destruct (Nat.leb_spec 1 j), (Nat.leb_spec j (dim - 1)); cbn [andb]; try lia; try reflexivity. replace (j - 1 + 1)%nat with j by lia. reflexivity.
Qed.
Lemma rosenbrock_right dim : (2 <= dim)%nat -> gradient_right dim 1 (rosenbrock_fitness Rar dim) (rosenbrock_gradient Rar dim) (dense_gradient 1 dim).
Proof.
  intros D. apply (gradient_right1 dim _ _ (fun y => rsum (fun i => rosT i y) (seq 0 (dim - 1)))); [intros; now apply rosenbrock_value |].
  intros x L. unfold rosenbrock_gradient. rewrite !vget_nth by lia. cbn [bind]. rewrite !lit1. cbn [ar_add ar_sub ar_mul Rar].
  rewrite vset_ok by (rewrite repeat_length; lia). cbn [bind].
  set (g0 := upd (repeat 0 dim) 0 _).
  assert (L0 : length g0 = dim) by (unfold g0; now rewrite upd_length, repeat_length).
  set (form i := -400 * nth i x 0 * (nth (i + 1) x 0 - nth i x 0 * nth i x 0) - 2 * (1 - nth i x 0) + 200 * (nth i x 0 - nth (i - 1) x 0 * nth (i - 1) x 0)).
  destruct (loop_inv (fun g i => bind (Ok (nth (i - 1) x 0)) (fun p => bind (Ok (nth i x 0)) (fun c => bind (Ok (nth (i + 1) x 0)) (fun q =>
              vset g i (-400 * c * (q - c * c) - 2 * (1 - c) + 200 * (c - p * p))))))
            (fun i g => length g = dim /\ nth 0 g 0 = nth 0 g0 0 /\ forall k, (1 <= k < i)%nat -> nth k g 0 = form k) (dim - 2) 1 g0) as (g & EG & LG & G0 & GK).
  { split; [exact L0 |]. split; [reflexivity |]. intros k K. lia. }
  { intros i g I (Lg & H0 & HK). cbn [bind]. rewrite vset_ok by lia. eexists. split; [reflexivity |]. split; [now rewrite upd_length |].
    split; [rewrite upd_nth by lia; destruct (Nat.eqb_spec 0 i); [lia | exact H0] |].
    intros k K. rewrite upd_nth by lia. destruct (Nat.eqb_spec k i) as [-> | N]; [reflexivity |]. apply HK. lia. }
  match goal with |- exists g', bind (mfold ?ff _ _) _ = _ /\ _ => assert (EM : mfold ff g0 (seq 1 (dim - 2)) = Ok g) end.
  { rewrite <- EG. apply mfold_ext_in. intros i s I. apply in_seq in I. rewrite !vget_nth by lia. cbn [bind]. reflexivity. }
  rewrite EM. cbn [bind]. rewrite vset_ok by lia. eexists. split; [reflexivity |]. split; [now rewrite upd_length |].
  intros j J. eapply pd_eq; [now apply rosenbrock_partial |]. rewrite upd_nth by lia.
  destruct (Nat.eqb_spec j (dim - 1)) as [-> | NJ].
  - destruct (Nat.ltb_spec (dim - 1) (dim - 1)), (Nat.leb_spec 1 (dim - 1)); try lia. replace (dim - 1 - 1)%nat with (dim - 2)%nat by lia. ring.
  - destruct (Nat.ltb_spec j (dim - 1)); [| lia]. destruct (Nat.leb_spec 1 j).
    + rewrite GK by lia. unfold form. ring.
    + replace j with 0%nat by lia. rewrite G0. unfold g0. rewrite upd_nth by (rewrite repeat_length; lia). cbn [Nat.eqb Nat.add]. ring.
Qed.

(** * rastrigin *)
Definition rasT (i : nat) (x : list R) : R := nth i x 0 * nth i x 0 - 10 * cos (2 * PI * nth i x 0).
Lemma omega_R : omega Rar = 2 * PI.
Proof. unfold omega. now rewrite lit1. Qed.
Lemma rastrigin_value x : rastrigin_fitness Rar x = Ok [rsum (fun i => rasT i x) (seq 0 (length x)) + 10 * INR (length x)].
Proof.
  unfold rastrigin_fitness. rewrite (sum_loop_ok (fun i => rasT i x)).
  - cbn [bind]. rewrite !lit1, <- INR_IZR_INZ. reflexivity.
  - intros i I. apply in_seq in I. rewrite !vget_nth by lia. cbn [bind]. rewrite lit1, omega_R. reflexivity.
Qed.
Lemma mmap_ok (t : nat -> outcome R) T l : (forall i, In i l -> t i = Ok (T i)) -> mmap t l = Ok (map T l).
Proof.
  induction l as [|i l IH]; intros H; cbn [mmap map]; [reflexivity |]. rewrite (H i (or_introl eq_refl)). cbn [bind].
  rewrite IH; [reflexivity |]. intros k K. apply H. now right.
Qed.
Lemma nth_map_seq (T : nat -> R) m j : (j < m)%nat -> nth j (map T (seq 0 m)) 0 = T j.
Proof.
  intros J. rewrite (nth_indep _ 0 (T 0%nat)) by now rewrite map_length, seq_length. rewrite map_nth, seq_nth by exact J. reflexivity.
Qed.
Lemma rasT_partial x i j : (j < length x)%nat -> partial (rasT i) x j (delta i j * (2 * nth i x 0 + 10 * (2 * PI) * sin (2 * PI * nth i x 0))).
Proof. intros J. eapply pd_eq; [unfold rasT; pd |]. cbv beta. ring. Qed.
Definition ras_der (j : nat) (x : list R) : R := 2 * nth j x 0 + 10 * (2 * PI) * sin (2 * PI * nth j x 0).
Lemma rastrigin_partial dim x j : length x = dim -> (j < dim)%nat ->
  partial (fun y => rsum (fun i => rasT i y) (seq 0 dim) + 10 * INR dim) x j (ras_der j x).
Proof.
  intros L J. eapply pd_eq; [apply pd_plus; [apply pd_rsum; intros i I; apply rasT_partial; lia | apply pd_const] |].
  rewrite rsum_delta. destruct (Nat.leb_spec 0 j), (Nat.ltb_spec j (0 + dim)); cbn [andb]; try lia. unfold ras_der. ring.
Qed.
Lemma rastrigin_right dim : gradient_right dim 1 (rastrigin_fitness Rar) (rastrigin_gradient Rar) (dense_gradient 1 dim).
Proof.
  apply (gradient_right1 dim _ _ (fun y => rsum (fun i => rasT i y) (seq 0 dim) + 10 * INR dim)); [intros x <-; apply rastrigin_value |].
  intros x L. unfold rastrigin_gradient. rewrite (mmap_ok _ (fun i => ras_der i x)).
  - eexists. split; [reflexivity |]. split; [now rewrite map_length, seq_length |]. intros j J. rewrite L, nth_map_seq by exact J. now apply rastrigin_partial.
  - intros i I. apply in_seq in I. rewrite vget_nth by lia. cbn [bind]. rewrite !lit1, omega_R. reflexivity.
Qed.
Lemma diag_nth dim k i j : nth_error (map (fun i => (i, i)) (seq 0 dim)) k = Some (i, j) -> i = k /\ j = k /\ (k < dim)%nat.
Proof.
  intros H. assert (K : (k < dim)%nat). { rewrite <- (seq_length dim 0), <- (map_length (fun i : nat => (i, i))). apply nth_error_Some. now rewrite H. }
  rewrite (nth_error_nth' _ (0%nat, 0%nat)) in H by now rewrite map_length, seq_length. injection H as H.
  change (0%nat, 0%nat) with ((fun i : nat => (i, i)) 0%nat) in H. rewrite map_nth, seq_nth in H by exact K. injection H as <- <-. lia.
Qed.
Lemma ras_der_partial x i j : (j < length x)%nat -> partial (ras_der i) x j (delta i j * (2 + 10 * (2 * PI) * (2 * PI) * cos (2 * PI * nth i x 0))).
Proof. intros J. eapply pd_eq; [unfold ras_der; pd |]. cbv beta. ring. Qed.
Lemma rastrigin_hessians_right dim : hessians_right dim 1 (rastrigin_fitness Rar) (rastrigin_hessians Rar) (rastrigin_hs dim).
Proof.
  split; [reflexivity |]. intros x L. unfold rastrigin_hessians.
  set (T i := 2 + 10 * (2 * PI) * (2 * PI) * cos (2 * PI * nth i x 0)).
  rewrite (mmap_ok _ T); [| intros i I; apply in_seq in I; rewrite vget_nth by lia; cbn [bind]; rewrite !lit1, omega_R; reflexivity].
  cbn [bind]. eexists. split; [reflexivity |]. split; [reflexivity |]. intros m M. replace m with 0%nat by lia. cbn [nth rastrigin_hs]. cbv zeta.
  split; [now rewrite !map_length, !seq_length, L |].
  assert (PP : forall i j, (j < dim)%nat -> (i < dim)%nat -> partial2 dim (component (rastrigin_fitness Rar) 0) x i j (delta i j * T i)).
  { intros i j J I. exists (ras_der i). split; [| apply ras_der_partial; lia].
    intros y Y. eapply pd_ext; [lia | | now apply (rastrigin_partial dim)]. intros z Z. cbv beta.
    unfold component. rewrite rastrigin_value. cbn [nth]. replace (length z) with dim by congruence. reflexivity. }
  split.
  - intros k i j H. apply diag_nth in H. destruct H as (-> & -> & K). split; [lia |].
    rewrite L, nth_map_seq by exact K. replace (T k) with (delta k k * T k); [now apply PP |]. unfold delta. rewrite Nat.eqb_refl. ring.
  - intros i j IJ N. replace 0 with (delta i j * T i); [apply PP; lia |]. unfold delta. destruct (Nat.eqb_spec i j) as [<- | Q]; [| ring].
    exfalso. apply N. apply in_map_iff. exists i. split; [reflexivity |]. apply in_seq. lia.
Qed.

(** * hock_schittkowski_71 *)
Definition hsF (m : nat) (x : list R) : R :=
  let a := nth 0 x 0 in let b := nth 1 x 0 in let c := nth 2 x 0 in let d := nth 3 x 0 in
  match m with
  | 0 => a * d * (a + b + c) + c
  | 1 => a * a + b * b + c * c + d * d - 40
  | _ => 25 - a * b * c * d
  end.
Lemma hs71_value x : length x = 4%nat -> hs71_fitness Rar x = Ok [hsF 0 x; hsF 1 x; hsF 2 x].
Proof. intros L. unfold hs71_fitness. rewrite !vget_nth by lia. cbn [bind]. rewrite !lit1. reflexivity. Qed.
Lemma hs71_component m x : length x = 4%nat -> (m < 3)%nat -> component (hs71_fitness Rar) m x = hsF m x.
Proof. intros L M. unfold component. rewrite hs71_value by exact L. destruct m as [|[|[|m]]]; [reflexivity .. | lia]. Qed.
(** The derivative of hsF m in direction j, as a function of x *)
Definition hsD (m j : nat) (x : list R) : R :=
  let a := nth 0 x 0 in let b := nth 1 x 0 in let c := nth 2 x 0 in let d := nth 3 x 0 in
  match m, j with
  | 0, 0 => a * d + d * (a + b + c) | 0, 1 => a * d | 0, 2 => a * d + 1 | 0, _ => a * (a + b + c)
  | 1, 0 => 2 * a | 1, 1 => 2 * b | 1, 2 => 2 * c | 1, _ => 2 * d
  | _, 0 => - b * c * d | _, 1 => - a * c * d | _, 2 => - a * b * d | _, _ => - a * b * c
  end.
Ltac upto4 j := destruct j as [|[|[|[|j]]]]; [| | | | lia].
Lemma hsF_partial m x j : length x = 4%nat -> (m < 3)%nat -> (j < 4)%nat -> partial (hsF m) x j (hsD m j x).
Proof.
  intros L M J. assert (J' : (j < length x)%nat) by lia.
  destruct m as [|[|[|m]]]; [| | | lia]; (eapply pd_eq; [unfold hsF; cbv zeta iota; pd |]); cbv beta; clear J'; upto4 j; unfold hsD; cbv zeta iota beta; unfold delta; cbn [Nat.eqb]; ring.
Qed.
Lemma hs71_partial m x j : length x = 4%nat -> (m < 3)%nat -> (j < 4)%nat -> partial (component (hs71_fitness Rar) m) x j (hsD m j x).
Proof.
  intros L M J. eapply pd_ext; [lia | | now apply hsF_partial]. intros y Y. symmetry. apply hs71_component; lia.
Qed.
Lemma hs71_right : gradient_right 4 3 (hs71_fitness Rar) (hs71_gradient Rar) (dense_gradient 3 4).
Proof.
  intros x L. split; [eexists; split; [now apply hs71_value | reflexivity] |].
  unfold hs71_gradient. rewrite !vget_nth by lia. cbn [bind]. rewrite !lit1. eexists. split; [reflexivity |]. split; [reflexivity |]. split.
  - intros k i j H. pose proof (nth_error_In _ _ H) as I. unfold dense_gradient in I. apply in_flat_map in I. destruct I as (i' & I & I'). apply in_map_iff in I'. destruct I' as (j' & E & J).
    injection E as -> ->. apply in_seq in I, J. split; [lia |].
    do 12 (destruct k as [|k]; [cbn in H; injection H as <- <-; cbn [nth ar_add ar_sub ar_mul ar_neg Rar]; now apply hs71_partial |]).
    exfalso. assert (K : (S (S (S (S (S (S (S (S (S (S (S (S k))))))))))) < length (dense_gradient 3 4))%nat) by (apply nth_error_Some; now rewrite H).
    change (length (dense_gradient 3 4)) with 12%nat in K. lia.
  - intros i j I J N. exfalso. apply N. unfold dense_gradient. apply in_flat_map. exists i. split; [apply in_seq; lia |]. apply in_map_iff. exists j. split; [reflexivity | apply in_seq; lia].
Qed.
Definition hsDD (m i j : nat) (x : list R) : R :=
  let a := nth 0 x 0 in let b := nth 1 x 0 in let c := nth 2 x 0 in let d := nth 3 x 0 in
  match m, i, j with
  | 0, 0, 0 => 2 * d | 0, 1, 0 => d | 0, 2, 0 => d | 0, 3, 0 => 2 * a + b + c | 0, 3, 1 => a | 0, 3, 2 => a
  | 1, 0, 0 => 2 | 1, 1, 1 => 2 | 1, 2, 2 => 2 | 1, 3, 3 => 2
  | 2, 1, 0 => - c * d | 2, 2, 0 => - b * d | 2, 2, 1 => - a * d | 2, 3, 0 => - b * c | 2, 3, 1 => - a * c | 2, 3, 2 => - a * b
  | _, _, _ => 0
  end.
Lemma hsD_partial m x i j : length x = 4%nat -> (m < 3)%nat -> (j <= i < 4)%nat -> partial (hsD m i) x j (hsDD m i j x).
Proof.
  intros L M J. assert (J' : (j < length x)%nat) by lia.
  destruct m as [|[|[|m]]]; [| | | lia]; upto4 i; (eapply pd_eq; [unfold hsD; cbv zeta iota beta; pd |]); cbv beta; clear J';
    (destruct j as [|[|[|[|j]]]]; try (exfalso; lia)); unfold hsDD; cbv zeta iota beta; unfold delta; cbn [Nat.eqb]; ring.
Qed.
Lemma hs71_partial2 m x i j : length x = 4%nat -> (m < 3)%nat -> (j <= i < 4)%nat -> partial2 4 (component (hs71_fitness Rar) m) x i j (hsDD m i j x).
Proof. intros L M J. exists (hsD m i). split; [intros y Y; apply hs71_partial; lia | now apply hsD_partial]. Qed.
Lemma hs71_hessians_right : hessians_right 4 3 (hs71_fitness Rar) (hs71_hessians Rar) hs71_hs.
Proof.
  split; [reflexivity |]. intros x L. unfold hs71_hessians. rewrite !vget_nth by lia. cbn [bind]. rewrite !lit1. eexists. split; [reflexivity |]. split; [reflexivity |].
  intros m M. assert (PP : forall i j v, (j <= i < 4)%nat -> v = hsDD m i j x -> partial2 4 (component (hs71_fitness Rar) m) x i j v) by (intros i j v IJ ->; now apply hs71_partial2).
  destruct m as [|[|[|m]]]; [| | | lia]; unfold hs71_hs; cbn [nth]; cbv zeta; (split; [reflexivity |]); split.
  all: cycle 1.
  all: try (intros i j IJ N; (destruct i as [|[|[|[|i]]]]; try (exfalso; lia)); (destruct j as [|[|[|[|j]]]]; try (exfalso; lia));
      try (exfalso; apply N; cbn; tauto); apply PP; try lia; reflexivity).
  all: intros k i j H.
  all: do 7 (destruct k as [|k]; [cbn in H; first [discriminate H | injection H as <- <-; (split; [lia |]); apply PP; [lia | reflexivity]] |]).
  all: cbn in H; destruct k; discriminate H.
Qed.
