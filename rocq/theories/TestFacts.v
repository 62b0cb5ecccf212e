From Coq Require Import List ZArith Lia Reals Lra Bool.
Import ListNotations.
From Verif Require Import Outcome TestArith TestProblems SpecTest.
Local Open Scope R_scope.

(** * Vectors *)
Lemma vget_nth (x : list R) i : (i < length x)%nat -> vget x i = Ok (nth i x 0).
Proof.
  intros H. unfold vget. destruct (nth_error x i) eqn:E.
  - now rewrite (nth_error_nth x i 0 E).
  - apply nth_error_None in E. lia.
Qed.
Lemma set_at_length x j t : (j < length x)%nat -> length (set_at x j t) = length x.
Proof. intros H. unfold set_at. rewrite app_length, firstn_length. cbn [length]. rewrite skipn_length. lia. Qed.
Lemma set_at_same x j : (j < length x)%nat -> set_at x j (nth j x 0) = x.
Proof.
  unfold set_at. revert j. induction x as [|a x IH]; intros j H; cbn [length] in H; [lia |].
  destruct j as [|j]; cbn [firstn skipn nth app]; [reflexivity |]. f_equal. apply IH. lia.
Qed.
Lemma set_at_nth x j t k : (j < length x)%nat -> nth k (set_at x j t) 0 = if Nat.eqb k j then t else nth k x 0.
Proof.
  unfold set_at. revert j k. induction x as [|a x IH]; intros j k H; cbn [length] in H; [lia |].
  destruct j as [|j], k as [|k]; cbn [firstn skipn nth app Nat.eqb]; try reflexivity. apply IH. lia.
Qed.

(** * Derivatives of expressions *)
Lemma dl_eq f x l l' : derivable_pt_lim f x l -> l = l' -> derivable_pt_lim f x l'.
Proof. now intros H <-. Qed.
Lemma dl_ext f g x l : (forall t, f t = g t) -> derivable_pt_lim f x l -> derivable_pt_lim g x l.
Proof.
  intros E H eps He. destruct (H eps He) as [d Hd]. exists d. intros h Hh Hb. rewrite <- !E. now apply Hd.
Qed.
Lemma dl_const c x : derivable_pt_lim (fun _ => c) x 0.
Proof. apply derivable_pt_lim_const. Qed.
Lemma dl_id x : derivable_pt_lim (fun t => t) x 1.
Proof. apply derivable_pt_lim_id. Qed.
Lemma dl_plus f g x a b : derivable_pt_lim f x a -> derivable_pt_lim g x b -> derivable_pt_lim (fun t => f t + g t) x (a + b).
Proof. apply derivable_pt_lim_plus. Qed.
Lemma dl_minus f g x a b : derivable_pt_lim f x a -> derivable_pt_lim g x b -> derivable_pt_lim (fun t => f t - g t) x (a - b).
Proof. apply derivable_pt_lim_minus. Qed.
Lemma dl_opp f x a : derivable_pt_lim f x a -> derivable_pt_lim (fun t => - f t) x (- a).
Proof. apply derivable_pt_lim_opp. Qed.
Lemma dl_mult f g x a b : derivable_pt_lim f x a -> derivable_pt_lim g x b -> derivable_pt_lim (fun t => f t * g t) x (a * g x + f x * b).
Proof. apply derivable_pt_lim_mult. Qed.
Lemma dl_sin f x a : derivable_pt_lim f x a -> derivable_pt_lim (fun t => sin (f t)) x (cos (f x) * a).
Proof. intros H. apply (derivable_pt_lim_comp f sin); [exact H | apply derivable_pt_lim_sin]. Qed.
Lemma dl_cos f x a : derivable_pt_lim f x a -> derivable_pt_lim (fun t => cos (f t)) x (- sin (f x) * a).
Proof. intros H. apply (derivable_pt_lim_comp f cos); [exact H | apply derivable_pt_lim_cos]. Qed.
Lemma dl_exp f x a : derivable_pt_lim f x a -> derivable_pt_lim (fun t => exp (f t)) x (exp (f x) * a).
Proof. intros H. apply (derivable_pt_lim_comp f exp); [exact H | apply derivable_pt_lim_exp]. Qed.

(** The derivative of coordinate k in direction j *)
Definition delta (k j : nat) : R := if Nat.eqb k j then 1 else 0.
Lemma dl_coord x j k : (j < length x)%nat -> derivable_pt_lim (fun t => nth k (set_at x j t) 0) (nth j x 0) (delta k j).
Proof.
  intros H. unfold delta. eapply dl_ext; [intros t; symmetry; now apply set_at_nth |].
  destruct (Nat.eqb k j); [apply dl_id | apply dl_const].
Qed.
(** Rules for functions of the coordinates *)
Lemma pd_coord x j k : (j < length x)%nat -> partial (fun y => nth k y 0) x j (delta k j).
Proof. apply dl_coord. Qed.
Lemma pd_const c x j : partial (fun _ => c) x j 0.
Proof. exact (dl_const c (nth j x 0)). Qed.
Lemma pd_plus f g x j a b : partial f x j a -> partial g x j b -> partial (fun y => f y + g y) x j (a + b).
Proof. unfold partial. intros F G. now apply (dl_plus (fun t => f (set_at x j t)) (fun t => g (set_at x j t))). Qed.
Lemma pd_minus f g x j a b : partial f x j a -> partial g x j b -> partial (fun y => f y - g y) x j (a - b).
Proof. unfold partial. intros F G. now apply (dl_minus (fun t => f (set_at x j t)) (fun t => g (set_at x j t))). Qed.
Lemma pd_opp f x j a : partial f x j a -> partial (fun y => - f y) x j (- a).
Proof. unfold partial. intros F. now apply (dl_opp (fun t => f (set_at x j t))). Qed.
Section Point.
Context (x : list R) (j : nat) (J : (j < length x)%nat).
Lemma pd_mult f g a b : partial f x j a -> partial g x j b -> partial (fun y => f y * g y) x j (a * g x + f x * b).
Proof.
  unfold partial. intros F G. pose proof (dl_mult (fun t => f (set_at x j t)) (fun t => g (set_at x j t)) _ a b F G) as H.
  cbv beta in H. now rewrite (set_at_same x j J) in H.
Qed.
Lemma pd_sin f a : partial f x j a -> partial (fun y => sin (f y)) x j (cos (f x) * a).
Proof. unfold partial. intros F. pose proof (dl_sin (fun t => f (set_at x j t)) _ a F) as H. cbv beta in H. now rewrite (set_at_same x j J) in H. Qed.
Lemma pd_cos f a : partial f x j a -> partial (fun y => cos (f y)) x j (- sin (f x) * a).
Proof. unfold partial. intros F. pose proof (dl_cos (fun t => f (set_at x j t)) _ a F) as H. cbv beta in H. now rewrite (set_at_same x j J) in H. Qed.
Lemma pd_exp f a : partial f x j a -> partial (fun y => exp (f y)) x j (exp (f x) * a).
Proof. unfold partial. intros F. pose proof (dl_exp (fun t => f (set_at x j t)) _ a F) as H. cbv beta in H. now rewrite (set_at_same x j J) in H. Qed.
End Point.
Lemma pd_eq f x j a b : partial f x j a -> a = b -> partial f x j b.
Proof. now intros H <-. Qed.
(** Two functions that agree on the vectors of the right size *)
Lemma pd_ext f g x j a : (j < length x)%nat -> (forall y, length y = length x -> f y = g y) -> partial f x j a -> partial g x j a.
Proof.
  intros J E H. unfold partial in *. eapply dl_ext; [| exact H]. intros t. apply E. now apply set_at_length.
Qed.
Ltac pd := repeat first
  [ apply pd_const | (apply pd_coord; assumption) | apply pd_plus | apply pd_minus | apply pd_opp | (apply pd_mult; [assumption | |])
  | (apply pd_sin; [assumption |]) | (apply pd_cos; [assumption |]) | (apply pd_exp; [assumption |]) ].

(** * Sums *)
Definition rsum (T : nat -> R) (l : list nat) : R := fold_right (fun i s => T i + s) 0 l.
Lemma rsum_ext T U l : (forall i, In i l -> T i = U i) -> rsum T l = rsum U l.
Proof.
  unfold rsum. induction l as [|i l IH]; cbn [fold_right]; intros H; [reflexivity |].
  rewrite (H i (or_introl eq_refl)), IH; [reflexivity | intros k K; apply H; now right].
Qed.
Lemma rsum_plus T U l : rsum (fun i => T i + U i) l = rsum T l + rsum U l.
Proof. unfold rsum. induction l as [|i l IH]; cbn [fold_right]; [ring | rewrite IH; ring]. Qed.
Lemma rsum_zero l : rsum (fun _ => 0) l = 0.
Proof. unfold rsum. induction l as [|i l IH]; cbn [fold_right]; [reflexivity | rewrite IH; ring]. Qed.
Lemma rsum_delta (c : nat -> R) j m s : rsum (fun i => delta i j * c i) (seq s m) = if (Nat.leb s j && Nat.ltb j (s + m))%bool then c j else 0.
Proof.
  revert s. induction m as [|m IH]; intros s; unfold rsum; cbn [seq fold_right].
  - destruct (Nat.leb_spec s j), (Nat.ltb_spec j (s + 0)); cbn [andb]; try reflexivity; lia.
  - change (delta s j * c s + rsum (fun i => delta i j * c i) (seq (S s) m) = if (Nat.leb s j && Nat.ltb j (s + S m))%bool then c j else 0).
    rewrite IH. unfold delta. destruct (Nat.eqb_spec s j) as [<- | N].
    + destruct (Nat.leb_spec s s), (Nat.ltb_spec s (s + S m)), (Nat.leb_spec (S s) s), (Nat.ltb_spec s (S s + m)); cbn [andb]; try lia; ring.
    + destruct (Nat.leb_spec s j), (Nat.ltb_spec j (s + S m)), (Nat.leb_spec (S s) j), (Nat.ltb_spec j (S s + m)); cbn [andb]; try lia; ring.
Qed.
Lemma pd_rsum (T : nat -> list R -> R) (D : nat -> R) x j l :
  (forall i, In i l -> partial (T i) x j (D i)) -> partial (fun y => rsum (fun i => T i y) l) x j (rsum D l).
Proof.
  induction l as [|i l IH]; intros H; unfold rsum; cbn [fold_right]; [apply pd_const |].
  apply pd_plus; [apply H; now left | apply IH; intros k K; apply H; now right].
Qed.
Lemma rsum_nonneg T l : (forall i, In i l -> 0 <= T i) -> 0 <= rsum T l.
Proof.
  unfold rsum. induction l as [|i l IH]; cbn [fold_right]; intros H; [lra |].
  pose proof (H i (or_introl eq_refl)). assert (0 <= fold_right (fun i s => T i + s) 0 l) by (apply IH; intros k K; apply H; now right). lra.
Qed.
Lemma rsum_zero_all T l : (forall i, In i l -> 0 <= T i) -> rsum T l = 0 -> forall i, In i l -> T i = 0.
Proof.
  induction l as [|i l IH]; intros H E k K; [destruct K |].
  unfold rsum in E. cbn [fold_right] in E. fold (rsum T l) in E.
  pose proof (H i (or_introl eq_refl)). assert (0 <= rsum T l) by (apply rsum_nonneg; intros q Q; apply H; now right).
  destruct K as [<- | K]; [lra |]. apply IH; [intros q Q; apply H; now right | lra | exact K].
Qed.
Lemma rsum_le T U l : (forall i, In i l -> T i <= U i) -> rsum T l <= rsum U l.
Proof.
  unfold rsum. induction l as [|i l IH]; cbn [fold_right]; intros H; [lra |].
  pose proof (H i (or_introl eq_refl)). assert (fold_right (fun i s => T i + s) 0 l <= fold_right (fun i s => U i + s) 0 l) by (apply IH; intros k K; apply H; now right). lra.
Qed.
Lemma rsum_const c l : rsum (fun _ => c) l = INR (length l) * c.
Proof.
  unfold rsum. induction l as [|i l IH]; [cbn; ring |]. cbn [fold_right]. rewrite IH. change (length (i :: l)) with (S (length l)). rewrite S_INR. ring.
Qed.
(** The loops add up from the left. *)
Lemma fold_sum l : forall T (t : nat -> outcome R) s, (forall i, In i l -> t i = Ok (T i)) -> mfold (fun s i => bind (t i) (fun v => Ok (s + v))) s l = Ok (s + rsum T l).
Proof.
  induction l as [|i l IH]; intros T t s H; cbn [mfold].
  - f_equal. unfold rsum. cbn. ring.
  - rewrite (H i (or_introl eq_refl)). cbn [bind]. rewrite (IH T); [| intros k K; apply H; now right].
    f_equal. unfold rsum. cbn [fold_right]. ring.
Qed.
Lemma sum_loop_ok T t l : (forall i, In i l -> t i = Ok (T i)) -> sum_loop Rar t l = Ok (rsum T l).
Proof.
  intros H. unfold sum_loop. cbn [ar_add ar_lit Rar]. rewrite (fold_sum l T t _ H). f_equal. unfold Rdiv. ring.
Qed.
Lemma lit1 k : ar_lit Rar k 1 = IZR k.
Proof. cbn [ar_lit Rar]. unfold Rdiv. rewrite Rinv_1. ring. Qed.

(** * Powers *)
Lemma rpow_nat x (k : nat) : rpow x (IZR (Z.of_nat k)) = x ^ k.
Proof.
  unfold rpow. destruct (Rlt_dec 0 x) as [P | P].
  - rewrite <- INR_IZR_INZ. now apply Rpower_pow.
  - assert (E : Int_part (IZR (Z.of_nat k)) = Z.of_nat k).
    { symmetry. unfold Int_part. assert (U : up (IZR (Z.of_nat k)) = (Z.of_nat k + 1)%Z).
      { symmetry. apply tech_up; rewrite plus_IZR; lra. }
      rewrite U. lia. }
    rewrite E. destruct (Req_EM_T (IZR (Z.of_nat k)) (IZR (Z.of_nat k))) as [_ | N]; [| now contradict N].
    destruct k; [reflexivity |]. cbn [Z.of_nat powerRZ]. now rewrite SuccNat2Pos.id_succ.
Qed.
