From Coq Require Import List Bool Arith ZArith Lia Permutation Sorting.Sorted.
From Verif Require Import Dbl DblFacts IntDbl Outcome BaseFacts StdSort Compare CompareFacts SpecOrder Rng Problem SpecProblem ProblemFacts Generic SpecGeneric.
Import ListNotations.

(** ** Order facts *)
Lemma dlt_false_dle a b : a <> NaN -> b <> NaN -> dlt a b = false -> dle b a = true.
Proof. destruct a, b; try congruence; try reflexivity; try discriminate; intros _ _ H. apply dle_fin. apply Z.ltb_ge in H. exact H. Qed.
Lemma dle_dlt_false a b : dle a b = true -> dlt b a = false.
Proof.
  destruct a, b; try discriminate; try reflexivity; intros H.
  apply dle_fin in H. apply Z.ltb_ge. exact H.
Qed.
Lemma dlt_dle a b : dlt a b = true -> dle a b = true.
Proof. unfold dle. now intros ->. Qed.
Lemma dlt_irrefl a : dlt a a = false.
Proof. destruct a; simpl; auto. apply Z.ltb_irrefl. Qed.

(** ** map3 *)
Lemma map3_ok {A B C D} (f : A -> B -> C -> outcome D) : forall l1 l2 l3 r, map3 f l1 l2 l3 = Ok r ->
  length r = length l1 /\ forall i a b c, nth_error l1 i = Some a -> nth_error l2 i = Some b -> nth_error l3 i = Some c ->
    exists d, nth_error r i = Some d /\ f a b c = Ok d.
Proof.
  induction l1 as [|a l1 IH]; intros [|b l2] [|c l3] r H; cbn in H; try discriminate; try (inversion H; subst; split; [reflexivity|intros [|i] ? ? ?; discriminate]).
  destruct (f a b c) as [d| | |] eqn:E; try discriminate. cbn in H. destruct (map3 f l1 l2 l3) as [ds| | |] eqn:E2; try discriminate. cbn in H. inversion H; subst.
  destruct (IH _ _ _ E2) as [L P]. split; [cbn; now rewrite L|]. intros [|i] a' b' c' Ha Hb Hc; cbn in *; [|eauto].
  inversion Ha; inversion Hb; inversion Hc; subst. eauto.
Qed.
Lemma map3_total {A B C D} (f : A -> B -> C -> outcome D) : forall l1 l2 l3, length l1 = length l2 -> length l1 = length l3 ->
  (forall i a b c, nth_error l1 i = Some a -> nth_error l2 i = Some b -> nth_error l3 i = Some c -> exists d, f a b c = Ok d) ->
  exists r, map3 f l1 l2 l3 = Ok r.
Proof.
  induction l1 as [|a l1 IH]; intros [|b l2] [|c l3] L1 L2 H; try discriminate; [eexists; reflexivity|].
  destruct (H 0 a b c eq_refl eq_refl eq_refl) as (d & E). destruct (IH l2 l3) as (ds & E2); try (cbn in *; lia).
  { intros i a' b' c' Ha Hb Hc. apply (H (S i)); assumption. }
  cbn. rewrite E. cbn. rewrite E2. eexists; reflexivity.
Qed.

(** ** Stick *)
Lemma stick1_spec x l u : dle l u = true ->
  (x <> NaN -> within l u (stick1 x l u)) /\ (within l u x -> stick1 x l u = x) /\ (x = NaN -> stick1 x l u = NaN) /\
  (dlt x l = true -> stick1 x l u = l) /\ (dlt u x = true -> stick1 x l u = u).
Proof.
  intros H. destruct (dle_not_nan _ _ H) as [Hl Hu]. unfold stick1, within, dgt.
  split; [|split; [|split; [|split]]].
  - intros N. destruct (dlt x l) eqn:E1.
    + rewrite (dle_dlt_false _ _ H). split; [now apply dle_refl|exact H].
    + destruct (dlt u x) eqn:E2; [split; [exact H|now apply dle_refl]|]. split; now apply dlt_false_dle.
  - intros [A B]. rewrite (dle_dlt_false _ _ A), (dle_dlt_false _ _ B). reflexivity.
  - intros ->. destruct l, u; reflexivity.
  - intros E. rewrite E, (dle_dlt_false _ _ H). reflexivity.
  - intros E. destruct (dlt x l) eqn:E1; [|now rewrite E].
    exfalso. pose proof (dle_trans _ _ _ (dlt_dle _ _ E) (dlt_dle _ _ E1)) as C.
    pose proof (dle_trans _ _ _ H C) as C2. apply dle_dlt_false in C2. clear C2.
    assert (C3 : dle x u = true) by (eapply dle_trans; [apply dlt_dle; exact E1|exact H]). apply dle_dlt_false in C3. congruence.
Qed.
Lemma stick_spec x lb ub : length x = length lb -> length x = length ub -> exists y, force_bounds_stick x lb ub = Ok y /\ length y = length x /\
  forall i l u v, nth_error lb i = Some l -> nth_error ub i = Some u -> nth_error x i = Some v -> dle l u = true ->
    exists w, nth_error y i = Some w /\ (v <> NaN -> within l u w) /\ (within l u v -> w = v) /\ (v = NaN -> w = NaN) /\
      (dlt v l = true -> w = l) /\ (dlt u v = true -> w = u).
Proof.
  intros L1 L2. destruct (map3_total (fun a b c => Ok (stick1 a b c)) x lb ub L1 L2) as (y & E); [eauto|].
  exists y. split; [exact E|]. destruct (map3_ok _ _ _ _ _ E) as [L P]. split; [exact L|].
  intros i l u v Hl Hu Hv H. destruct (P i v l u Hv Hl Hu) as (w & Hw & Ew). inversion Ew; subst. eexists. split; [exact Hw|]. now apply stick1_spec.
Qed.
Lemma in_box_stick x lb ub : in_box lb ub x -> force_bounds_stick x lb ub = Ok x.
Proof.
  intros (L1 & L2 & B). destruct (map3_total (fun a b c => Ok (stick1 a b c)) x lb ub L1 L2) as (y & E); [eauto|].
  unfold force_bounds_stick. rewrite E. f_equal. destruct (map3_ok _ _ _ _ _ E) as [L P]. apply list_ext_error. intros i.
  destruct (nth_error x i) as [v|] eqn:Ev.
  - assert (Hi : i < length x) by (apply nth_error_Some; congruence).
    destruct (nth_error lb i) as [l|] eqn:El; [|apply nth_error_None in El; lia]. destruct (nth_error ub i) as [u|] eqn:Eu; [|apply nth_error_None in Eu; lia].
    destruct (P i v l u Ev El Eu) as (w & Hw & Ew). rewrite Hw. inversion Ew. f_equal. pose proof (B i l u v El Eu Ev) as W. apply stick1_spec; [|exact W].
    destruct W. eapply dle_trans; eauto.
  - apply nth_error_None in Ev. apply nth_error_None. lia.
Qed.
Lemma stick_in_box x lb ub y : length x = length lb -> length x = length ub ->
  (forall i l u, nth_error lb i = Some l -> nth_error ub i = Some u -> dle l u = true) -> (forall v, In v x -> v <> NaN) ->
  force_bounds_stick x lb ub = Ok y -> in_box lb ub y.
Proof.
  intros L1 L2 B N E. destruct (stick_spec x lb ub L1 L2) as (y' & E' & L & P). assert (y' = y) by congruence. subst y'.
  split; [congruence|]. split; [congruence|]. intros i l u w Hl Hu Hw.
  assert (Hi : i < length x) by (rewrite <- L; apply nth_error_Some; congruence).
  destruct (nth_error x i) as [v|] eqn:Ev; [|apply nth_error_None in Ev; lia].
  destruct (P i l u v Hl Hu Ev (B i l u Hl Hu)) as (w' & Hw' & W & _). assert (w' = w) by congruence. subst. apply W. apply N. eapply nth_error_In; eauto.
Qed.

(** ** Reflection on a grid where the arithmetic is exact *)
Lemma grid_double a k : (0 <= a <= 2040)%Z -> (Z.abs k < 2 ^ 53)%Z -> is_double (gridpt a k).
Proof.
  intros Ha Hk. exists k, a. split; [reflexivity|]. split; [lia|]. split; [exact Hk|]. rewrite Z.abs_mul, (Z.abs_eq (2 ^ a)) by (apply Z.pow_nonneg; lia).
  unfold ovf_z. replace 2098%Z with (58 + 2040)%Z by lia. rewrite Z.pow_add_r by lia.
  assert (2 ^ a <= 2 ^ 2040)%Z by (apply Z.pow_le_mono_r; lia). assert (0 < 2 ^ a)%Z by (apply Z.pow_pos_nonneg; lia).
  assert (0 <= 2 ^ 2040)%Z by (apply Z.pow_nonneg; lia). revert H H0 H1. generalize (2 ^ 2040)%Z. intros B. assert (2 ^ 53 < 2 ^ 58)%Z by reflexivity. generalize dependent (2 ^ a)%Z. intros A. nia.
Qed.
Lemma one_z_nz : (one_z <> 0)%Z.
Proof. pose proof one_z_pos. lia. Qed.
Lemma dtwo_eq : dtwo = Fin (2 * one_z).
Proof. unfold dtwo. rewrite d_of_Z_int by reflexivity. reflexivity. Qed.
Lemma rnd_scale z d : (0 < d)%Z -> rnd (z * d) d = rnd z 1.
Proof.
  intros Hd. unfold rnd. rewrite Z.abs_mul, (Z.abs_eq d) by lia. rewrite Z.sgn_mul, (Z.sgn_pos d) by lia. rewrite Z.mul_1_r.
  assert (E : rnd_nat (Z.abs z * d) d = rnd_nat (Z.abs z) 1); [|now rewrite E].
  rewrite !rnd_nat_mant by lia. rewrite Z.div_mul, Z.div_1_r by lia. f_equal. set (e := rnd_exp (Z.abs z)).
  unfold mant. assert (P : (0 < 2 ^ e)%Z) by (apply Z.pow_pos_nonneg; [lia|apply rnd_exp_nonneg]).
  rewrite (Z.mul_comm d), Z.div_mul_cancel_r, Z.mul_mod_distr_r, Z.mul_1_l by lia.
  assert (C : (2 * (Z.abs z mod 2 ^ e * d) ?= 2 ^ e * d)%Z = (2 * (Z.abs z mod 2 ^ e) ?= 2 ^ e)%Z).
  { rewrite Z.mul_assoc. symmetry. apply Zmult_compare_compat_r. lia. }
  rewrite C. reflexivity.
Qed.
Lemma dmul_two z : dmul dtwo (Fin z) = rnd (2 * z) 1.
Proof. rewrite dtwo_eq. unfold dmul. replace (2 * one_z * z)%Z with (2 * z * one_z)%Z by ring. apply rnd_scale, one_z_pos. Qed.
Lemma reflect_exact a l x : (0 <= a <= 2040)%Z -> (Z.abs l < 2 ^ 51)%Z -> (Z.abs (2 * l - x) < 2 ^ 53)%Z ->
  dsub (dmul dtwo (gridpt a l)) (gridpt a x) = gridpt a (2 * l - x).
Proof.
  intros Ha Hl Hx. unfold gridpt at 1. rewrite dmul_two. replace (2 * (l * 2 ^ a))%Z with (2 * l * 2 ^ a)%Z by ring.
  rewrite rnd_exact by (apply (grid_double a (2 * l)); lia). unfold dsub, gridpt, dneg, dadd.
  replace (2 * l * 2 ^ a + - (x * 2 ^ a))%Z with ((2 * l - x) * 2 ^ a)%Z by ring. apply rnd_exact. now apply (grid_double a).
Qed.
Lemma grid_lt a x y : (0 <= a)%Z -> dlt (gridpt a x) (gridpt a y) = (x <? y)%Z.
Proof.
  intros Ha. unfold gridpt, dlt. assert (P : (0 < 2 ^ a)%Z) by (apply Z.pow_pos_nonneg; lia).
  destruct (Z.ltb_spec x y), (Z.ltb_spec (x * 2 ^ a) (y * 2 ^ a)); auto; exfalso; nia.
Qed.
Lemma grid_le a x y : (0 <= a)%Z -> (x <= y)%Z -> dle (gridpt a x) (gridpt a y) = true.
Proof. intros Ha H. apply dle_fin. assert (P : (0 < 2 ^ a)%Z) by (apply Z.pow_pos_nonneg; lia). nia. Qed.

Lemma reflect_low a l u : (0 <= a <= 2040)%Z -> (Z.abs l < 2 ^ 51)%Z -> (Z.abs u < 2 ^ 51)%Z -> (l < u)%Z ->
  forall n x, (Z.of_nat n * (2 * (u - l)) > l - x)%Z -> (x <= u)%Z -> (Z.abs x < 2 ^ 51 + 2 ^ 52)%Z -> (l - x < 2 ^ 52 + 2 ^ 51)%Z ->
  exists y, reflect1 n (gridpt a x) (gridpt a l) (gridpt a u) = Ok (gridpt a y) /\ (l <= y <= u)%Z.
Proof.
  intros Ha Hl Hu Hlu. induction n as [|n IH]; intros x Hn Hxu Hx Hlx.
  - exists x. assert (l <= x)%Z by lia. split; [|lia]. cbn [reflect1]. unfold dgt. rewrite !grid_lt by lia.
    destruct (Z.ltb_spec x l); [lia|]. destruct (Z.ltb_spec u x); [lia|]. reflexivity.
  - cbn [reflect1]. unfold dgt. rewrite !grid_lt by lia. destruct (Z.ltb_spec x l) as [H|H]; cbn [orb].
    2: { destruct (Z.ltb_spec u x); [lia|]. exists x. split; [reflexivity|lia]. }
    rewrite reflect_exact by lia. rewrite grid_lt by lia. destruct (Z.ltb_spec u (2 * l - x)) as [H2|H2].
    + rewrite reflect_exact by lia. replace (2 * u - (2 * l - x))%Z with (x + 2 * (u - l))%Z by ring. apply IH; lia.
    + assert (0 <= Z.of_nat n * (2 * (u - l)))%Z by nia. apply IH; lia.
Qed.
Lemma reflect_terminates a l u x : (0 <= a <= 2040)%Z -> (Z.abs l < 2 ^ 51)%Z -> (Z.abs u < 2 ^ 51)%Z -> (Z.abs x < 2 ^ 51)%Z -> (l < u)%Z ->
  exists n y, reflect1 n (gridpt a x) (gridpt a l) (gridpt a u) = Ok (gridpt a y) /\ (l <= y <= u)%Z.
Proof.
  intros Ha Hl Hu Hx Hlu.
  assert (K : forall x', (exists n, (Z.of_nat n * (2 * (u - l)) > l - x')%Z)).
  { intros x'. exists (Z.to_nat (Z.abs (l - x') + 1)). rewrite Z2Nat.id by lia. nia. }
  destruct (Z_le_gt_dec x u) as [H|H].
  - destruct (K x) as (n & Hn). exists n. apply reflect_low; lia.
  - destruct (K (2 * u - x)%Z) as (n & Hn). exists (S n). cbn [reflect1]. unfold dgt. rewrite !grid_lt by lia.
    destruct (Z.ltb_spec x l); [lia|]. destruct (Z.ltb_spec u x); [|lia]. cbn [orb]. rewrite grid_lt by lia. destruct (Z.ltb_spec u x); [|lia].
    rewrite reflect_exact by lia. apply reflect_low; lia.
Qed.
Lemma reflect_more n m x l u y : reflect1 n x l u = Ok y -> n <= m -> reflect1 m x l u = Ok y.
Proof.
  revert m x. induction n as [|n IH]; intros m x H Hm; destruct m as [|m]; cbn [reflect1] in *; try lia; auto.
  - destruct (dlt x l || dgt x u); [discriminate|exact H].
  - destruct (dlt x l || dgt x u); [|exact H]. apply IH; [exact H|lia].
Qed.

(** The whole vector. *)
Lemma reflection_terminates a : forall x lb ub, (0 <= a <= 2040)%Z -> length x = length lb -> length x = length ub ->
  Forall (on_grid a 51) x -> Forall (on_grid a 51) lb -> Forall (on_grid a 51) ub ->
  (forall i l u, nth_error lb i = Some l -> nth_error ub i = Some u -> dlt l u = true) ->
  exists n0 y, (forall n, n0 <= n -> force_bounds_reflection n x lb ub = Ok y) /\ in_box lb ub y.
Proof.
  induction x as [|v x IH]; intros [|l lb] [|u ub] Ha L1 L2 Gx Gl Gu B; try discriminate.
  - exists 0, []. split; [reflexivity|]. split; [reflexivity|]. split; [reflexivity|]. intros [|i]; discriminate.
  - inversion Gx as [|? ? (kx & -> & Bx) Gx']; subst. inversion Gl as [|? ? (kl & -> & Bl) Gl']; subst. inversion Gu as [|? ? (ku & -> & Bu) Gu']; subst.
    destruct (IH lb ub Ha) as (n1 & y & P & Q); try (cbn in *; lia); try assumption.
    { intros i l u Hl Hu. apply (B (S i)); assumption. }
    pose proof (B 0 _ _ eq_refl eq_refl) as Hlu. rewrite grid_lt in Hlu by lia. apply Z.ltb_lt in Hlu.
    destruct (reflect_terminates a kl ku kx Ha Bl Bu Bx Hlu) as (n2 & w & R & W).
    exists (Nat.max n1 n2), (gridpt a w :: y). split.
    + intros n Hn. unfold force_bounds_reflection. cbn [map3]. rewrite (reflect_more n2 n _ _ _ _ R) by lia. cbn [bind].
      change (map3 (reflect1 n) x lb ub) with (force_bounds_reflection n x lb ub). rewrite P by lia. reflexivity.
    + destruct Q as (Q1 & Q2 & Q3). split; [cbn; congruence|]. split; [cbn; congruence|]. intros [|i] l' u' v' Hl Hu Hv; cbn in *.
      * inversion Hl; inversion Hu; inversion Hv; subst. split; apply grid_le; lia.
      * eapply Q3; eauto.
Qed.

(** In-box components are left alone, whatever the fuel. *)
Lemma reflect_in_box n x lb ub : in_box lb ub x -> force_bounds_reflection n x lb ub = Ok x.
Proof.
  intros (L1 & L2 & B). assert (R : forall i a b c, nth_error x i = Some a -> nth_error lb i = Some b -> nth_error ub i = Some c -> reflect1 n a b c = Ok a).
  { intros i a b c Ha Hb Hc. destruct (B i b c a Hb Hc Ha) as [W1 W2]. destruct n; cbn [reflect1]; unfold dgt; rewrite (dle_dlt_false _ _ W1), (dle_dlt_false _ _ W2); reflexivity. }
  destruct (map3_total (reflect1 n) x lb ub L1 L2) as (y & E); [eauto|]. unfold force_bounds_reflection. rewrite E. f_equal.
  destruct (map3_ok _ _ _ _ _ E) as [L P]. apply list_ext_error. intros i.
  destruct (nth_error x i) as [v|] eqn:Ev.
  - assert (Hi : i < length x) by (apply nth_error_Some; congruence).
    destruct (nth_error lb i) as [l|] eqn:El; [|apply nth_error_None in El; lia]. destruct (nth_error ub i) as [u|] eqn:Eu; [|apply nth_error_None in Eu; lia].
    destruct (P i v l u Ev El Eu) as (w & Hw & Ew). rewrite (R i _ _ _ Ev El Eu) in Ew. congruence.
  - apply nth_error_None in Ev. apply nth_error_None. lia.
Qed.
