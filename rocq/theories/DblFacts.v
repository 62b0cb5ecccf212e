(** Facts about the rounding model: monotone, exact on doubles, sign preserving,
    and always producing doubles. *)
From Coq Require Import ZArith Bool Lia.
From Verif Require Import Dbl.
Local Open Scope Z_scope.

Lemma rnd_exp_nonneg q : 0 <= rnd_exp q.
Proof. unfold rnd_exp; lia. Qed.

Lemma pow2_pos e : 0 <= e -> 0 < 2 ^ e.
Proof. intros; apply Z.pow_pos_nonneg; lia. Qed.

(** The rounded mantissa at exponent e. *)
Definition mant (n d e : Z) : Z :=
  let dd := d * 2 ^ e in
  let m := n / dd in
  match 2 * (n mod dd) ?= dd with
  | Lt => m
  | Eq => if Z.even m then m else m + 1
  | Gt => m + 1
  end.

Lemma quo_rem_spec n d : 0 <= n -> 0 < d -> quo_rem n d = (n / d, n mod d).
Proof.
  intros Hn Hd. unfold quo_rem. destruct (Z.eqb_spec d (2 ^ Z.log2 d)) as [E|E]; [|unfold Z.div, Z.modulo; now destruct (Z.div_eucl n d)].
  pose proof (Z.log2_nonneg d) as K. rewrite Z.shiftl_mul_pow2, Z.shiftr_div_pow2, <- E by exact K. f_equal. rewrite Z.mod_eq by lia. lia.
Qed.
Lemma rnd_nat_mant n d : 0 <= n -> 0 < d -> rnd_nat n d = mant n d (rnd_exp (n / d)) * 2 ^ rnd_exp (n / d).
Proof.
  intros Hn Hd. unfold rnd_nat. rewrite (quo_rem_spec n d Hn Hd). pose proof (rnd_exp_nonneg (n / d)) as He. set (e := rnd_exp (n / d)) in *. clearbody e.
  pose proof (pow2_pos e He) as P2. rewrite !Z.shiftl_mul_pow2, !Z.shiftr_div_pow2 by exact He. f_equal. unfold mant.
  rewrite Z.rem_mul_r, Z.div_div by lia.
  replace (n / d - n / (d * 2 ^ e) * 2 ^ e) with ((n / d) mod 2 ^ e) by (rewrite Z.mod_eq, Z.div_div by lia; lia).
  set (t := (n / d) mod 2 ^ e). set (r := n mod d). set (m := n / (d * 2 ^ e)).
  assert (Ht : 0 <= t < 2 ^ e) by (apply Z.mod_pos_bound; lia). assert (Hr : 0 <= r < d) by (apply Z.mod_pos_bound; lia). clearbody t r m.
  replace (2 * (r + d * t) ?= d * 2 ^ e) with (if e =? 0 then 2 * r ?= d else match 2 * t ?= 2 ^ e with Eq => if r =? 0 then Eq else Gt | c => c end); [reflexivity|].
  destruct (Z.eqb_spec e 0) as [->|N].
  - change (2 ^ 0) with 1 in *. assert (t = 0) by lia. subst t. f_equal; lia.
  - assert (V : exists h, 2 ^ e = 2 * h) by (exists (2 ^ (e - 1)); rewrite <- Z.pow_succ_r by lia; f_equal; lia). destruct V as (h & Eh). rewrite Eh in *. symmetry.
    destruct (Z.compare_spec (2 * t) (2 * h)) as [C|C|C].
    + assert (t = h) by lia. subst t. destruct (Z.eqb_spec r 0) as [->|R]; [apply Z.compare_eq_iff; lia|apply Z.compare_gt_iff; nia].
    + apply Z.compare_lt_iff. assert (t + 1 <= h) by lia. nia.
    + apply Z.compare_gt_iff. assert (h + 1 <= t) by lia. nia.
Qed.

Lemma mant_bounds n d e : 0 < d -> 0 <= e ->
  n / (d * 2 ^ e) <= mant n d e <= n / (d * 2 ^ e) + 1.
Proof. intros. unfold mant. destruct (_ ?= _); [destruct (Z.even _)| |]; lia. Qed.

Lemma mant_mono n1 n2 d e : 0 < d -> 0 <= e -> n1 <= n2 -> mant n1 d e <= mant n2 d e.
Proof.
  intros Hd He Hn. pose proof (pow2_pos e He).
  assert (Hdd : 0 < d * 2 ^ e) by nia.
  pose proof (Z.div_le_mono n1 n2 (d * 2 ^ e) Hdd Hn) as Hdiv.
  pose proof (mant_bounds n1 d e Hd He). pose proof (mant_bounds n2 d e Hd He).
  destruct (Z.eq_dec (n1 / (d * 2 ^ e)) (n2 / (d * 2 ^ e))) as [E|E]; [|lia].
  pose proof (Z.div_mod n1 (d * 2 ^ e) ltac:(lia)) as M1.
  pose proof (Z.div_mod n2 (d * 2 ^ e) ltac:(lia)) as M2.
  unfold mant. rewrite <- E.
  assert (n1 mod (d * 2 ^ e) <= n2 mod (d * 2 ^ e)) by (rewrite E in M1; lia).
  destruct (Z.compare_spec (2 * (n1 mod (d * 2 ^ e))) (d * 2 ^ e));
  destruct (Z.compare_spec (2 * (n2 mod (d * 2 ^ e))) (d * 2 ^ e));
  try destruct (Z.even _); lia.
Qed.

Lemma quot_range q : 0 <= q -> q / 2 ^ rnd_exp q < 2 ^ 53 /\ (0 < rnd_exp q -> 2 ^ 52 <= q / 2 ^ rnd_exp q).
Proof.
  intros Hq. destruct (Z.eq_dec q 0) as [->|Hq0].
  { change (rnd_exp 0) with 0. rewrite Z.pow_0_r. split; [reflexivity|lia]. }
  destruct (Z.log2_spec q ltac:(lia)) as [L1 L2].
  pose proof (Z.log2_nonneg q).
  unfold rnd_exp. destruct (Z.max_spec 0 (Z.log2 q - 52)) as [[H1 ->]|[H1 ->]].
  - pose proof (pow2_pos (Z.log2 q - 52) ltac:(lia)). split.
    + apply Z.div_lt_upper_bound; [lia|]. rewrite <- Z.pow_add_r by lia.
      replace (Z.log2 q - 52 + 53) with (Z.succ (Z.log2 q)) by lia. exact L2.
    + intros _. apply Z.div_le_lower_bound; [lia|]. rewrite <- Z.pow_add_r by lia.
      replace (Z.log2 q - 52 + 52) with (Z.log2 q) by lia. exact L1.
  - rewrite Z.pow_0_r, Z.div_1_r. split; [|lia].
    eapply Z.lt_le_trans; [exact L2|]. apply Z.pow_le_mono_r; lia.
Qed.

Lemma mant_range n d : 0 <= n -> 0 < d ->
  0 <= mant n d (rnd_exp (n / d)) <= 2 ^ 53 /\
  (0 < rnd_exp (n / d) -> 2 ^ 52 <= mant n d (rnd_exp (n / d))).
Proof.
  intros Hn Hd. pose proof (rnd_exp_nonneg (n / d)) as He.
  pose proof (mant_bounds n d (rnd_exp (n / d)) Hd He) as B.
  pose proof (pow2_pos _ He).
  rewrite <- Z.div_div in B by lia.
  assert (Hq : 0 <= n / d) by (apply Z.div_pos; lia).
  destruct (quot_range (n / d) Hq) as [U L].
  assert (0 <= n / d / 2 ^ rnd_exp (n / d)) by (apply Z.div_pos; lia).
  split; [lia|]. intros K. specialize (L K). lia.
Qed.

Lemma rnd_nat_nonneg n d : 0 <= n -> 0 < d -> 0 <= rnd_nat n d.
Proof.
  intros Hn Hd. rewrite rnd_nat_mant by lia. destruct (mant_range n d Hn Hd) as [[H _] _].
  pose proof (pow2_pos _ (rnd_exp_nonneg (n / d))). nia.
Qed.

Lemma rnd_exp_mono q1 q2 : q1 <= q2 -> rnd_exp q1 <= rnd_exp q2.
Proof. intros H. unfold rnd_exp. pose proof (Z.log2_le_mono q1 q2 H). lia. Qed.

Lemma rnd_nat_mono n1 n2 d : 0 <= n1 -> 0 < d -> n1 <= n2 -> rnd_nat n1 d <= rnd_nat n2 d.
Proof.
  intros H1 Hd H. rewrite !rnd_nat_mant by lia.
  pose proof (Z.div_le_mono n1 n2 d Hd H) as Hq.
  pose proof (rnd_exp_mono _ _ Hq) as He.
  pose proof (rnd_exp_nonneg (n1 / d)) as He1. pose proof (rnd_exp_nonneg (n2 / d)) as He2.
  destruct (mant_range n1 d H1 Hd) as [[A1 A2] _].
  destruct (mant_range n2 d ltac:(lia) Hd) as [[B1 B2] B3].
  destruct (Z.eq_dec (rnd_exp (n1 / d)) (rnd_exp (n2 / d))) as [E|E].
  - rewrite <- E. apply Z.mul_le_mono_nonneg_r; [pose proof (pow2_pos _ He1); lia|].
    apply mant_mono; lia.
  - specialize (B3 ltac:(lia)).
    replace (rnd_exp (n2 / d)) with ((rnd_exp (n2 / d) - rnd_exp (n1 / d) - 1) + (1 + rnd_exp (n1 / d))) at 2 by lia.
    rewrite Z.pow_add_r by lia. rewrite (Z.pow_add_r 2 1) by lia. rewrite Z.pow_1_r.
    pose proof (pow2_pos _ He1).
    pose proof (pow2_pos (rnd_exp (n2 / d) - rnd_exp (n1 / d) - 1) ltac:(lia)).
    set (P := 2 ^ rnd_exp (n1 / d)) in *. set (Q := 2 ^ (rnd_exp (n2 / d) - rnd_exp (n1 / d) - 1)) in *.
    set (m1 := mant n1 d _) in *. set (m2 := mant n2 d _) in *.
    change (2 ^ 53) with (2 * 2 ^ 52) in A2.
    assert (Hm12 : m1 <= 2 * m2) by lia. assert (Hm2 : 0 <= m2) by lia.
    assert (HQ : m2 <= m2 * Q) by nia.
    replace (m2 * (Q * (2 * P))) with ((2 * (m2 * Q)) * P) by ring.
    apply Z.mul_le_mono_nonneg_r; lia.
Qed.

Lemma mant_exact n d e k : 0 < d -> 0 <= e -> n = k * (d * 2 ^ e) -> mant n d e = k.
Proof.
  intros Hd He ->. pose proof (pow2_pos e He). assert (0 < d * 2 ^ e) by nia.
  unfold mant. rewrite Z.mod_mul, Z.div_mul by lia. rewrite Z.mul_0_r.
  destruct (Z.compare_spec 0 (d * 2 ^ e)); lia.
Qed.

(** Rounding leaves doubles alone. *)
Lemma rnd_nat_exact m e d : 0 <= m < 2 ^ 53 -> 0 <= e -> 0 < d -> rnd_nat (m * 2 ^ e * d) d = m * 2 ^ e.
Proof.
  intros Hm He Hd. rewrite rnd_nat_mant by lia. rewrite Z.div_mul by lia.
  destruct (Z.eq_dec m 0) as [->|Hm0].
  { rewrite !Z.mul_0_l. change (rnd_exp 0) with 0. rewrite (mant_exact 0 d 0 0); lia. }
  pose proof (pow2_pos e He).
  set (q := m * 2 ^ e). pose proof (rnd_exp_nonneg q) as Hr.
  assert (Hle : rnd_exp q <= e).
  { unfold rnd_exp. apply Z.max_lub; [lia|].
    assert (Z.log2 q < 53 + e); [|lia].
    apply Z.log2_lt_pow2; [unfold q; nia|]. unfold q. rewrite Z.pow_add_r by lia. nia. }
  rewrite (mant_exact (q * d) d (rnd_exp q) (m * 2 ^ (e - rnd_exp q))).
  - unfold q at 3. rewrite <- Z.mul_assoc, <- Z.pow_add_r by lia. f_equal. f_equal. lia.
  - exact Hd.
  - exact Hr.
  - unfold q at 1. replace e with ((e - rnd_exp q) + rnd_exp q) at 1 by lia.
    rewrite Z.pow_add_r by lia. ring.
Qed.

Lemma rnd_nat_pow2_le n k d : 0 <= n -> 0 <= k -> 0 < d -> n <= 2 ^ k * d -> rnd_nat n d <= 2 ^ k.
Proof.
  intros Hn Hk Hd H. rewrite <- (Z.mul_1_l (2 ^ k)) at 1.
  rewrite <- (rnd_nat_exact 1 k d) by lia. rewrite Z.mul_1_l. apply rnd_nat_mono; lia.
Qed.
Lemma rnd_nat_ge1 n d : 0 < d -> d <= n -> 1 <= rnd_nat n d.
Proof.
  intros Hd H. assert (rnd_nat (1 * 2 ^ 0 * d) d = 1 * 2 ^ 0) by (apply rnd_nat_exact; lia).
  change (1 * 2 ^ 0) with 1 in H0. rewrite Z.mul_1_l in H0. rewrite <- H0 at 1. apply rnd_nat_mono; lia.
Qed.

(** Every rounded value is a double. *)
Lemma rnd_is_double n d : 0 < d -> is_double (rnd n d).
Proof.
  intros Hd. unfold rnd. destruct (Z.leb_spec ovf_z (rnd_nat (Z.abs n) d)) as [H|H].
  - destruct (Z.sgn n <? 0); exact I.
  - set (v := rnd_nat (Z.abs n) d) in *. unfold is_double.
    destruct (mant_range (Z.abs n) d ltac:(lia) Hd) as [[A1 A2] _].
    pose proof (rnd_nat_nonneg (Z.abs n) d ltac:(lia) Hd) as Hv. fold v in Hv.
    assert (Hvz : Z.abs (Z.sgn n * v) < ovf_z).
    { destruct (Z.sgn_spec n) as [[_ ->]|[[_ ->]|[_ ->]]]; lia. }
    assert (Hsv : exists m e, v = m * 2 ^ e /\ 0 <= e /\ 0 <= m < 2 ^ 53).
    { unfold v. rewrite rnd_nat_mant by lia. set (e := rnd_exp _) in *. set (m := mant _ _ _) in *.
      pose proof (rnd_exp_nonneg (Z.abs n / d)) as He. fold e in He.
      destruct (Z.eq_dec m (2 ^ 53)) as [E|E].
      - exists 1, (53 + e). rewrite E, Z.pow_add_r by lia. lia.
      - exists m, e. lia. }
    destruct Hsv as (m & e & Ev & He & Hm).
    exists (Z.sgn n * m), e. repeat split.
    + rewrite Ev. ring.
    + exact He.
    + destruct (Z.sgn_spec n) as [[_ ->]|[[_ ->]|[_ ->]]]; lia.
    + exact Hvz.
Qed.

Lemma rnd_exact z : is_double (Fin z) -> rnd z 1 = Fin z.
Proof.
  intros (m & e & -> & He & Hm & Hz). unfold rnd.
  assert (E : rnd_nat (Z.abs (m * 2 ^ e)) 1 = Z.abs (m * 2 ^ e)).
  { pose proof (pow2_pos e He). rewrite Z.abs_mul, (Z.abs_eq (2 ^ e)) by lia.
    rewrite <- (Z.mul_1_r (Z.abs m * 2 ^ e)) at 1. apply rnd_nat_exact; lia. }
  rewrite E. destruct (Z.leb_spec ovf_z (Z.abs (m * 2 ^ e))); [lia|].
  f_equal. rewrite Z.mul_comm. apply Z.abs_sgn.
Qed.

(** Non-negative values (zero, positive numbers, +infinity). *)
Definition nonneg (a : dbl) : Prop := dle dzero a = true.
Definition dpos (a : dbl) : Prop := dlt dzero a = true.

Lemma nonneg_cases a : nonneg a <-> a = PInf \/ exists z, a = Fin z /\ 0 <= z.
Proof.
  unfold nonneg, dle, dzero. destruct a; cbn [dlt deq]; split; intros H; try discriminate; auto.
  - destruct H as [H|(z & H & _)]; discriminate.
  - destruct H as [H|(z & H & _)]; discriminate.
  - right. exists z. split; [reflexivity|]. apply orb_true_iff in H.
    destruct H as [H|H]; [apply Z.ltb_lt in H|apply Z.eqb_eq in H]; lia.
  - destruct H as [H|(z' & H & Hz)]; [discriminate|]. inversion H; subst.
    apply orb_true_iff. rewrite Z.ltb_lt, Z.eqb_eq. lia.
Qed.

Lemma rnd_nonneg n d : 0 <= n -> 0 < d -> nonneg (rnd n d).
Proof.
  intros Hn Hd. apply nonneg_cases. unfold rnd.
  pose proof (rnd_nat_nonneg (Z.abs n) d ltac:(lia) Hd).
  destruct (Z.leb_spec ovf_z (rnd_nat (Z.abs n) d)).
  - left. destruct (Z.ltb_spec (Z.sgn n) 0); [|reflexivity]. pose proof (Z.sgn_nonneg n). lia.
  - right. eexists. split; [reflexivity|]. pose proof (proj2 (Z.sgn_nonneg n) Hn). nia.
Qed.

Lemma dadd_nonneg a b : nonneg a -> nonneg b -> nonneg (dadd a b).
Proof.
  rewrite !nonneg_cases. intros [->|(x & -> & Hx)] [->|(y & -> & Hy)]; simpl; auto.
  apply nonneg_cases. apply rnd_nonneg; lia.
Qed.

Lemma dadd_PInf_l a : nonneg a -> dadd PInf a = PInf.
Proof. rewrite nonneg_cases. intros [->|(x & -> & _)]; reflexivity. Qed.

Lemma dsub_nonneg x y : x <= y -> nonneg (dsub (Fin y) (Fin x)).
Proof. intros H. simpl. apply rnd_nonneg; lia. Qed.

Lemma rnd_finite n : Z.abs n <= 2 ^ 2097 -> exists z, rnd n 1 = Fin z.
Proof.
  intros H. unfold rnd.
  assert (rnd_nat (Z.abs n) 1 <= 2 ^ 2097) by (apply rnd_nat_pow2_le; lia).
  destruct (Z.leb_spec ovf_z (rnd_nat (Z.abs n) 1)); [|eauto].
  exfalso. unfold ovf_z in *. assert (2 ^ 2097 < 2 ^ 2098) by (apply Z.pow_lt_mono_r; lia). lia.
Qed.

Lemma dsub_pos_finite x y : x < y -> Z.abs (y - x) <= 2 ^ 2097 ->
  exists z, dsub (Fin y) (Fin x) = Fin z /\ 0 < z.
Proof.
  intros H1 H2. simpl. change (y + - x) with (y - x). unfold rnd.
  assert (rnd_nat (Z.abs (y - x)) 1 <= 2 ^ 2097) by (apply rnd_nat_pow2_le; lia).
  destruct (Z.leb_spec ovf_z (rnd_nat (Z.abs (y - x)) 1)).
  - exfalso. unfold ovf_z in *. assert (2 ^ 2097 < 2 ^ 2098) by (apply Z.pow_lt_mono_r; lia). lia.
  - eexists. split; [reflexivity|]. rewrite Z.sgn_pos by lia.
    pose proof (rnd_nat_ge1 (Z.abs (y - x)) 1). lia.
Qed.

Lemma ddiv_nonneg a z : nonneg a -> 0 < z -> nonneg (ddiv a (Fin z)).
Proof.
  rewrite nonneg_cases. intros [->|(x & -> & Hx)] Hz; simpl.
  - destruct (Z.ltb_spec z 0); [lia|]. reflexivity.
  - destruct (Z.eqb_spec z 0); [lia|]. destruct (Z.ltb_spec z 0); [lia|].
    apply rnd_nonneg; [|lia]. assert (0 < one_z) by reflexivity. nia.
Qed.

(** ** Monotonicity of the rounded operations *)
Definition le_or_nan (a b : dbl) : Prop := a = NaN \/ b = NaN \/ dle a b = true.

Lemma dle_refl a : a <> NaN -> dle a a = true.
Proof. destruct a; intros H; try congruence; try reflexivity. unfold dle, dlt, deq. rewrite Z.eqb_refl, orb_true_r. reflexivity. Qed.
Lemma dle_fin x y : dle (Fin x) (Fin y) = true <-> x <= y.
Proof. unfold dle, dlt, deq. rewrite orb_true_iff, Z.ltb_lt, Z.eqb_eq. lia. Qed.
Lemma dle_not_nan a b : dle a b = true -> a <> NaN /\ b <> NaN.
Proof. destruct a, b; cbn; intros H; split; congruence. Qed.
Lemma dle_trans a b c : dle a b = true -> dle b c = true -> dle a c = true.
Proof.
  destruct a as [| |x|], b as [| |y|], c as [| |z|]; try reflexivity; try (cbn; congruence).
  rewrite !dle_fin. lia.
Qed.

Lemma rnd_not_nan n d : rnd n d <> NaN.
Proof. unfold rnd. destruct (_ <=? _); [destruct (_ <? _)|]; discriminate. Qed.

Lemma rnd_mono n1 n2 d : 0 < d -> n1 <= n2 -> dle (rnd n1 d) (rnd n2 d) = true.
Proof.
  intros Hd Hn.
  assert (Hpos : forall a, 0 <= a -> exists v, v = rnd_nat a d /\ 0 <= v) by (intros a Ha; eexists; split; [reflexivity|apply rnd_nat_nonneg; lia]).
  unfold rnd.
  destruct (Z_lt_ge_dec n1 0) as [H1|H1], (Z_lt_ge_dec n2 0) as [H2|H2]; try lia.
  - rewrite (Z.sgn_neg n1), (Z.sgn_neg n2) by lia. cbn [Z.ltb Z.compare].
    assert (M : rnd_nat (Z.abs n2) d <= rnd_nat (Z.abs n1) d) by (apply rnd_nat_mono; lia).
    destruct (Z.leb_spec ovf_z (rnd_nat (Z.abs n1) d)), (Z.leb_spec ovf_z (rnd_nat (Z.abs n2) d)); try reflexivity; try lia.
    apply dle_fin. lia.
  - rewrite (Z.sgn_neg n1) by lia. change (-1 <? 0) with true. cbv iota.
    pose proof (rnd_nat_nonneg (Z.abs n1) d ltac:(lia) Hd). pose proof (rnd_nat_nonneg (Z.abs n2) d ltac:(lia) Hd).
    assert (Es : Z.sgn n2 <? 0 = false) by (apply Z.ltb_ge; lia). rewrite Es.
    destruct (Z.leb_spec ovf_z (rnd_nat (Z.abs n1) d)), (Z.leb_spec ovf_z (rnd_nat (Z.abs n2) d)); try reflexivity.
    apply dle_fin. assert (0 <= Z.sgn n2) by lia. nia.
  - assert (E1 : Z.sgn n1 <? 0 = false) by (apply Z.ltb_ge; lia). assert (E2 : Z.sgn n2 <? 0 = false) by (apply Z.ltb_ge; lia).
    rewrite E1, E2.
    assert (M : rnd_nat (Z.abs n1) d <= rnd_nat (Z.abs n2) d) by (apply rnd_nat_mono; lia).
    pose proof (rnd_nat_nonneg (Z.abs n1) d ltac:(lia) Hd).
    destruct (Z.leb_spec ovf_z (rnd_nat (Z.abs n1) d)), (Z.leb_spec ovf_z (rnd_nat (Z.abs n2) d)); try reflexivity; try lia.
    apply dle_fin. assert (Z.sgn n1 <= Z.sgn n2) by lia. assert (0 <= Z.sgn n1 <= 1) by lia.
    assert (Z.sgn n2 <= 1) by lia. nia.
Qed.

Lemma dadd_mono a b c d : le_or_nan a b -> le_or_nan c d -> le_or_nan (dadd a c) (dadd b d).
Proof.
  unfold le_or_nan. intros [->|[->|H1]]; [left; reflexivity|right; left; reflexivity|].
  intros [->|[->|H2]]; [left; destruct a; reflexivity|right; left; destruct b; reflexivity|].
  destruct a as [| |x|], b as [| |y|]; try (cbn in H1; congruence);
  destruct c as [| |u|], d as [| |v|]; try (cbn in H2; congruence); cbn [dadd]; auto;
  right; right; try reflexivity.
  - pose proof (rnd_not_nan (y + v) 1) as K. destruct (rnd (y + v) 1); [congruence| | |]; reflexivity.
  - pose proof (rnd_not_nan (y + v) 1) as K. destruct (rnd (y + v) 1); [congruence| | |]; reflexivity.
  - pose proof (rnd_not_nan (y + v) 1) as K. destruct (rnd (y + v) 1); [congruence| | |]; reflexivity.
  - rewrite dle_fin in H1, H2. apply rnd_mono; lia.
  - pose proof (rnd_not_nan (x + u) 1) as K. destruct (rnd (x + u) 1); [congruence| | |]; reflexivity.
  - pose proof (rnd_not_nan (x + u) 1) as K. destruct (rnd (x + u) 1); [congruence| | |]; reflexivity.
  - pose proof (rnd_not_nan (x + u) 1) as K. destruct (rnd (x + u) 1); [congruence| | |]; reflexivity.
Qed.

Lemma dmul_mono_l w a b : nonneg w -> le_or_nan a b -> le_or_nan (dmul w a) (dmul w b).
Proof.
  intros Hw H. apply nonneg_cases in Hw. destruct Hw as [->|(z & -> & Hz)].
  - destruct H as [->|[->|H]]; [left; reflexivity|right; left; reflexivity|].
    destruct a as [| |x|], b as [| |y|]; try (cbn in H; congruence); try (right; right; reflexivity); cbn [dmul dsgn];
    unfold le_or_nan, sgn_inf; rewrite ?Z.mul_1_l; change (1 * -1) with (-1); change (1*1) with 1; cbn [Z.ltb Z.compare].
    + destruct (Z.ltb_spec (Z.sgn y) 0), (Z.ltb_spec 0 (Z.sgn y)); auto; right; right; reflexivity.
    + rewrite dle_fin in H.
      destruct (Z.ltb_spec (Z.sgn x) 0), (Z.ltb_spec 0 (Z.sgn x)), (Z.ltb_spec (Z.sgn y) 0), (Z.ltb_spec 0 (Z.sgn y)); auto; try lia; right; right; reflexivity.
    + destruct (Z.ltb_spec (Z.sgn x) 0), (Z.ltb_spec 0 (Z.sgn x)); auto; right; right; reflexivity.
  - assert (P1 : 0 < one_z) by (vm_compute; reflexivity).
    destruct H as [->|[->|H]]; [left; reflexivity|right; left; reflexivity|].
    destruct a as [| |x|], b as [| |y|]; try (cbn in H; congruence); cbn [dmul dsgn]; unfold le_or_nan, sgn_inf.
    + destruct (Z.ltb_spec (Z.sgn z * -1) 0), (Z.ltb_spec 0 (Z.sgn z * -1)); auto; right; right; reflexivity.
    + pose proof (rnd_not_nan (z * y) one_z) as K.
      destruct (Z.ltb_spec (Z.sgn z * -1) 0), (Z.ltb_spec 0 (Z.sgn z * -1)); auto; try lia.
      destruct (rnd (z * y) one_z); [congruence| | |]; right; right; reflexivity.
    + destruct (Z.ltb_spec (Z.sgn z * -1) 0), (Z.ltb_spec 0 (Z.sgn z * -1)); auto; try lia.
      destruct (Z.ltb_spec (Z.sgn z * 1) 0), (Z.ltb_spec 0 (Z.sgn z * 1)); auto; right; right; reflexivity.
    + rewrite dle_fin in H. right; right. apply rnd_mono; nia.
    + pose proof (rnd_not_nan (z * x) one_z) as K.
      destruct (Z.ltb_spec (Z.sgn z * 1) 0), (Z.ltb_spec 0 (Z.sgn z * 1)); auto; try lia.
      destruct (rnd (z * x) one_z); [congruence| | |]; right; right; reflexivity.
    + destruct (Z.ltb_spec (Z.sgn z * 1) 0), (Z.ltb_spec 0 (Z.sgn z * 1)); auto; right; right; reflexivity.
Qed.

Lemma rnd_zero d : 0 < d -> rnd 0 d = Fin 0.
Proof.
  intros Hd. unfold rnd. cbn [Z.abs Z.sgn]. pose proof (rnd_nat_exact 0 0 d ltac:(lia) ltac:(lia) Hd) as E.
  change (0 * 2 ^ 0 * d) with 0 in E. rewrite E. reflexivity.
Qed.
