(** Exact arithmetic on integer-valued doubles below 2^53; used to evaluate
    examples without unfolding 1074-bit numbers. *)
From Coq Require Import ZArith Bool Lia.
From Verif Require Import Dbl DblFacts.
Local Open Scope Z_scope.

Definition dint (k : Z) : dbl := Fin (k * one_z).

Lemma one_z_pos : 0 < one_z.
Proof. unfold one_z. apply Z.pow_pos_nonneg; lia. Qed.

Lemma rnd_int k d : Z.abs k < 2 ^ 53 -> 0 < d -> rnd (k * one_z * d) d = dint k.
Proof.
  intros Hk Hd. pose proof one_z_pos as HP. unfold rnd.
  assert (E : rnd_nat (Z.abs (k * one_z * d)) d = Z.abs k * one_z).
  { rewrite !Z.abs_mul, (Z.abs_eq d), (Z.abs_eq one_z) by lia. unfold one_z. apply rnd_nat_exact; lia. }
  assert (S : Z.sgn (k * one_z * d) = Z.sgn k).
  { rewrite !Z.sgn_mul, (Z.sgn_pos one_z), (Z.sgn_pos d) by lia. lia. }
  rewrite E, S. cbv zeta. destruct (Z.leb_spec ovf_z (Z.abs k * one_z)) as [H|H].
  - exfalso. assert (Z.abs k * one_z < 2 ^ 53 * one_z) by nia.
    assert (E' : 2 ^ 53 * one_z = 2 ^ 1127) by (unfold one_z; rewrite <- Z.pow_add_r by lia; reflexivity).
    assert (2 ^ 1127 <= ovf_z) by (unfold ovf_z; apply Z.pow_le_mono_r; lia). lia.
  - unfold dint. rewrite Z.mul_assoc. do 2 f_equal. rewrite Z.mul_comm. apply Z.abs_sgn.
Qed.

Lemma d_of_Z_int k : Z.abs k < 2 ^ 53 -> d_of_Z k = dint k.
Proof. intros H. unfold d_of_Z. rewrite <- (Z.mul_1_r (k * one_z)). apply rnd_int; lia. Qed.
Lemma dadd_int a b : Z.abs (a + b) < 2 ^ 53 -> dadd (dint a) (dint b) = dint (a + b).
Proof. intros H. rewrite <- (rnd_int (a + b) 1) by lia. unfold dadd, dint. f_equal. ring. Qed.
Lemma dneg_int a : dneg (dint a) = dint (- a).
Proof. unfold dneg, dint. f_equal; ring. Qed.
Lemma dsub_int a b : Z.abs (a - b) < 2 ^ 53 -> dsub (dint a) (dint b) = dint (a - b).
Proof. intros H. unfold dsub. rewrite dneg_int. apply dadd_int. exact H. Qed.
Lemma dmul_int a b : Z.abs (a * b) < 2 ^ 53 -> dmul (dint a) (dint b) = dint (a * b).
Proof.
  intros H. rewrite <- (rnd_int (a * b) one_z H one_z_pos). unfold dmul, dint. f_equal.
  ring.
Qed.
Lemma dabs_int a : dabs (dint a) = dint (Z.abs a).
Proof. unfold dabs, dint. pose proof one_z_pos. f_equal. rewrite Z.abs_mul. rewrite (Z.abs_eq one_z); lia. Qed.
Lemma dlt_int a b : dlt (dint a) (dint b) = (a <? b).
Proof. unfold dlt, dint. pose proof one_z_pos. destruct (Z.ltb_spec a b), (Z.ltb_spec (a * one_z) (b * one_z)); nia || reflexivity. Qed.
Lemma deq_int a b : deq (dint a) (dint b) = (a =? b).
Proof. unfold deq, dint. pose proof one_z_pos. destruct (Z.eqb_spec a b), (Z.eqb_spec (a * one_z) (b * one_z)); nia || reflexivity. Qed.
Lemma dle_int a b : dle (dint a) (dint b) = (a <=? b).
Proof. unfold dle. rewrite dlt_int, deq_int. destruct (Z.ltb_spec a b), (Z.eqb_spec a b), (Z.leb_spec a b); simpl; lia || reflexivity. Qed.
Lemma dsqrt_int s : 0 <= s < 2 ^ 53 -> dsqrt (dint (s * s)) = dint s.
Proof.
  intros H. unfold dsqrt, dint. pose proof one_z_pos. destruct (Z.ltb_spec (s * s * one_z) 0); [nia|].
  assert (E : s * s * one_z * one_z * 2 ^ 120 = (s * one_z * 2 ^ 60) * (s * one_z * 2 ^ 60)).
  { change (2 ^ 120) with (2 ^ 60 * 2 ^ 60). ring. }
  cbv zeta. rewrite E. rewrite Z.sqrt_square by nia. rewrite Z.eqb_refl. rewrite Z.add_0_r.
  replace (2 * (s * one_z * 2 ^ 60)) with (s * one_z * 2 ^ 61) by (change (2 ^ 61) with (2 * 2 ^ 60); ring).
  rewrite rnd_int; [reflexivity|lia|lia].
Qed.
Lemma dmax_int a b : dmax (dint a) (dint b) = dint (Z.max a b).
Proof. unfold dmax. rewrite dlt_int. destruct (Z.ltb_spec a b); f_equal; lia. Qed.
Lemma dmin_int a b : dmin (dint a) (dint b) = dint (Z.min a b).
Proof. unfold dmin. rewrite dlt_int. destruct (Z.ltb_spec b a); f_equal; lia. Qed.
Lemma dzero_int : dzero = dint 0.
Proof. reflexivity. Qed.
Lemma done_int : done = dint 1.
Proof. unfold dint. rewrite Z.mul_1_l. reflexivity. Qed.
Lemma is_double_int a : Z.abs a < 2 ^ 53 -> is_double (dint a).
Proof. intros H. rewrite <- (rnd_int a 1) by lia. apply rnd_is_double. lia. Qed.

(** Symbolic arithmetic on scaled doubles, cheap to re-check. *)
Definition dsc (k a : Z) : dbl := Fin (k * 2 ^ a).
Lemma rnd_sc k a d : (0 <= k < 2 ^ 53)%Z -> (0 <= a)%Z -> (0 < d)%Z ->
  rnd (k * 2 ^ a * d) d = if (ovf_z <=? k * 2 ^ a)%Z then PInf else dsc k a.
Proof.
  intros Hk Ha Hd. assert (0 < 2 ^ a)%Z by (apply Z.pow_pos_nonneg; lia).
  assert (H0 : (0 <= k * 2 ^ a * d)%Z) by (apply Z.mul_nonneg_nonneg; [apply Z.mul_nonneg_nonneg|]; lia).
  unfold rnd. cbv zeta. rewrite (Z.abs_eq (k * 2 ^ a * d)) by exact H0. rewrite rnd_nat_exact by lia.
  destruct (Z.ltb_spec (Z.sgn (k * 2 ^ a * d)) 0) as [E|E]; [pose proof (proj2 (Z.sgn_nonneg _) H0); lia|].
  destruct (ovf_z <=? k * 2 ^ a)%Z; [reflexivity|]. unfold dsc. f_equal.
  destruct (Z.eq_dec k 0) as [->|N]; [reflexivity|]. rewrite Z.sgn_pos; [lia|]. apply Z.mul_pos_pos; [apply Z.mul_pos_pos|]; lia.
Qed.
Lemma sc_fits k a b : (0 <= k < 2 ^ b)%Z -> (0 <= a)%Z -> (0 <= b)%Z -> (a + b <= 2098)%Z -> (ovf_z <=? k * 2 ^ a)%Z = false.
Proof.
  intros H1 H2 H3 H4. apply Z.leb_gt. apply Z.lt_le_trans with (2 ^ b * 2 ^ a)%Z.
  - apply Z.mul_lt_mono_pos_r; [apply Z.pow_pos_nonneg|]; lia.
  - rewrite <- Z.pow_add_r by lia. apply Z.pow_le_mono_r; lia.
Qed.
Lemma sc_over k a b : (2 ^ b <= k)%Z -> (0 <= a)%Z -> (0 <= b)%Z -> (2098 <= a + b)%Z -> (ovf_z <=? k * 2 ^ a)%Z = true.
Proof.
  intros H1 H2 H3 H4. apply Z.leb_le. apply Z.le_trans with (2 ^ b * 2 ^ a)%Z.
  - rewrite <- Z.pow_add_r by lia. apply Z.pow_le_mono_r; lia.
  - apply Z.mul_le_mono_nonneg_r; [apply Z.pow_nonneg|]; lia.
Qed.
Lemma sc_nonneg k a : (0 <= k)%Z -> (0 <= k * 2 ^ a)%Z.
Proof. intros H. apply Z.mul_nonneg_nonneg; [lia|apply Z.pow_nonneg; lia]. Qed.
Lemma dsc_double k a b : (0 <= k < 2 ^ b)%Z -> (0 <= a)%Z -> (0 <= b <= 53)%Z -> (a + b <= 2098)%Z -> is_double (dsc k a).
Proof.
  intros H1 H2 H3 H4. exists k, a. split; [reflexivity|]. split; [lia|].
  assert (2 ^ b <= 2 ^ 53)%Z by (apply Z.pow_le_mono_r; lia). split; [lia|].
  rewrite Z.abs_eq by (apply sc_nonneg; lia). apply Z.leb_gt. apply (sc_fits k a b); lia.
Qed.
Lemma dsc_sub0 k a b : (0 <= k < 2 ^ b)%Z -> (0 <= a)%Z -> (0 <= b <= 53)%Z -> (a + b <= 2098)%Z -> dsub (dsc k a) dzero = dsc k a.
Proof.
  intros H1 H2 H3 H4. assert (2 ^ b <= 2 ^ 53)%Z by (apply Z.pow_le_mono_r; lia).
  unfold dsub, dadd, dsc, dneg, dzero. replace (k * 2 ^ a + - 0)%Z with (k * 2 ^ a * 1)%Z by ring.
  rewrite rnd_sc by lia. rewrite (sc_fits k a b) by lia. reflexivity.
Qed.
Lemma dsc_add0 k a b : (0 <= k < 2 ^ b)%Z -> (0 <= a)%Z -> (0 <= b <= 53)%Z -> (a + b <= 2098)%Z -> dadd dzero (dsc k a) = dsc k a.
Proof.
  intros H1 H2 H3 H4. assert (2 ^ b <= 2 ^ 53)%Z by (apply Z.pow_le_mono_r; lia).
  unfold dadd, dsc, dzero. replace (0 + k * 2 ^ a)%Z with (k * 2 ^ a * 1)%Z by ring.
  rewrite rnd_sc by lia. rewrite (sc_fits k a b) by lia. reflexivity.
Qed.
Lemma dsc_add k k' a b : (0 <= k + k' < 2 ^ b)%Z -> (0 <= a)%Z -> (0 <= b <= 53)%Z -> (a + b <= 2098)%Z -> dadd (dsc k a) (dsc k' a) = dsc (k + k') a.
Proof.
  intros H1 H2 H3 H4. assert (2 ^ b <= 2 ^ 53)%Z by (apply Z.pow_le_mono_r; lia).
  unfold dadd, dsc. replace (k * 2 ^ a + k' * 2 ^ a)%Z with ((k + k') * 2 ^ a * 1)%Z by ring.
  rewrite rnd_sc by lia. rewrite (sc_fits (k + k') a b) by lia. reflexivity.
Qed.
Lemma dsc_add_over k k' a b : (2 ^ b <= k + k' < 2 ^ 53)%Z -> (0 <= a)%Z -> (0 <= b)%Z -> (2098 <= a + b)%Z -> dadd (dsc k a) (dsc k' a) = PInf.
Proof.
  intros H1 H2 H3 H4. assert (0 <= 2 ^ b)%Z by (apply Z.pow_nonneg; lia).
  unfold dadd, dsc. replace (k * 2 ^ a + k' * 2 ^ a)%Z with ((k + k') * 2 ^ a * 1)%Z by ring.
  rewrite rnd_sc by lia. rewrite (sc_over (k + k') a b) by lia. reflexivity.
Qed.
Lemma dsc_mul k k' a a' c b : (0 <= k * k' < 2 ^ b)%Z -> (a + a' = c + 1074)%Z -> (0 <= a)%Z -> (0 <= a')%Z -> (0 <= c)%Z -> (0 <= b <= 53)%Z -> (c + b <= 2098)%Z ->
  dmul (dsc k a) (dsc k' a') = dsc (k * k') c.
Proof.
  intros H1 E Ha Ha' Hc H3 H4. assert (2 ^ b <= 2 ^ 53)%Z by (apply Z.pow_le_mono_r; lia).
  unfold dmul, dsc. replace (k * 2 ^ a * (k' * 2 ^ a'))%Z with (k * k' * 2 ^ c * one_z)%Z.
  - rewrite rnd_sc; [|lia|lia|apply one_z_pos]. rewrite (sc_fits (k * k') c b) by lia. reflexivity.
  - unfold one_z. replace (k * 2 ^ a * (k' * 2 ^ a'))%Z with (k * k' * (2 ^ a * 2 ^ a'))%Z by ring.
    rewrite <- Z.mul_assoc, <- !Z.pow_add_r by lia. rewrite E. reflexivity.
Qed.
Lemma dsc_sqrt s a c b : (0 <= s < 2 ^ b)%Z -> (2 * c = a + 1074)%Z -> (0 <= a)%Z -> (0 <= c)%Z -> (0 <= b <= 53)%Z -> (c + b <= 2098)%Z ->
  dsqrt (dsc (s * s) a) = dsc s c.
Proof.
  intros H1 E Ha Hc H3 H4. assert (2 ^ b <= 2 ^ 53)%Z by (apply Z.pow_le_mono_r; lia).
  assert (N : (0 <= s * s * 2 ^ a)%Z) by (apply sc_nonneg; nia).
  unfold dsqrt, dsc. destruct (Z.ltb_spec (s * s * 2 ^ a) 0) as [X|_]; [lia|].
  assert (E2 : (s * s * 2 ^ a * one_z * 2 ^ 120 = (s * 2 ^ c * 2 ^ 60) * (s * 2 ^ c * 2 ^ 60))%Z).
  { unfold one_z. replace (s * s * 2 ^ a * 2 ^ 1074 * 2 ^ 120)%Z with (s * s * (2 ^ a * 2 ^ 1074 * 2 ^ 120))%Z by ring.
    replace (s * 2 ^ c * 2 ^ 60 * (s * 2 ^ c * 2 ^ 60))%Z with (s * s * (2 ^ c * 2 ^ 60 * 2 ^ c * 2 ^ 60))%Z by ring.
    rewrite <- !Z.pow_add_r by lia. do 2 f_equal. lia. }
  cbv zeta. rewrite E2. rewrite Z.sqrt_square by (apply Z.mul_nonneg_nonneg; [apply sc_nonneg; lia|lia]).
  rewrite Z.eqb_refl, Z.add_0_r. replace (2 * (s * 2 ^ c * 2 ^ 60))%Z with (s * 2 ^ c * 2 ^ 61)%Z by (change (2 ^ 61)%Z with (2 * 2 ^ 60)%Z; ring).
  rewrite rnd_sc by lia. rewrite (sc_fits s c b) by lia. reflexivity.
Qed.
Lemma dsc_abs k a : (0 <= k)%Z -> dabs (dsc k a) = dsc k a.
Proof. intros H. unfold dabs, dsc. rewrite Z.abs_eq; [reflexivity|]. apply sc_nonneg; exact H. Qed.
Lemma dsc_max0 k a : (0 <= k)%Z -> dmax (dsc k a) dzero = dsc k a.
Proof. intros H. unfold dmax, dlt, dsc, dzero. destruct (Z.ltb_spec (k * 2 ^ a) 0) as [X|_]; [pose proof (sc_nonneg k a H); lia|reflexivity]. Qed.
Lemma dsc_not0 k a : (0 < k)%Z -> (0 <= a)%Z -> dle (dsc k a) dzero = false.
Proof.
  intros H Ha. assert (P : (0 < k * 2 ^ a)%Z) by (apply Z.mul_pos_pos; [lia|apply Z.pow_pos_nonneg; lia]).
  unfold dle, dlt, deq, dsc, dzero. destruct (Z.ltb_spec (k * 2 ^ a) 0), (Z.eqb_spec (k * 2 ^ a) 0); try lia; reflexivity.
Qed.
Lemma dsc_lt_inf k a : dlt (dsc k a) PInf = true.
Proof. reflexivity. Qed.

(** Literal forms and a tactic that evaluates expressions over [dint] literals. *)
Definition small (k : Z) : bool := Z.abs k <? 2 ^ 53.
Lemma dadd_lit a b c : a + b = c -> small c = true -> dadd (dint a) (dint b) = dint c.
Proof. intros <- H. apply dadd_int. apply Z.ltb_lt in H. exact H. Qed.
Lemma dsub_lit a b c : a - b = c -> small c = true -> dsub (dint a) (dint b) = dint c.
Proof. intros <- H. apply dsub_int. apply Z.ltb_lt in H. exact H. Qed.
Lemma dmul_lit a b c : a * b = c -> small c = true -> dmul (dint a) (dint b) = dint c.
Proof. intros <- H. apply dmul_int. apply Z.ltb_lt in H. exact H. Qed.
Lemma dabs_lit a c : Z.abs a = c -> dabs (dint a) = dint c.
Proof. intros <-. apply dabs_int. Qed.
Lemma dneg_lit a c : - a = c -> dneg (dint a) = dint c.
Proof. intros <-. apply dneg_int. Qed.
Lemma dmax_lit a b c : Z.max a b = c -> dmax (dint a) (dint b) = dint c.
Proof. intros <-. apply dmax_int. Qed.
Lemma dmin_lit a b c : Z.min a b = c -> dmin (dint a) (dint b) = dint c.
Proof. intros <-. apply dmin_int. Qed.
Lemma dsqrt_lit s n : s * s = n -> (0 <=? s) && (s <? 2 ^ 53) = true -> dsqrt (dint n) = dint s.
Proof. intros <- H. apply andb_prop in H. destruct H as [H1 H2]. apply Z.leb_le in H1. apply Z.ltb_lt in H2. apply dsqrt_int. lia. Qed.
Lemma d_of_Z_lit k : small k = true -> d_of_Z k = dint k.
Proof. intros H. apply Z.ltb_lt in H. apply d_of_Z_int. exact H. Qed.
Lemma dlt_lit a b r : (a <? b) = r -> dlt (dint a) (dint b) = r.
Proof. intros <-. apply dlt_int. Qed.
Lemma deq_lit a b r : (a =? b) = r -> deq (dint a) (dint b) = r.
Proof. intros <-. apply deq_int. Qed.
Lemma dle_lit a b r : (a <=? b) = r -> dle (dint a) (dint b) = r.
Proof. intros <-. apply dle_int. Qed.
Lemma isnan_int a : isnan (dint a) = false.
Proof. reflexivity. Qed.
Lemma isfinite_int a : isfinite (dint a) = true.
Proof. reflexivity. Qed.

Ltac dint_step :=
  match goal with
  | |- context [dadd (dint ?a) (dint ?b)] => let c := eval vm_compute in (a + b) in rewrite (dadd_lit a b c eq_refl eq_refl)
  | |- context [dsub (dint ?a) (dint ?b)] => let c := eval vm_compute in (a - b) in rewrite (dsub_lit a b c eq_refl eq_refl)
  | |- context [dmul (dint ?a) (dint ?b)] => let c := eval vm_compute in (a * b) in rewrite (dmul_lit a b c eq_refl eq_refl)
  | |- context [dabs (dint ?a)] => let c := eval vm_compute in (Z.abs a) in rewrite (dabs_lit a c eq_refl)
  | |- context [dneg (dint ?a)] => let c := eval vm_compute in (- a) in rewrite (dneg_lit a c eq_refl)
  | |- context [dmax (dint ?a) (dint ?b)] => let c := eval vm_compute in (Z.max a b) in rewrite (dmax_lit a b c eq_refl)
  | |- context [dmin (dint ?a) (dint ?b)] => let c := eval vm_compute in (Z.min a b) in rewrite (dmin_lit a b c eq_refl)
  | |- context [dsqrt (dint ?n)] => let s := eval vm_compute in (Z.sqrt n) in rewrite (dsqrt_lit s n eq_refl eq_refl)
  | |- context [d_of_Z ?k] => rewrite (d_of_Z_lit k eq_refl)
  | |- context [dlt (dint ?a) (dint ?b)] => let r := eval vm_compute in (a <? b) in rewrite (dlt_lit a b r eq_refl)
  | |- context [deq (dint ?a) (dint ?b)] => let r := eval vm_compute in (a =? b) in rewrite (deq_lit a b r eq_refl)
  | |- context [dle (dint ?a) (dint ?b)] => let r := eval vm_compute in (a <=? b) in rewrite (dle_lit a b r eq_refl)
  | |- context [dgt (dint ?a) (dint ?b)] => change (dgt (dint a) (dint b)) with (dlt (dint b) (dint a))
  | |- context [dge (dint ?a) (dint ?b)] => change (dge (dint a) (dint b)) with (dle (dint b) (dint a))
  | |- context [dneq (dint ?a) (dint ?b)] => change (dneq (dint a) (dint b)) with (negb (deq (dint a) (dint b)))
  | |- context [isnan (dint ?a)] => rewrite (isnan_int a)
  | |- context [isfinite (dint ?a)] => rewrite (isfinite_int a)
  | |- context [dzero] => rewrite dzero_int
  | |- context [done] => rewrite done_int
  end.
