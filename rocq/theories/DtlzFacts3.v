(** DTLZ: definedness, DTLZ5 and DTLZ6, populations, refuted statements. *)
From Coq Require Import List ZArith Lia Reals Lra Bool.
Import ListNotations.
From Verif Require Import Outcome BaseFacts TestArith TestProblems SpecTest SpecPareto TestFacts TestFacts2 TestFacts4 TestFacts5 ZdtFacts Dtlz DtlzFacts DtlzFacts2.

Lemma dtlz_ctor_spec id dim fdim : (0 <= id)%Z ->
  (dtlz_ctor id dim fdim = Ok tt <-> (1 <= id <= 7 /\ 2 <= fdim < dim /\ 3 * dim <= 2 ^ 64 - 1)%Z) /\ (dtlz_ctor id dim fdim <> Ok tt -> dtlz_ctor id dim fdim = Throw InvalidArgument).
Proof.
  intros H. unfold dtlz_ctor. assert (D : ((2 ^ 64 - 1) / 3 = 6148914691236517205)%Z) by reflexivity. rewrite D.
  destruct (Z.eqb_spec id 0); cbn [orb]; [split; [split; intros; [discriminate | lia] | reflexivity] |].
  destruct (Z.ltb_spec 7 id); [split; [split; intros; [discriminate | lia] | reflexivity] |].
  destruct (Z.ltb_spec fdim 2); [split; [split; intros; [discriminate | lia] | reflexivity] |].
  destruct (Z.ltb_spec 6148914691236517205 fdim); [split; [split; intros; [discriminate | lia] | reflexivity] |].
  destruct (Z.ltb_spec 6148914691236517205 dim); [split; [split; intros; [discriminate | lia] | reflexivity] |].
  destruct (Z.leb_spec dim fdim); split; [split; intros; [discriminate | lia] | reflexivity | split; intros; [lia | reflexivity] | now intros Q; elim Q].
Qed.
Lemma mmap_any {B C} (f : B -> outcome C) (P : B -> Prop) : (forall b, P b -> exists c, f b = Ok c) -> forall l, (forall b, In b l -> P b) -> exists cs, mmap f l = Ok cs /\ length cs = length l.
Proof.
  intros H. induction l as [| b l IH]; intros Q; cbn [mmap]; [exists []; auto |]. destruct (H b (Q b (or_introl eq_refl))) as [c ->]. cbn [bind]. destruct IH as [cs [-> L]]; [intros; apply Q; now right |]. cbn [bind]. exists (c :: cs). cbn. auto.
Qed.
Lemma shape_ok {A} (o : arith A) M b C S last th : (2 <= M)%nat -> (M - 1 <= length th)%nat -> exists f, shape o M b C S last th = Ok f /\ length f = M.
Proof.
  intros H L. unfold shape. cbv zeta.
  assert (P : forall k, (k <= M - 1)%nat -> exists s, mfold (fun a j => bind (vget th j) (fun v => Ok (ar_mul o a (C v)))) b (seq 0 k) = Ok s).
  { intros k K. apply (mfold_ok _ (fun j => (j < length th)%nat)); [| intros j J; apply in_seq in J; lia]. intros s j J. destruct (vget_in th j J) as [v ->]. cbn [bind]. eauto. }
  destruct (P (M - 1)%nat (le_n _)) as [f0 ->]. cbn [bind].
  match goal with |- context [mmap ?f (seq 1 (M - 2))] => destruct (mmap_any f (fun i => (1 <= i < M - 1)%nat)) with (l := seq 1 (M - 2)) as [mid [-> LM]] end.
  - intros i I. destruct (P (M - (i + 1))%nat) as [a ->]; [lia |]. cbn [bind]. destruct (vget_in th (M - (i + 1))) as [v ->]; [lia |]. cbn [bind]. eauto.
  - intros i I. apply in_seq in I. lia.
  - cbn [bind]. destruct (vget_in th 0) as [v ->]; [lia |]. cbn [bind]. eexists. split; [reflexivity |]. cbn [length]. rewrite app_length, LM, seq_length. cbn. lia.
Qed.
Lemma dtlz_defined {A} (o : arith A) id dim fdim alpha x : (0 <= id)%Z -> dtlz_ctor id (Z.of_nat dim) (Z.of_nat fdim) = Ok tt ->
  (length x = dim -> (exists f, dtlz_fitness o id fdim alpha x = Ok f /\ length f = fdim) /\ exists d, dtlz_p_distance o id dim fdim x = Ok d) /\
  (length x <> dim -> dtlz_p_distance o id dim fdim x = Throw InvalidArgument).
Proof.
  intros I0 C. apply dtlz_ctor_spec in C; [| exact I0]. destruct C as [I [F _]]. split.
  - intros L. split.
    + unfold dtlz_fitness, f1_objfun, f23_objfun, f4_objfun, f56_objfun, f7_objfun. rewrite x_M_ok by lia. cbn [bind]. cbv zeta.
      destruct (Z.eqb_spec id 1); [apply shape_ok; lia |]. destruct (Z.eqb_spec id 2), (Z.eqb_spec id 3); cbn [orb]; try (apply shape_ok; lia).
      destruct (Z.eqb_spec id 4); [apply shape_ok; lia |].
      destruct (Z.eqb_spec id 7).
      * destruct (Z.eqb_spec id 5); [lia |]. destruct (Z.eqb_spec id 6); [lia |]. cbn [orb]. rewrite mmap_vget by lia. cbn [bind]. eexists. split; [reflexivity |]. rewrite app_length, firstn_length. cbn. lia.
      * assert (Q : ((id =? 5) || (id =? 6))%Z%bool = true) by (destruct (Z.eqb_spec id 5), (Z.eqb_spec id 6); try reflexivity; lia). rewrite Q. unfold f56_theta.
        destruct (vget_in x 0) as [v ->]; [lia |]. cbn [bind]. cbv zeta. match goal with |- context [mmap ?f (seq 1 (fdim - 1))] => destruct (mmap_any f (fun i => (i < length x)%nat)) with (l := seq 1 (fdim - 1)) as [r [-> LR]] end.
        -- intros i Hi. destruct (vget_in x i Hi) as [w ->]. cbn [bind]. eauto.
        -- intros i Hi. apply in_seq in Hi. lia.
        -- cbn [bind]. apply shape_ok; [lia |]. cbn [length]. rewrite LR, seq_length. lia.
    + unfold dtlz_p_distance. rewrite L, Nat.eqb_refl. cbn [negb]. rewrite x_M_ok by lia. cbn [bind]. eauto.
  - intros L. unfold dtlz_p_distance. destruct (Nat.eqb_spec (length x) dim); [contradiction | reflexivity].
Qed.

Local Open Scope R_scope.
Lemma adm_dtlz dim x : admissible (dtlz_bounds Rar dim) 0 x <-> box dim x.
Proof. rewrite adm0. apply (box01 0 dim x eq_refl). Qed.

(** sin is concave *)
Lemma sin_star t a : 0 <= t <= 1 -> 0 <= a <= PI / 2 -> t * sin a <= sin (t * a).
Proof.
  intros T A. destruct (Req_dec t 0) as [-> | T0]; [rewrite !Rmult_0_l, sin_0; lra |]. destruct (Req_dec t 1) as [-> | T1]; [rewrite !Rmult_1_l; lra |]. destruct (Req_dec a 0) as [-> | A0]; [rewrite Rmult_0_r, sin_0; lra |].
  assert (L : 0 < t * a < a) by nra.
  destruct (MVT_cor2 sin cos 0 (t * a)) as [u [U1 U2]]; [lra | intros; apply derivable_pt_lim_sin |]. destruct (MVT_cor2 sin cos (t * a) a) as [v [V1 V2]]; [lra | intros; apply derivable_pt_lim_sin |].
  rewrite sin_0 in U1. assert (C : cos v <= cos u) by (apply cos_decr_1; lra). assert (S1 : sin (t * a) = t * (a * cos u)) by lra. assert (S2 : sin a = t * (a * cos u) + (1 - t) * (a * cos v)) by lra.
  rewrite S1, S2. assert (a * cos v <= a * cos u) by (apply Rmult_le_compat_l; lra). assert (0 <= t * (1 - t)) by nra. nra.
Qed.
(** the angle of DTLZ5 and DTLZ6 stays away from both ends *)
Lemma theta_bounds g v : 0 <= g -> 0 <= v <= 1 -> let t := 1 / (2 * (1 + g)) + g * v / (1 + g) in
  sin (PI / 2 * (1 / (2 * (1 + g)))) <= cos (t * (PI / 2)) /\ sin (PI / 2 * (1 / (2 * (1 + g)))) <= sin (t * (PI / 2)).
Proof.
  intros G V t. assert (P := PI_RGT_0). assert (I : 0 < / (1 + g) <= 1). { split; [apply Rinv_0_lt_compat; lra |]. rewrite <- Rinv_1 at 2. apply Rinv_le_contravar; lra. }
  assert (E : g = (1 - / (1 + g)) * (1 + g)) by (field; lra). set (i := / (1 + g)) in *. assert (T : t = i / 2 + (1 - i) * v). { unfold t. rewrite E at 2. replace (1 / (2 * (1 + g))) with (i / 2) by (subst i; field; lra). field. lra. }
  replace (1 / (2 * (1 + g))) with (i / 2) by (subst i; field; lra). assert (TB : i / 2 <= t <= 1 - i / 2) by (rewrite T; nra). split.
  - rewrite <- (cos_shift (PI / 2 * (i / 2))). apply cos_decr_1; nra.
  - apply sin_incr_1; nra.
Qed.
Lemma sin_low g : 0 <= g -> sin (PI / 4) <= (1 + g) * sin (PI / 2 * (1 / (2 * (1 + g)))).
Proof.
  intros G. assert (P := PI_RGT_0). assert (I : 0 < / (1 + g) <= 1). { split; [apply Rinv_0_lt_compat; lra |]. rewrite <- Rinv_1 at 2. apply Rinv_le_contravar; lra. }
  assert (S := sin_star (/ (1 + g)) (PI / 4) ltac:(lra) ltac:(lra)). replace (PI / 2 * (1 / (2 * (1 + g)))) with (/ (1 + g) * (PI / 4)) by (field; lra).
  apply Rmult_le_compat_l with (r := 1 + g) in S; [| lra]. rewrite <- Rmult_assoc, Rinv_r in S by lra. lra.
Qed.
Section Curve.
Context (id : Z) (dim M : nat) (alpha : Z).
Context (I : (5 <= id <= 6)%Z) (M2 : (2 <= M <= 3)%nat) (MD : (M < dim)%nat) (A0 : (0 <= alpha)%Z).
Lemma ang56 x j : (j < M - 1)%nat -> ang id M alpha x (S j) = 1 / (2 * (1 + dd id M x)) + dd id M x * nth (S j) x 0 / (1 + dd id M x).
Proof using All.
  intros J. unfold ang. destruct (Z.eqb_spec id 4); [lia |]. destruct (Z.leb_spec 5 id); [| lia]. unfold theta. cbn [nth]. rewrite nth_map_seq1 by lia. reflexivity.
Qed.
Lemma ang0 x : ang id M alpha x 0 = nth 0 x 0.
Proof using All. unfold ang. destruct (Z.eqb_spec id 4); [lia |]. destruct (Z.leb_spec 5 id); [| lia]. reflexivity. Qed.
Lemma best_le56 x : box dim x -> Forall2 Rle (Fx id M alpha (best id dim M x)) (Fx id M alpha x).
Proof using All.
  intros Bx. assert (I7 : (1 <= id <= 7)%Z) by lia. assert (M2' : (2 <= M)%nat) by lia.
  pose proof (dd_nonneg id dim M alpha I7 M2' MD A0 x Bx) as G. assert (Z := best_dd id dim M alpha I7 M2' MD A0 x (proj1 Bx)). assert (S := fun j => best_same id dim M alpha I7 M2' MD A0 x j (proj1 Bx)).
  unfold Fx. destruct (Z.eqb_spec id 1); [lia |]. destruct (Z.eqb_spec id 7); [lia |]. unfold F2. rewrite Z. set (g := dd id M x) in *.
  assert (B0 : 0 <= nth 0 x 0 <= 1) by (apply Bx; lia). destruct (angle_signs _ B0) as [C0 S0].
  assert (AB : ang id M alpha (best id dim M x) 0 = nth 0 x 0) by (rewrite ang0; apply S; lia).
  destruct (Nat.eq_dec M 2) as [E | E].
  - replace (M - 1)%nat with 1%nat by lia. unfold vals. cbn [pr down]. rewrite AB, ang0. constructor; [nra | constructor; [nra | constructor]].
  - assert (E3 : M = 3%nat) by lia. assert (AB1 : ang id M alpha (best id dim M x) 1 = / 2). { rewrite ang56 by lia. rewrite Z. field. }
    assert (AX1 := ang56 x 0 ltac:(lia)). fold g in AX1. assert (V : 0 <= nth 1 x 0 <= 1) by (apply Bx; lia). destruct (theta_bounds g _ G V) as [TC TS]. rewrite <- AX1 in TC, TS. assert (SL := sin_low g G).
    replace (M - 1)%nat with 2%nat by lia. unfold vals. cbn [pr down]. rewrite AB, AB1, ang0. replace (/ 2 * (PI / 2)) with (PI / 4) by field. rewrite cos_PI4, sin_PI4 in *.
    set (k := 1 / sqrt 2) in *. set (c := cos (ang id M alpha x 1 * (PI / 2))) in *. set (s := sin (ang id M alpha x 1 * (PI / 2))) in *. set (l := sin (PI / 2 * (1 / (2 * (1 + g))))) in *.
    assert (KC : k <= (1 + g) * c) by (apply Rle_trans with ((1 + g) * l); [exact SL | apply Rmult_le_compat_l; lra]). assert (KS : k <= (1 + g) * s) by (apply Rle_trans with ((1 + g) * l); [exact SL | apply Rmult_le_compat_l; lra]).
    set (c0 := cos (nth 0 x 0 * (PI / 2))) in *. set (s0 := sin (nth 0 x 0 * (PI / 2))) in *. constructor; [| constructor; [| constructor; [| constructor]]].
    + replace ((1 + 0) * (1 * c0 * k)) with (c0 * k) by ring. replace ((1 + g) * (1 * c0 * c)) with (c0 * ((1 + g) * c)) by ring. now apply Rmult_le_compat_l.
    + replace ((1 + 0) * (1 * c0) * k) with (c0 * k) by ring. replace ((1 + g) * (1 * c0) * s) with (c0 * ((1 + g) * s)) by ring. now apply Rmult_le_compat_l.
    + nra.
Qed.
Lemma necessary56 x : pareto_optimal (box dim) (dtlz_fitness Rar id M alpha) x -> dd id M x = 0.
Proof using All.
  intros O. assert (Bx := proj1 O). assert (I7 : (1 <= id <= 7)%Z) by lia. assert (M2' : (2 <= M)%nat) by lia.
  apply (measure_necessary (box dim) _ (Fx id M alpha) (dd id M) total_squares (fun t => (1 + t) ^ 2) (W2 id dim M alpha I7 M2' MD A0)) with (x := x) in O; [exact O | |].
  - intros y By. split; [now apply (fit_R id dim M alpha) |]. split; [apply (nonneg16 id dim M alpha); auto; lia |]. split; [apply (sum2 id dim M alpha); auto; lia | now apply (dd_nonneg id dim M alpha)].
  - exists (best id dim M x). split; [now apply (best_box id dim M alpha) | split; [now apply best_le56 | apply (best_dd id dim M alpha); auto; exact (proj1 Bx)]].
Qed.
End Curve.

(** DTLZ5 and DTLZ6 with four objectives: an optimal point away from the curve *)
Definition low b := sin (PI / 2 * (1 / (2 * b))).
Lemma curve_low B b : 1 <= b <= B -> B * low B ^ 2 <= b * low b ^ 2 /\ (b * low b ^ 2 <= B * low B ^ 2 -> b = B).
Proof.
  intros HB. assert (P := PI_RGT_0). assert (E : forall c, 1 <= c -> c * low c ^ 2 = PI / 4 * ((1 - cos (PI / (2 * c))) / (PI / (2 * c)))).
  { intros c Hc. assert (S : low c ^ 2 = (1 - cos (PI / (2 * c))) / 2). { unfold low. replace (PI / (2 * c)) with (2 * (PI / 2 * (1 / (2 * c)))) by (field; lra). rewrite cos_2a_sin. field. } rewrite S. field. lra. }
  rewrite !E by lra. destruct (Req_dec b B) as [-> | N]; [split; [lra | auto] |]. set (u := PI / (2 * B)). set (w := PI / (2 * b)).
  assert (U0 : 0 < u) by (subst u; apply Rdiv_lt_0_compat; lra). assert (UB : u * B = PI / 2) by (subst u; field; lra). assert (WB : w * b = PI / 2) by (subst w; field; lra).
  assert (W0 : 0 < w) by (subst w; apply Rdiv_lt_0_compat; lra). assert (UW : u < w). { apply Rmult_lt_reg_r with b; [lra |]. rewrite WB, <- UB. apply Rmult_lt_compat_l; lra. } assert (W2 : w <= PI / 2) by nra.
  assert (DC : forall t, derivable_pt_lim (fun t => - cos t) t (sin t)). { intros t. replace (sin t) with (- - sin t) by ring. apply (derivable_pt_lim_opp cos). apply derivable_pt_lim_cos. }
  destruct (MVT_cor2 (fun t => - cos t) sin 0 u) as [e [E1 E2]]; [lra | intros; apply DC |]. destruct (MVT_cor2 (fun t => - cos t) sin u w) as [k [K1 K2]]; [lra | intros; apply DC |].
  cbv beta in E1, K1. rewrite cos_0 in E1. assert (S : sin e < sin k) by (apply sin_increasing_1; lra).
  assert (L : (1 - cos u) / u < (1 - cos w) / w).
  { replace ((1 - cos u) / u) with (sin e) by (replace (1 - cos u) with (sin e * u) by lra; field; lra). apply Rmult_lt_reg_r with w; [exact W0 |]. unfold Rdiv. rewrite Rmult_assoc, Rinv_l, Rmult_1_r by lra. replace (1 - cos w) with (sin e * u + sin k * (w - u)) by lra. nra. }
  assert (K : PI / 4 * ((1 - cos u) / u) < PI / 4 * ((1 - cos w) / w)) by (apply Rmult_lt_compat_l; lra). split; [lra | intros; lra].
Qed.
Lemma low_nonneg b : 1 <= b -> 0 < low b.
Proof.
  intros H. assert (P := PI_RGT_0). assert (Q : 0 < 1 / (2 * b) <= / 2). { split; [apply Rdiv_lt_0_compat; lra |]. unfold Rdiv. rewrite Rmult_1_l. apply Rinv_le_contravar; lra. }
  unfold low. apply sin_gt_0; nra.
Qed.
Lemma F56_4 id x : (5 <= id <= 6)%Z -> Fx id 4 100 x = let b := 1 + dd id 4 x in let a := ang id 4 100 x in
  [b * (cos (a 0%nat * (PI / 2)) * cos (a 1%nat * (PI / 2)) * cos (a 2%nat * (PI / 2))); b * (cos (a 0%nat * (PI / 2)) * cos (a 1%nat * (PI / 2))) * sin (a 2%nat * (PI / 2));
   b * cos (a 0%nat * (PI / 2)) * sin (a 1%nat * (PI / 2)); b * sin (a 0%nat * (PI / 2))].
Proof. intros I. cbv zeta. assert (E : id = 5%Z \/ id = 6%Z) by lia. destruct E as [-> | ->]; unfold Fx, F2, vals; cbn [Z.eqb Pos.eqb Nat.sub pr down]; repeat (f_equal; [ring |]); reflexivity || (f_equal; ring). Qed.
Lemma ang56_0 id x : (5 <= id <= 6)%Z -> ang id 4 100 x 0 = nth 0 x 0.
Proof. intros I. assert (E : id = 5%Z \/ id = 6%Z) by lia. now destruct E as [-> | ->]. Qed.
Lemma ang56_1 id x : (5 <= id <= 6)%Z -> ang id 4 100 x 1 = 1 / (2 * (1 + dd id 4 x)) + dd id 4 x * nth 1 x 0 / (1 + dd id 4 x).
Proof. intros I. assert (E : id = 5%Z \/ id = 6%Z) by lia. now destruct E as [-> | ->]. Qed.
Lemma ang56_2 id x : (5 <= id <= 6)%Z -> ang id 4 100 x 2 = 1 / (2 * (1 + dd id 4 x)) + dd id 4 x * nth 2 x 0 / (1 + dd id 4 x).
Proof. intros I. assert (E : id = 5%Z \/ id = 6%Z) by lia. now destruct E as [-> | ->]. Qed.
Lemma off_curve id m : (5 <= id <= 6)%Z -> let x := [0; 1; 1; 1; 1] in 0 < m -> dd id 4 x = m -> (forall y, box 5 y -> dd id 4 y <= m) ->
  dtlz_p_distance Rar id 5 4 x = Ok m /\ pareto_optimal (box 5) (dtlz_fitness Rar id 4 100) x.
Proof.
  intros ID x M0 DX MX. assert (K1 : (1 <= id <= 7)%Z) by lia. assert (K2 : (2 <= 4)%nat) by lia. assert (K3 : (4 < 5)%nat) by lia. assert (K4 : (0 <= 100)%Z) by lia.
  assert (P := PI_RGT_0).
  assert (BX : box 5 x). { split; [reflexivity |]. intros i I. destruct i as [| [| [| [| [| i]]]]]; cbn; try lra. lia. }
  split; [rewrite (dist_R id 5 4 100 K1 K2 K3 K4) by reflexivity; f_equal; exact DX |].
  split; [exact BX |]. intros y fx fy By Ex Ey [LE N]. assert (fy = Fx id 4 100 y) by (rewrite (proj1 (fit_R id 5 4 100 K1 K2 K3 K4 y By)) in Ey; congruence). assert (fx = Fx id 4 100 x) by (rewrite (proj1 (fit_R id 5 4 100 K1 K2 K3 K4 _ BX)) in Ex; congruence). subst fx fy. clear Ex Ey.
  set (B := 1 + m) in *. set (l0 := low B) in *. set (c0 := cos (PI / 2 * (1 / (2 * B)))) in *.
  assert (FX : Fx id 4 100 x = [B * (l0 * l0); B * l0 * c0; B * c0; 0]).
  { rewrite F56_4 by exact ID. cbv zeta. rewrite ang56_0, ang56_1, ang56_2, DX by exact ID. subst x. cbn [nth]. rewrite !Rmult_0_l, cos_0, sin_0. fold B. replace ((1 / (2 * B) + m * 1 / B) * (PI / 2)) with (PI / 2 - PI / 2 * (1 / (2 * B))) by (subst B; field; lra). rewrite cos_shift, sin_shift. fold c0. change (sin (PI / 2 * (1 / (2 * B)))) with l0. repeat (f_equal; [ring |]). reflexivity || (f_equal; ring). }
  rewrite FX in *. apply N. clear N FX. rewrite F56_4 in LE |- * by exact ID. cbv zeta in LE |- *.
  pose proof (dd_nonneg id 5 4 100 K1 K2 K3 K4 y By) as G. assert (G2 := MX y By). set (g := dd id 4 y) in *.
  assert (B0 : 0 <= nth 0 y 0 <= 1) by (apply By; lia). assert (B1 : 0 <= nth 1 y 0 <= 1) by (apply By; lia). assert (B2 : 0 <= nth 2 y 0 <= 1) by (apply By; lia).
  rewrite ang56_0, ang56_1, ang56_2 in LE |- * by exact ID. fold g in LE |- *. destruct (theta_bounds g _ G B1) as [C1 _]. destruct (theta_bounds g _ G B2) as [C2 _].
  set (t1 := (1 / (2 * (1 + g)) + g * nth 1 y 0 / (1 + g)) * (PI / 2)) in *. set (t2 := (1 / (2 * (1 + g)) + g * nth 2 y 0 / (1 + g)) * (PI / 2)) in *.
  inversion LE as [| ? ? ? ? L0 LE1]; subst. inversion LE1 as [| ? ? ? ? L1 LE2]; subst. inversion LE2 as [| ? ? ? ? L2 LE3]; subst. inversion LE3 as [| ? ? ? ? L3 _]; subst. clear LE LE1 LE2 LE3.
  destruct (angle_signs _ B0) as [_ S0]. assert (S00 : sin (nth 0 y 0 * (PI / 2)) = 0) by nra.
  assert (Z0 : nth 0 y 0 = 0). { destruct (Req_dec (nth 0 y 0) 0) as [Q | Q]; [exact Q | exfalso]. assert (0 < sin (nth 0 y 0 * (PI / 2))); [apply sin_gt_0; nra | lra]. }
  rewrite Z0 in *. rewrite Rmult_0_l in *. rewrite cos_0, sin_0 in *. destruct (curve_low B (1 + g)) as [CL CE]; [subst B; lra |]. assert (l0p := low_nonneg B ltac:(subst B; lra)). fold l0 in l0p. assert (lp := low_nonneg (1 + g) ltac:(lra)). change (sin (PI / 2 * (1 / (2 * (1 + g))))) with (low (1 + g)) in *. set (l := low (1 + g)) in *. fold l0 in CL, CE.
  assert (LL : l ^ 2 <= cos t1 * cos t2). { replace (l ^ 2) with (l * l) by ring. apply Rmult_le_compat; lra. }
  assert (BE : 1 + g = B). { apply CE. apply Rle_trans with ((1 + g) * (cos t1 * cos t2)); [apply Rmult_le_compat_l; [lra | exact LL] | lra]. }
  assert (LV : l = l0) by (subst l; now rewrite BE). rewrite LV in *. assert (CC : cos t1 * cos t2 <= l0 * l0). { apply Rmult_le_reg_l with B; [subst B; lra |]. rewrite BE in L0. lra. }
  assert (E1 : cos t1 = l0) by nra. assert (E2 : cos t2 = l0) by nra.
  assert (CB : 0 <= c0). { subst c0. assert (Q : 0 < 1 / (2 * B) <= / 2). { split; [apply Rdiv_lt_0_compat; subst B; lra |]. unfold Rdiv. rewrite Rmult_1_l. apply Rinv_le_contravar; subst B; lra. } apply cos_ge_0; nra. }
  assert (SG : forall v t, 0 <= v <= 1 -> t = (1 / (2 * (1 + g)) + g * v / (1 + g)) * (PI / 2) -> cos t = l0 -> sin t = c0).
  { intros v t V T E. destruct (theta_bounds g v G V) as [_ Q]. rewrite <- T in Q. change (sin (PI / 2 * (1 / (2 * (1 + g))))) with l in Q. rewrite LV in Q. pose proof (sin2_cos2 t) as SC. pose proof (sin2_cos2 (PI / 2 * (1 / (2 * B)))) as SB. change (sin (PI / 2 * (1 / (2 * B)))) with l0 in SB. fold c0 in SB. unfold Rsqr in SC, SB. rewrite E in SC.
    apply Rsqr_inj; [lra | exact CB | unfold Rsqr; lra]. }
  rewrite (SG _ t1 B1 eq_refl E1), (SG _ t2 B2 eq_refl E2), E1, E2, BE. repeat (f_equal; [ring |]). f_equal. ring.
Qed.
Lemma dd5 a b c d e : dd 5 4 [a; b; c; d; e] = (d - / 2) ^ 2 + (e - / 2) ^ 2.
Proof. unfold dd. cbn [Nat.sub skipn]. unfold g_func. cbn [Z.eqb Pos.eqb orb]. rewrite g245_R. unfold sq. cbn [sumf]. ring. Qed.
Lemma dtlz5_off_curve : let x := [0; 1; 1; 1; 1] in dtlz_p_distance Rar 5 5 4 x = Ok (1 / 2) /\ pareto_optimal (box 5) (dtlz_fitness Rar 5 4 100) x.
Proof.
  cbv zeta. apply off_curve; [lia | lra | rewrite dd5; field |]. intros y [L B].
  destruct y as [| y0 [| y1 [| y2 [| y3 [| y4 [| y5 y]]]]]]; try discriminate L. rewrite dd5. assert (B3 := B 3%nat ltac:(lia)). assert (B4 := B 4%nat ltac:(lia)). cbn [nth] in B3, B4. nra.
Qed.
Lemma rpow_tenth_le v : 0 <= v <= 1 -> rpow v (1 / 10) <= 1.
Proof.
  intros H. destruct (Req_dec v 0) as [-> | N]; [rewrite rpow_tenth_0; lra |]. unfold rpow. destruct (Rlt_dec 0 v); [| lra].
  replace 1 with (Rpower 1 (1 / 10)) at 2 by (unfold Rpower; rewrite ln_1, Rmult_0_r; apply exp_0). apply Rle_Rpower_l; lra.
Qed.
Lemma rpow_tenth_1 : rpow 1 (1 / 10) = 1.
Proof. unfold rpow. destruct (Rlt_dec 0 1); [| lra]. unfold Rpower. rewrite ln_1, Rmult_0_r. apply exp_0. Qed.
Lemma dd6 a b c d e : dd 6 4 [a; b; c; d; e] = rpow d (1 / 10) + rpow e (1 / 10).
Proof. unfold dd. cbn [Nat.sub skipn]. unfold g_func. cbn [Z.eqb Pos.eqb orb]. rewrite g6_R. cbn [sumf]. ring. Qed.
Lemma dtlz6_off_curve : let x := [0; 1; 1; 1; 1] in dtlz_p_distance Rar 6 5 4 x = Ok 2 /\ pareto_optimal (box 5) (dtlz_fitness Rar 6 4 100) x.
Proof.
  cbv zeta. apply off_curve; [lia | lra | rewrite dd6, rpow_tenth_1; ring |]. intros y [L B].
  destruct y as [| y0 [| y1 [| y2 [| y3 [| y4 [| y5 y]]]]]]; try discriminate L. rewrite dd6. assert (B3 := rpow_tenth_le _ (B 3%nat ltac:(lia))). assert (B4 := rpow_tenth_le _ (B 4%nat ltac:(lia))). cbn [nth] in B3, B4. lra.
Qed.

(** DTLZ7 with two objectives *)
Lemma dtlz7_counterexample : exists x y fx fy, dtlz_ctor 7 3 2 = Ok tt /\ box 3 x /\ box 3 y /\ dtlz_p_distance Rar 7 3 2 x = Ok 0 /\
  dtlz_fitness Rar 7 2 100 x = Ok fx /\ dtlz_fitness Rar 7 2 100 y = Ok fy /\ pareto_dominates fy fx.
Proof.
  assert (K1 : (1 <= 7 <= 7)%Z) by lia. assert (K2 : (2 <= 2)%nat) by lia. assert (K3 : (2 < 3)%nat) by lia. assert (K4 : (0 <= 100)%Z) by lia.
  assert (BV : forall v, 0 <= v <= 1 -> box 3 [v; 0; 0]). { intros v V. split; [reflexivity |]. intros i I. destruct i as [| [| [| i]]]; cbn; try lra. lia. }
  assert (DV : forall v, dd 7 2 [v; 0; 0] = 0). { intros v. unfold dd. cbn [Nat.sub skipn]. unfold g_func. cbn [Z.eqb Pos.eqb]. rewrite g7_R. cbn [sumf]. ring. }
  assert (FV : forall v, Fx 7 2 100 [v; 0; 0] = [v; 4 - v * (1 + sin (3 * PI * v))]). { intros v. unfold Fx. cbn [Z.eqb Pos.eqb]. unfold F7. rewrite DV. cbn [Nat.sub firstn app sumf INR]. do 2 f_equal. ring. }
  exists [1 / 3; 0; 0], [1 / 6; 0; 0], [1 / 3; 4 - 1 / 3], [1 / 6; 4 - 1 / 3]. split; [reflexivity |]. split; [apply BV; lra |]. split; [apply BV; lra |].
  split; [rewrite (dist_R 7 3 2 100 K1 K2 K3 K4) by reflexivity; f_equal; apply DV |].
  split; [rewrite (proj1 (fit_R 7 3 2 100 K1 K2 K3 K4 _ (BV (1 / 3) ltac:(lra)))), FV; replace (3 * PI * (1 / 3)) with PI by field; rewrite sin_PI; do 3 f_equal; ring |].
  split; [rewrite (proj1 (fit_R 7 3 2 100 K1 K2 K3 K4 _ (BV (1 / 6) ltac:(lra)))), FV; replace (3 * PI * (1 / 6)) with (PI / 2) by field; rewrite sin_PI2; do 3 f_equal; field |].
  split; [constructor; [lra | constructor; [lra | constructor]] |]. intros Q. injection Q. intros. lra.
Qed.

Lemma dtlz_main id dim M alpha : (0 <= id)%Z -> (0 <= alpha)%Z -> dtlz_ctor id (Z.of_nat dim) (Z.of_nat M) = Ok tt ->
  forall x, admissible (dtlz_bounds Rar dim) 0 x -> exists d, dtlz_p_distance Rar id dim M x = Ok d /\ 0 <= d /\
    (id <> 7%Z -> d = 0 -> pareto_optimal (admissible (dtlz_bounds Rar dim) 0) (dtlz_fitness Rar id M alpha) x) /\
    ((id <= 4)%Z \/ id = 7%Z \/ (M <= 3)%nat -> pareto_optimal (admissible (dtlz_bounds Rar dim) 0) (dtlz_fitness Rar id M alpha) x -> d = 0).
Proof.
  intros I0 A0 C x Bx. apply dtlz_ctor_spec in C; [| exact I0]. destruct C as [I [F _]]. assert (M2 : (2 <= M)%nat) by lia. assert (MD : (M < dim)%nat) by lia.
  assert (PE : pareto_optimal (admissible (dtlz_bounds Rar dim) 0) (dtlz_fitness Rar id M alpha) x <-> pareto_optimal (box dim) (dtlz_fitness Rar id M alpha) x).
  { split; intros [P Q]; (split; [now apply adm_dtlz |]); intros y fx fy By; apply Q; now apply adm_dtlz. }
  apply adm_dtlz in Bx. exists (dd id M x). split; [apply (dist_R id dim M alpha); auto; exact (proj1 Bx) |]. split; [now apply (dd_nonneg id dim M alpha) |]. split.
  - intros N Z. apply PE. apply (sufficient id dim M alpha); auto. lia.
  - intros H O. apply PE in O. destruct (Z.eq_dec id 7) as [E | E]; [subst id; now apply (necessary7 7 dim M alpha) in O |].
    destruct (Z_le_gt_dec id 4); [now apply (necessary id dim M alpha) in O |]. apply (necessary56 id dim M alpha) in O; auto; lia.
Qed.
Lemma dtlz_front id dim M alpha : (0 <= id)%Z -> (0 <= alpha)%Z -> dtlz_ctor id (Z.of_nat dim) (Z.of_nat M) = Ok tt ->
  forall x, admissible (dtlz_bounds Rar dim) 0 x -> exists d f, dtlz_p_distance Rar id dim M x = Ok d /\ dtlz_fitness Rar id M alpha x = Ok f /\
    (id <> 7%Z -> Forall (Rle 0) f) /\ (id = 1%Z -> total f = (1 + d) / 2) /\ ((2 <= id <= 6)%Z -> total_squares f = (1 + d) ^ 2).
Proof.
  intros I0 A0 C x Bx. apply dtlz_ctor_spec in C; [| exact I0]. destruct C as [I [F _]]. assert (M2 : (2 <= M)%nat) by lia. assert (MD : (M < dim)%nat) by lia.
  apply adm_dtlz in Bx. exists (dd id M x), (Fx id M alpha x). split; [apply (dist_R id dim M alpha); auto; exact (proj1 Bx) |]. split; [now apply (fit_R id dim M alpha) |].
  split; [intros; apply (nonneg16 id dim M alpha); auto; lia |]. split.
  - intros E. rewrite (sum1 id dim M alpha) by auto. field.
  - intros E. now apply (sum2 id dim M alpha).
Qed.
Lemma dtlz_pop id dim M alpha : (0 <= id)%Z -> (0 <= alpha)%Z -> dtlz_ctor id (Z.of_nat dim) (Z.of_nat M) = Ok tt -> ((id <= 4)%Z \/ id <> 7%Z /\ (M <= 3)%nat) ->
  forall xs, xs <> [] -> Forall (admissible (dtlz_bounds Rar dim) 0) xs -> exists d, dtlz_p_distance_pop Rar id dim M xs = Ok d /\ 0 <= d /\
    (d = 0 <-> Forall (pareto_optimal (admissible (dtlz_bounds Rar dim) 0) (dtlz_fitness Rar id M alpha)) xs).
Proof.
  intros I0 A0 C I3 xs NE ALL. unfold dtlz_p_distance_pop.
  assert (E : forall xs c, 0 <= c -> Forall (admissible (dtlz_bounds Rar dim) 0) xs -> exists c', mfold (fun c x => bind (dtlz_p_distance Rar id dim M x) (fun d => Ok (c + d))) c xs = Ok c' /\ c <= c' /\ (c' = 0 <-> c = 0 /\ Forall (pareto_optimal (admissible (dtlz_bounds Rar dim) 0) (dtlz_fitness Rar id M alpha)) xs)).
  { clear xs NE ALL. induction xs as [| x xs IH]; intros c C0 ALL; cbn [mfold]; [exists c; split; [reflexivity | split; [lra | split; [auto | tauto]]] |].
    inversion ALL; subst. destruct (dtlz_main id dim M alpha I0 A0 C x) as [d [-> [D0 [S N]]]]; [assumption |]. cbn [bind]. destruct (IH (c + d)) as [c' [-> [L Q]]]; [lra | assumption |]. exists c'. split; [reflexivity |]. split; [lra |]. rewrite Q. split.
    - intros [Z F]. assert (d = 0) by lra. split; [lra |]. constructor; [apply S; [destruct I3; lia | assumption] | exact F].
    - intros [Z F]. inversion F; subst. assert (d = 0) by (apply N; [tauto | assumption]). split; [lra | assumption]. }
  destruct (E xs 0) as [c [EC [L Q]]]; [lra | exact ALL |]. rewrite lit1. cbn [ar_add Rar]. rewrite EC. cbn [bind]. eexists. split; [reflexivity |]. rewrite lit1, <- INR_IZR_INZ. cbn [ar_div Rar].
  assert (P : 0 < INR (length xs)) by (apply lt_0_INR; destruct xs; [now elim NE | cbn; lia]). split; [apply Rmult_le_pos; [exact L | left; now apply Rinv_0_lt_compat] |].
  split.
  - intros Z. apply Q. unfold Rdiv in Z. apply Rmult_integral in Z. destruct Z as [Z | Z]; [exact Z |]. apply Rinv_0_lt_compat in P. lra.
  - intros F. assert (c = 0) by (apply Q; auto). subst. unfold Rdiv. ring.
Qed.
Lemma dtlz7_bad : exists x y fx fy, dtlz_ctor 7 3 2 = Ok tt /\ admissible (dtlz_bounds Rar 3) 0 x /\ admissible (dtlz_bounds Rar 3) 0 y /\ dtlz_p_distance Rar 7 3 2 x = Ok 0 /\
  dtlz_fitness Rar 7 2 100 x = Ok fx /\ dtlz_fitness Rar 7 2 100 y = Ok fy /\ pareto_dominates fy fx.
Proof.
  destruct dtlz7_counterexample as [x [y [fx [fy [A [B [C D]]]]]]]. exists x, y, fx, fy. rewrite !adm_dtlz. auto.
Qed.
Lemma dtlz5_bad : let x := [0; 1; 1; 1; 1] in
  dtlz_ctor 5 5 4 = Ok tt /\ dtlz_p_distance Rar 5 5 4 x = Ok (1 / 2) /\ pareto_optimal (admissible (dtlz_bounds Rar 5) 0) (dtlz_fitness Rar 5 4 100) x /\
  dtlz_ctor 6 5 4 = Ok tt /\ dtlz_p_distance Rar 6 5 4 x = Ok 2 /\ pareto_optimal (admissible (dtlz_bounds Rar 5) 0) (dtlz_fitness Rar 6 4 100) x.
Proof.
  destruct dtlz5_off_curve as [B [P Q]]. destruct dtlz6_off_curve as [B' [P' Q']]. split; [reflexivity |]. split; [exact B |]. split; [split; [now apply adm_dtlz |]; intros y fx fy By; apply Q; now apply adm_dtlz |].
  split; [reflexivity |]. split; [exact B' |]. split; [now apply adm_dtlz |]; intros y fx fy By; apply Q'; now apply adm_dtlz.
Qed.
(** Examples *)
Lemma dtlz2_example : dtlz_ctor 2 3 2 = Ok tt /\ admissible (dtlz_bounds Rar 3) 0 [1; 1 / 2; 1 / 2] /\ dtlz_p_distance Rar 2 3 2 [1; 1 / 2; 1 / 2] = Ok 0 /\
  admissible (dtlz_bounds Rar 3) 0 [1; 1; 1] /\ dtlz_p_distance Rar 2 3 2 [1; 1; 1] = Ok (1 / 2).
Proof.
  assert (K1 : (1 <= 2 <= 7)%Z) by lia. assert (K2 : (2 <= 2)%nat) by lia. assert (K3 : (2 < 3)%nat) by lia. assert (K4 : (0 <= 100)%Z) by lia.
  assert (DV : forall v a b, dd 2 2 [v; a; b] = (a - / 2) ^ 2 + (b - / 2) ^ 2). { intros. unfold dd. cbn [Nat.sub skipn]. unfold g_func. cbn [Z.eqb Pos.eqb orb]. rewrite g245_R. unfold sq. cbn [sumf]. ring. }
  split; [reflexivity |]. rewrite !adm_dtlz, !(dist_R 2 3 2 100 K1 K2 K3 K4), !DV by reflexivity.
  split; [split; [reflexivity |]; intros i I; destruct i as [| [| [| i]]]; cbn; try lra; lia |]. split; [f_equal; field |]. split; [split; [reflexivity |]; intros i I; destruct i as [| [| [| i]]]; cbn; try lra; lia |]. f_equal. field.
Qed.
