From Coq Require Import List Bool Arith ZArith Lia Permutation.
From Verif Require Import Dbl DblFacts IntDbl Outcome BaseFacts StdSort SpecOrder MultiObj SpecMultiObj Problem SpecProblem Rng Generic SpecGeneric GenericFacts2 GenericFacts3
  SpecGenetic RmFacts GeneticOps GeneticFacts GeneticFacts2 Population SpecPopulation Algo SpecAlgo AlgoFacts AlgoFacts2 AlgSga SpecSga SpecNsga2 AlgNsga2Facts AlgMoead SpecMoead.
Import ListNotations.
Local Open Scope Z_scope.

(** A number below 1 times a rounded number is at most the exact number. *)
Lemma one_split : one_z = 2 ^ 53 * 2 ^ 1021.
Proof. unfold one_z. rewrite <- Z.pow_add_r by lia. reflexivity. Qed.
Lemma ulp_pos : 0 < 2 ^ 1021. Proof. apply Z.pow_pos_nonneg; lia. Qed.
Lemma below_one_gap z : is_double (Fin z) -> z < one_z -> z <= one_z - 2 ^ 1021.
Proof.
  intros (m & e & -> & He & Hm & _) Hz. rewrite one_split in *. pose proof ulp_pos as U. set (t := 2 ^ 1021) in *.
  destruct (Z_le_gt_dec e 1021) as [Le|Gt].
  - assert (E2 : t = 2 ^ e * 2 ^ (1021 - e)) by (unfold t; rewrite <- Z.pow_add_r by lia; f_equal; lia).
    pose proof (Z.pow_pos_nonneg 2 e ltac:(lia) He) as P. pose proof (Z.pow_pos_nonneg 2 (1021 - e) ltac:(lia) ltac:(lia)) as P2. set (a := 2 ^ e) in *. set (b := 2 ^ (1021 - e)) in *.
    assert (a <= t) by nia. assert (m <= 2 ^ 53 - 1) by lia. nia.
  - assert (E2 : 2 ^ e = t * 2 ^ (e - 1021)) by (unfold t; rewrite <- Z.pow_add_r by lia; f_equal; lia). rewrite E2 in *.
    set (b := 2 ^ (e - 1021)) in *. assert (m * b < 2 ^ 53) by nia. assert (m * b <= 2 ^ 53 - 1) by lia. nia.
Qed.
Lemma rnd_exp_lg x e : 0 <= e -> 2 ^ (52 + e) <= x < 2 ^ (53 + e) -> rnd_exp x = e.
Proof. intros He Hx. unfold rnd_exp. rewrite (Z.log2_unique x (52 + e)); [lia|lia|]. replace (Z.succ (52 + e)) with (53 + e) by lia. exact Hx. Qed.
Opaque one_z.
Lemma shrink x v : 0 <= x -> 0 <= v <= one_z - 2 ^ 1021 -> rnd_nat (v * rnd_nat x 1) one_z <= x.
Proof.
  intros Hx Hv. pose proof IntDbl.one_z_pos as O. pose proof ulp_pos as U. pose proof one_split as OS. revert Hv U OS. generalize (2 ^ 1021). intros t Hv U OS. set (w := rnd_nat x 1). assert (W0 : 0 <= w) by (apply rnd_nat_nonneg; lia).
  pose proof (quot_range x Hx) as [Q1 Q2]. pose proof (rnd_exp_nonneg x) as E0. pose proof (pow2_pos _ E0) as P.
  assert (EW : w = mant x 1 (rnd_exp x) * 2 ^ rnd_exp x) by (unfold w; rewrite rnd_nat_mant, Z.div_1_r by lia; reflexivity).
  set (e := rnd_exp x) in *. set (m := x / 2 ^ e) in *.
  pose proof (Z.div_mod x (2 ^ e) ltac:(lia)) as DM. fold m in DM. pose proof (Z.mod_pos_bound x (2 ^ e) P) as MB. assert (M0 : 0 <= m) by (apply Z.div_pos; lia).
  assert (MM : mant x 1 e = m \/ (mant x 1 e = m + 1 /\ 0 < e)).
  { unfold mant. rewrite Z.mul_1_l. fold m. destruct (Z.eq_dec e 0) as [E|E].
    - rewrite E in *. rewrite Z.pow_0_r in MB |- *. assert (x mod 1 = 0) as -> by lia. now left.
    - destruct (_ ?= _); [destruct (Z.even _)| |]; [left; reflexivity|right; lia|left; reflexivity|right; lia]. }
  destruct MM as [MM | [MM EP]]; rewrite MM in EW.
  - transitivity w; [|rewrite EW; nia]. transitivity (rnd_nat (w * one_z) one_z).
    + apply rnd_nat_mono; [nia|exact O|nia].
    + rewrite EW. rewrite rnd_nat_exact; [lia|lia|exact E0|exact O].
  - specialize (Q2 EP). transitivity (m * 2 ^ e); [|nia].
    set (b := 2 ^ e) in *.
    transitivity (rnd_nat ((2 ^ 53 - 1) * t * ((m + 1) * b)) one_z); [apply rnd_nat_mono; [nia|exact O|rewrite EW; apply Z.mul_le_mono_nonneg; nia]|].
    rewrite rnd_nat_mant by nia. set (N := (2 ^ 53 - 1) * t * ((m + 1) * b)).
    assert (EN : N = one_z * (m * b) + t * b * (2 ^ 53 - (m + 1))) by (unfold N; rewrite OS; ring).
    assert (TB : 0 < t * b) by nia.
    assert (Rg : 0 <= t * b * (2 ^ 53 - (m + 1)) < one_z * b) by (rewrite OS; nia).
    assert (Q : m * b <= N / one_z < (m + 1) * b).
    { split; [apply Z.div_le_lower_bound; nia|apply Z.div_lt_upper_bound; nia]. }
    assert (EE : rnd_exp (N / one_z) = e).
    { apply rnd_exp_lg; [exact E0|]. rewrite !Z.pow_add_r by lia. fold b. nia. }
    rewrite EE. fold b. apply Z.mul_le_mono_nonneg_r; [lia|]. unfold mant. fold b.
    assert (D : N / (one_z * b) = m /\ N mod (one_z * b) = t * b * (2 ^ 53 - (m + 1))).
    { assert (EN' : N = (one_z * b) * m + t * b * (2 ^ 53 - (m + 1))) by (rewrite EN; ring). split; symmetry; [eapply Z.div_unique|eapply Z.mod_unique]; try exact EN'; left; exact Rg. }
    destruct D as [-> ->]. destruct (Z.compare_spec (2 * (t * b * (2 ^ 53 - (m + 1)))) (one_z * b)) as [C|C|C]; [| lia |]; exfalso; rewrite OS in C; nia.
Qed.
Lemma shrunk x v : 0 <= x <= 2 ^ 2097 -> 0 <= v <= one_z - 2 ^ 1021 -> exists q, dmul (Fin v) (rnd x 1) = Fin q /\ 0 <= q <= x.
Proof.
  intros Hx Hv. pose proof (shrink x v (proj1 Hx) Hv) as S. pose proof IntDbl.one_z_pos as O. apply proj1 in Hv. destruct Hx as [X0 X1].
  assert (W0 : 0 <= rnd_nat x 1) by (apply rnd_nat_nonneg; [exact X0|reflexivity]).
  assert (OV : 2 ^ 2097 < ovf_z) by (apply Z.pow_lt_mono_r; lia).
  assert (WB : rnd_nat x 1 <= 2 ^ 2097) by (apply rnd_nat_pow2_le; [exact X0|discriminate|reflexivity|rewrite Z.mul_1_r; exact X1]).
  revert X1 OV WB. generalize (2 ^ 2097). intros B X1 OV WB.
  assert (EX : rnd x 1 = Fin (rnd_nat x 1)).
  { unfold rnd. rewrite (Z.abs_eq x) by lia. destruct (Z.leb_spec ovf_z (rnd_nat x 1)); [lia|]. f_equal. destruct (Z.eq_dec x 0) as [->|N]; [reflexivity|]. rewrite Z.sgn_pos by lia. lia. }
  rewrite EX. cbn [dmul]. set (w := rnd_nat x 1) in *. assert (P0 : 0 <= v * w) by nia.
  exists (rnd_nat (v * w) one_z). split; [|split; [apply rnd_nat_nonneg; lia|exact S]].
  unfold rnd. rewrite (Z.abs_eq (v * w)) by lia. destruct (Z.leb_spec ovf_z (rnd_nat (v * w) one_z)); [lia|]. f_equal.
  destruct (Z.eq_dec (v * w) 0) as [E|N]; [rewrite E; cbn [Z.sgn]; rewrite Z.mul_0_l; symmetry; change 0 with (0 * 2 ^ 0 * one_z) at 1; rewrite rnd_nat_exact; lia|]. rewrite Z.sgn_pos by lia. lia.
Qed.
Lemma twice_2096 : 2 ^ 2097 = 2 * 2 ^ 2096.
Proof. change 2097 with (Z.succ 2096). apply Z.pow_succ_r. discriminate. Qed.
Lemma moderate_gap a b : Z.abs a <= 2 ^ 2096 -> Z.abs b <= 2 ^ 2096 -> Z.abs (a + - b) <= 2 ^ 2097.
Proof. rewrite twice_2096. generalize (2 ^ 2096). intros; lia. Qed.
Lemma back_up l u x v : is_double (Fin l) -> is_double (Fin u) -> moderate (Fin l) -> moderate (Fin u) -> l <= x <= u -> 0 <= v <= one_z - 2 ^ 1021 ->
  within (Fin l) (Fin u) (dadd (Fin l) (dmul (Fin v) (dsub (Fin x) (Fin l)))).
Proof.
  intros Dl Du (l' & El & Ml) (u' & Eu & Mu) Hx Hv. inversion El; inversion Eu; subst l' u'.
  pose proof (moderate_gap u l Mu Ml) as GAP. clear Ml Mu. destruct (shrunk (x + - l) v) as (q & Eq & Hq); [revert GAP; generalize (2 ^ 2097); intros; lia|exact Hv|]. clear GAP Hv. unfold dsub. cbn [dneg dadd]. rewrite Eq.
  destruct (rnd_between (l + q) 1 l u) as (z & Ez & Hz); [lia|exact Dl|exact Du|lia|]. cbn [dadd]. rewrite Ez. split; apply dle_fin; lia.
Qed.
Lemma back_down l u x v : is_double (Fin l) -> is_double (Fin u) -> moderate (Fin l) -> moderate (Fin u) -> l <= x <= u -> 0 <= v <= one_z - 2 ^ 1021 ->
  within (Fin l) (Fin u) (dsub (Fin u) (dmul (Fin v) (dsub (Fin u) (Fin x)))).
Proof.
  intros Dl Du (l' & El & Ml) (u' & Eu & Mu) Hx Hv. inversion El; inversion Eu; subst l' u'.
  pose proof (moderate_gap u l Mu Ml) as GAP. clear Ml Mu. destruct (shrunk (u + - x) v) as (q & Eq & Hq); [revert GAP; generalize (2 ^ 2097); intros; lia|exact Hv|]. clear GAP Hv. unfold dsub. cbn [dneg dadd]. rewrite Eq. cbn [dneg].
  destruct (rnd_between (u + - q) 1 l u) as (z & Ez & Hz); [lia|exact Dl|exact Du|lia|]. cbn [dadd]. rewrite Ez. split; apply dle_fin; lia.
Qed.
Lemma scaled_not_nan F x x0 x1 : within dzero done F -> (exists a, x0 = Fin a /\ Z.abs a <= 2 ^ 2096) -> (exists b, x1 = Fin b /\ Z.abs b <= 2 ^ 2096) ->
  dadd (Fin x) (dmul F (dsub x0 x1)) <> NaN.
Proof.
  intros [F1 F2] (a & -> & Ha) (b & -> & Hb). apply dadd_fin_not_nan.
  unfold dsub. cbn [dneg dadd]. destruct (rnd_finite (a + - b)) as (z & ->); [now apply moderate_gap|].
  destruct (between_fin F 0 one_z F1 F2) as (f & -> & _). cbn [dmul]. apply rnd_not_nan.
Qed.
Lemma not_below c l : c <> NaN -> l <> NaN -> dlt c l = false -> dle l c = true.
Proof.
  destruct c as [| |z|], l as [| |y|]; try congruence; cbn; try reflexivity; try discriminate; intros _ _ H. apply dle_fin. apply Z.ltb_ge in H. exact H.
Qed.
Close Scope Z_scope.

Section Child.
Context {G : Type} (r : rng G) (RC : rng_contract r) (pw : dbl -> dbl -> dbl) (a : moead_params) (p : problem) (PO : prob_obj p).

Lemma f2_seq {B} (Q : nat -> B -> Prop) n bs : Forall2 Q (seq 0 n) bs -> length bs = n /\ forall d b, nth_error bs d = Some b -> Q d b.
Proof.
  intros H. destruct (Forall2_nth _ _ _ H) as [L N]. rewrite seq_length in L. split; [congruence|]. intros d b Hb. assert (d < length bs) by (apply nth_error_Some; congruence).
  apply (N d d b); [|exact Hb]. rewrite (nth_error_nth' _ 0) by (rewrite seq_length; lia). now rewrite seq_nth by lia.
Qed.
Lemma lens : length (p_lb p) = get_nx p /\ length (p_ub p) = get_nx p.
Proof. exact (prob_obj_lens p PO). Qed.
Lemma bounds0 : good_bounds (p_lb p) (p_ub p) 0.
Proof. destruct (prob_obj_bounds p PO) as (A & B & C & _). split; [exact A|]. split; [exact B|]. split; [exact C|]. split; [lia|]. intros i l u Hi El Eu. assert (i < length (p_lb p)) by (apply nth_error_Some; congruence). lia. Qed.

(** ** The candidate has the right length. *)
Lemma gene_any X n p0 p1 k : (forall x, In x X -> length x = get_nx p) -> n < length X -> p0 < length X -> p1 < length X -> k < get_nx p ->
  always (moead_gene r a X (p_lb p) (p_ub p) n p0 p1 k) (fun _ => True) never.
Proof.
  intros HX Hn H0 H1 Hk. destruct lens as [L1 L2]. destruct (nth_ex X n Hn) as (xn & En). destruct (nth_ex X p0 H0) as (x0 & E0). destruct (nth_ex X p1 H1) as (x1 & E1).
  pose proof (HX _ (nth_error_In _ _ En)) as Ln. pose proof (HX _ (nth_error_In _ _ E0)) as L0. pose proof (HX _ (nth_error_In _ _ E1)) as L1'.
  destruct (nth_ex xn k ltac:(lia)) as (vn & Vn). destruct (nth_ex x0 k ltac:(lia)) as (v0 & V0). destruct (nth_ex x1 k ltac:(lia)) as (v1 & V1).
  destruct (nth_ex (p_lb p) k ltac:(lia)) as (l & El). destruct (nth_ex (p_ub p) k ltac:(lia)) as (u & Eu).
  unfold moead_gene, vget. rewrite En, E0, E1. cbn [bind]. rewrite Vn, V0, V1, El, Eu.
  eapply always_bind; [apply (draw01_any r RC)|]. intros v _. destruct (dlt v (me_CR a)); [|apply always_lift; exact I].
  do 5 (eapply always_bind; [apply always_lift with (Q := fun _ => True); exact I|]; intros ? _).
  eapply (always_bind _ _ (fun _ => True)).
  - destruct (dlt _ _); [|apply always_ret; exact I]. eapply always_bind; [apply (draw01_any r RC)|]. intros ? _. apply always_ret. exact I.
  - intros c1 _. destruct (dgt _ _); [|apply always_ret; exact I]. eapply always_bind; [apply (draw01_any r RC)|]. intros ? _. apply always_ret. exact I.
Qed.
Context (DL : Forall is_double (p_lb p)) (DU : Forall is_double (p_ub p)).
Lemma child_any X n p0 p1 : (forall x, In x X -> length x = get_nx p) -> n < length X -> p0 < length X -> p1 < length X ->
  always (moead_child r pw a p X n p0 p1) (fun x => length x = get_nx p) never.
Proof.
  intros HX Hn H0 H1. destruct lens as [L1 L2]. unfold moead_child.
  eapply (always_bind _ _ (fun c => length c = get_nx p)).
  - eapply always_weak; [apply (always_map _ (fun _ _ => True)); intros k Hk; apply in_seq in Hk; apply gene_any; auto; lia| |auto].
    intros bs HB. cbv beta in HB. clear - HB. assert (K : forall l l', Forall2 (fun (_ : nat) (_ : dbl) => True) l l' -> length l' = length l) by (induction 1; cbn [length]; congruence). rewrite (K _ _ HB). apply seq_length.
  - intros c Hc. eapply always_weak; [apply (mutation_keeps r RC pw (p_lb p) (p_ub p) 0 bounds0 (fun _ _ => True))| |intros e He; exact He].
    + auto. + exact DL. + exact DU. + split; [lia|auto]. + intros K. exfalso. apply K. intros i l u Hi El _. assert (i < length (p_lb p)) by (apply nth_error_Some; congruence). lia.
    + intros x [Lx _]. lia.
Qed.

(** ** It is in the box. *)
Context (B1 : below_one r) (MB : moderate_bounds p) (HF : within dzero done (me_F a)).
Lemma draw_below : always (draw01 r) (fun v => exists z, v = Fin z /\ (0 <= z <= one_z - 2 ^ 1021)%Z) never.
Proof.
  intros g. destruct (draw_real_ok r RC dzero done g) as (v & E & W1 & W2); [reflexivity|repeat split|].
  pose proof (B1 g) as B. pose proof (real_double r RC dzero done g (is_double_int 0 ltac:(lia)) (is_double_int 1 ltac:(lia))) as D.
  unfold draw01. rewrite E. unfold draw_real in E. destruct (_ && _ && _ && _) in E; [|discriminate]. unfold rdraw in E. destruct (g_real r dzero done g) as [v' g']. cbn [fst] in *. inversion E; subst v'.
  destruct (between_fin v 0 one_z W1 W2) as (z & -> & Hz). exists z. split; [reflexivity|]. split; [lia|]. apply below_one_gap; [exact D|]. apply Z.ltb_lt. exact B.
Qed.
Lemma gene_box X n p0 p1 k l u : (forall x, In x X -> in_box (p_lb p) (p_ub p) x) -> n < length X -> p0 < length X -> p1 < length X ->
  nth_error (p_lb p) k = Some l -> nth_error (p_ub p) k = Some u -> always (moead_gene r a X (p_lb p) (p_ub p) n p0 p1 k) (within l u) never.
Proof.
  intros HX Hn H0 H1 El Eu. destruct lens as [L1 L2]. assert (Hk : k < get_nx p) by (rewrite <- L1; apply nth_error_Some; congruence).
  destruct (nth_ex X n Hn) as (xn & En). destruct (nth_ex X p0 H0) as (x0 & E0). destruct (nth_ex X p1 H1) as (x1 & E1).
  destruct (HX _ (nth_error_In _ _ En)) as (Ln & _ & Bn). destruct (HX _ (nth_error_In _ _ E0)) as (L0 & _ & B0). destruct (HX _ (nth_error_In _ _ E1)) as (L1' & _ & B1').
  destruct (nth_ex xn k ltac:(lia)) as (vn & Vn). destruct (nth_ex x0 k ltac:(lia)) as (v0 & V0). destruct (nth_ex x1 k ltac:(lia)) as (v1 & V1).
  specialize (Bn _ _ _ _ El Eu Vn). specialize (B0 _ _ _ _ El Eu V0). specialize (B1' _ _ _ _ El Eu V1).
  destruct MB as [ML MU]. pose proof (ML l (nth_error_In _ _ El)) as Ml. pose proof (MU u (nth_error_In _ _ Eu)) as Mu.
  rewrite Forall_forall in DL, DU. pose proof (DL l (nth_error_In _ _ El)) as Dl. pose proof (DU u (nth_error_In _ _ Eu)) as Du.
  pose proof Ml as (zl & -> & Bl). pose proof Mu as (zu & -> & Bu).
  destruct Bn as [N1 N2]. destruct (between_fin vn zl zu N1 N2) as (zn & -> & Hzn). destruct B0 as [O1 O2]. destruct (between_fin v0 zl zu O1 O2) as (z0 & -> & Hz0). destruct B1' as [P1 P2]. destruct (between_fin v1 zl zu P1 P2) as (z1 & -> & Hz1).
  unfold moead_gene, vget. rewrite En, E0, E1. cbn [bind]. rewrite Vn, V0, V1, El, Eu.
  eapply always_bind; [apply (draw01_any r RC)|]. intros v _. destruct (dlt v (me_CR a)); [|apply always_lift; split; assumption].
  eapply (always_bind _ _ (eq (Fin zn))); [apply always_lift; reflexivity|]. intros ? <-. eapply (always_bind _ _ (eq (Fin z0))); [apply always_lift; reflexivity|]. intros ? <-. eapply (always_bind _ _ (eq (Fin z1))); [apply always_lift; reflexivity|]. intros ? <-.
  eapply (always_bind _ _ (eq (Fin zl))); [apply always_lift; reflexivity|]. intros ? <-. eapply (always_bind _ _ (eq (Fin zu))); [apply always_lift; reflexivity|]. intros ? <-.
  assert (NN : dadd (Fin zn) (dmul (me_F a) (dsub (Fin z0) (Fin z1))) <> NaN) by (apply scaled_not_nan; [exact HF|exists z0; split; [reflexivity|lia]|exists z1; split; [reflexivity|lia]]).
  cbv zeta. set (c := dadd _ _) in *.
  eapply (always_bind _ _ (fun c1 => c1 <> NaN /\ dle (Fin zl) c1 = true)).
  - destruct (dlt c (Fin zl)) eqn:EC.
    + eapply always_bind; [apply draw_below|]. intros w (z & -> & Hz). apply always_ret. destruct (back_up zl zu zn z Dl Du Ml Mu Hzn Hz) as [W1 W2]. split; [|exact W1]. intros K. rewrite K in W1. discriminate.
    + apply always_ret. split; [exact NN|]. apply not_below; [exact NN|discriminate|exact EC].
  - intros c1 [NC LC]. destruct (dgt c1 (Fin zu)) eqn:EC.
    + eapply always_bind; [apply draw_below|]. intros w (z & -> & Hz). apply always_ret. exact (back_down zl zu zn z Dl Du Ml Mu Hzn Hz).
    + apply always_ret. split; [exact LC|]. apply not_below; [discriminate|exact NC|exact EC].
Qed.
Context (PC : pow_contract pw) (HE : nonneg (me_eta a)) (FE : isfinite (me_eta a) = true).
Lemma child_box X n p0 p1 : (forall x, In x X -> in_box (p_lb p) (p_ub p) x) -> n < length X -> p0 < length X -> p1 < length X ->
  always (moead_child r pw a p X n p0 p1) (in_box (p_lb p) (p_ub p)) never.
Proof.
  intros HX Hn H0 H1. destruct lens as [L1 L2]. unfold moead_child.
  eapply (always_bind _ _ (in_box (p_lb p) (p_ub p))).
  - eapply always_weak with (E := never); [apply (always_map _ (fun k v => forall l u, nth_error (p_lb p) k = Some l -> nth_error (p_ub p) k = Some u -> within l u v))| |auto].
    + intros k Hk. apply in_seq in Hk. destruct (nth_ex (p_lb p) k ltac:(lia)) as (l & El). destruct (nth_ex (p_ub p) k ltac:(lia)) as (u & Eu).
      eapply always_weak; [apply (gene_box X n p0 p1 k l u HX Hn H0 H1 El Eu)| |auto]. intros v W l' u' El' Eu'. rewrite El in El'. rewrite Eu in Eu'. inversion El'; inversion Eu'; subst. exact W.
    + intros bs HB. cbv beta in HB. apply f2_seq in HB. destruct HB as [LB HN]. split; [lia|]. split; [lia|]. intros i l u v El Eu Ev. exact (HN i v Ev l u El Eu).
  - intros c Hc. assert (G1 : good1 (p_lb p) (p_ub p) 0 c). { split; [exact Hc|]. intros i v Hi Hv. assert (i < length c) by (apply nth_error_Some; congruence). lia. }
    destruct MB as [ML MU]. eapply always_weak; [apply (mutation_impl_ok r RC pw PC c (p_lb p) (p_ub p) 0 _ (me_eta a) never bounds0 DL DU G1 ML MU HE FE)| |auto].
    + intros K. exfalso. apply K. intros i l u Hi El _. assert (i < length (p_lb p)) by (apply nth_error_Some; congruence). lia.
    + intros x [B _]. exact B.
Qed.
End Child.
