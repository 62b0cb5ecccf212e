From Coq Require Import List Bool Arith ZArith Lia Permutation.
From Verif Require Import AlgDeFacts Dbl DblFacts IntDbl Outcome BaseFacts Compare SpecOrder CompareFacts StdSort Problem SpecProblem ProblemFacts Rng Generic SpecGeneric GenericFacts GenericFacts2 GenericFacts3 SpecGenetic RmFacts
  GeneticOps GeneticFacts Population SpecPopulation PopulationFacts Algo SpecAlgo AlgoFacts AlgoFacts2 AlgSaFacts AlgSaFacts2 AlgBee AlgBeeFacts SpecSwarm AlgGwo AlgGwoFacts AlgExamples.
Import ListNotations.

(** ** Arithmetic of a step *)
Local Open Scope Z_scope.
Lemma p32_53 : 2 ^ 32 < 2 ^ 53. Proof. reflexivity. Qed.
Lemma small53 k : 0 <= k <= 100 -> Z.abs k < 2 ^ 53. Proof. lia. Qed.
Lemma two_p1 : 2 ^ 1 = 2. Proof. reflexivity. Qed.
Lemma two_p10 : 10 <= 2 ^ 10. Proof. discriminate. Qed.
Local Opaque one_z Z.pow.
Lemma bnd_mul j k x y : 0 <= j -> 0 <= k -> k + j <= 2097 -> bnd (1074 + j) x -> bnd k y -> bnd (k + j) (dmul x y).
Proof.
  intros Hj Hk H (a & -> & A) (b & -> & B). cbn [dmul]. apply bnd_rnd; [apply one_z_pos|lia|]. rewrite Z.abs_mul, one_z_eq. rewrite Z.pow_add_r in A by lia. rewrite Z.pow_add_r by lia.
  apply (Z.le_trans _ ((2 ^ 1074 * 2 ^ j) * 2 ^ k)); [apply Z.mul_le_mono_nonneg; lia|]. lia.
Qed.
Lemma bnd_abs k x : bnd k x -> bnd k (dabs x).
Proof. intros (a & -> & A). exists (Z.abs a). split; [reflexivity|lia]. Qed.
Lemma dthree_eq : dthree = Fin (3 * one_z).
Proof. unfold dthree. apply d_of_Z_int, small53. lia. Qed.
Lemma dtwo_eq : dtwo = Fin (2 * one_z).
Proof. unfold dtwo. apply d_of_Z_int, small53. lia. Qed.
Lemma bnd_fin k j : 0 <= k -> 0 <= j -> k <= 2 ^ j -> bnd (1074 + j) (Fin (k * one_z)).
Proof.
  intros Hk Hj H. exists (k * one_z). split; [reflexivity|]. pose proof one_z_pos. rewrite Z.abs_eq by lia. rewrite one_z_eq, Z.pow_add_r by lia. rewrite <- one_z_eq. rewrite Z.mul_comm. apply Z.mul_le_mono_nonneg_l; lia.
Qed.
Lemma p2 k : 0 <= k -> 2 ^ (k + 1) = 2 * 2 ^ k. Proof. intros. rewrite Z.pow_add_r by lia. rewrite two_p1. lia. Qed.
Lemma bnd_a (m g : nat) : (1 <= g <= m)%nat -> Z.of_nat m < 2 ^ 32 -> bnd 1108 (gwo_a m g).
Proof.
  intros Hg Hm. pose proof p32_53 as L. unfold gwo_a. rewrite !d_of_Z_int by lia. rewrite dtwo_eq. pose proof one_z_pos as OP.
  assert (D : bnd 1075 (ddiv (Fin (2 * one_z)) (Fin (Z.of_nat m * one_z)))).
  { cbn [ddiv]. destruct (Z.eqb_spec (Z.of_nat m * one_z) 0) as [Z0|_]; [nia|]. destruct (Z.ltb_spec (Z.of_nat m * one_z) 0) as [Z0|_]; [nia|]. apply bnd_rnd; [nia|lia|].
    rewrite Z.abs_eq by nia. replace 1075 with (1074 + 1) by reflexivity. rewrite (p2 1074) by lia. rewrite <- one_z_eq. nia. }
  change 1108 with (1107 + 1). apply bnd_sub; [lia| |].
  - apply (bnd_weak 1075); [lia|]. change 1075 with (1074 + 1). apply bnd_fin; [lia|lia|]. rewrite two_p1. lia.
  - change 1107 with (1075 + 32). apply bnd_mul; [lia|lia|lia| |exact D]. apply bnd_fin; lia.
Qed.
Lemma bnd_pull k a l x u v : 0 <= k -> k + 39 <= 2096 -> bnd 1108 a -> bnd k l -> bnd k x -> within dzero done u -> within dzero done v ->
  bnd (k + 39) (dsub l (dmul (dsub (dmul (dmul dtwo a) u) a) (dabs (dsub (dmul (dmul dtwo v) l) x)))).
Proof.
  intros Hk HK Ba Bl Bx [U1 U2] [V1 V2]. pose proof (bnd_unit u U1 U2) as Bu. pose proof (bnd_unit v V1 V2) as Bv.
  assert (BA : bnd (1074 + 36) (dsub (dmul (dmul dtwo a) u) a)).
  { change (1074 + 36) with (1109 + 1). apply bnd_sub; [lia| |apply (bnd_weak 1108); [lia|exact Ba]]. apply bnd_mul_unit_r; [lia| |exact Bu]. change 1109 with (1108 + 1). apply bnd_two; [lia|exact Ba]. }
  assert (BD : bnd (k + 2) (dabs (dsub (dmul (dmul dtwo v) l) x))).
  { apply bnd_abs. replace (k + 2) with (k + 1 + 1) by lia. apply bnd_sub; [lia| |apply (bnd_weak k); [lia|exact Bx]]. apply bnd_mul; [lia|lia|lia| |exact Bl]. change (1074 + 1) with (1074 + 1). apply bnd_two; [lia|exact Bv]. }
  replace (k + 39) with (k + 38 + 1) by lia. apply bnd_sub; [lia|apply (bnd_weak k); [lia|exact Bl]|]. replace (k + 38) with (k + 2 + 36) by lia. apply bnd_mul; [lia|lia|lia|exact BA|exact BD].
Qed.
Lemma rnd_small m d : 0 <= m < 2 ^ 53 -> 0 < d -> rnd (m * d) d = Fin m.
Proof.
  intros Hm Hd. unfold rnd. pose proof (rnd_nat_exact m 0 d Hm ltac:(lia) Hd) as K. rewrite Z.pow_0_r, Z.mul_1_r in K. rewrite Z.abs_eq by nia. rewrite K.
  assert (2 ^ 53 < ovf_z) by (unfold ovf_z; apply Z.pow_lt_mono_r; lia). destruct (Z.leb_spec ovf_z m); [lia|]. f_equal. destruct m; [reflexivity| |lia]. cbn [Z.sgn]. rewrite Z.sgn_pos by nia. lia.
Qed.
(** In the only generation of a run of one generation the step is zero. *)
Lemma gwo_a_11 : gwo_a 1 1 = dzero.
Proof.
  unfold gwo_a. change (Z.of_nat 1) with 1. rewrite d_of_Z_int by (apply small53; lia). unfold dint. rewrite dtwo_eq, Z.mul_1_l. pose proof one_z_pos as OP.
  assert (D1 : is_double (Fin (2 * one_z))) by (rewrite <- dtwo_eq; unfold dtwo, d_of_Z; apply rnd_is_double; lia).
  assert (E : ddiv (Fin (2 * one_z)) (Fin one_z) = Fin (2 * one_z)).
  { cbn [ddiv]. destruct (Z.eqb_spec one_z 0); [lia|]. destruct (Z.ltb_spec one_z 0); [lia|]. replace (2 * one_z * one_z) with (2 * one_z * one_z) by reflexivity.
    rewrite rnd_int; [reflexivity|apply small53; lia|lia]. }
  rewrite E. assert (M : dmul (Fin one_z) (Fin (2 * one_z)) = Fin (2 * one_z)).
  { cbn [dmul]. replace (one_z * (2 * one_z)) with (2 * one_z * one_z) by lia. rewrite rnd_int; [reflexivity|apply small53; lia|lia]. }
  rewrite M. apply dsub_self.
Qed.
Lemma third_9 : ddiv (dadd (dadd (Fin 9) (Fin 9)) (Fin 9)) dthree = Fin 9.
Proof.
  assert (E : dadd (dadd (Fin 9) (Fin 9)) (Fin 9) = Fin 27) by (vm_compute; reflexivity). rewrite E, dthree_eq. pose proof one_z_pos as OP. cbn [ddiv].
  destruct (Z.eqb_spec (3 * one_z) 0); [lia|]. destruct (Z.ltb_spec (3 * one_z) 0); [lia|]. replace (27 * one_z) with (9 * (3 * one_z)) by lia. apply rnd_small; [pose proof (small53 9); lia|lia].
Qed.
Close Scope Z_scope.

Section S.
Context {G P : Type} (r : rng G) (srt : sorter) (m_gen : nat).
Lemma gwo_rejects (s : G * pop P) : ~ plain_single (po_prob (snd s)) \/ (m_gen <> 0 /\ length (po_id (snd s)) < 3) -> gwo_evolve r srt m_gen s = (Throw InvalidArgument, s).
Proof.
  intros H. unfold gwo_evolve, rbind, getp, plain_single in *. cbv beta iota zeta. destruct (Nat.eqb_spec (get_nc (po_prob (snd s))) 0) as [E1|E1]; cbn [negb]; [|reflexivity].
  destruct (Nat.eqb_spec (get_nf (po_prob (snd s))) 1) as [E2|E2]; cbn [negb]; [|reflexivity]. destruct (u_set_seed _); [reflexivity|]. destruct (Nat.eqb_spec m_gen 0); [exfalso; destruct H as [H|[H _]]; [apply H; auto|lia]|].
  destruct (Nat.ltb_spec (length (po_id (snd s))) 3); [reflexivity|]. exfalso. destruct H as [H|[_ H]]; [apply H; auto|lia].
Qed.
Lemma gwo_zero (s : G * pop P) : plain_single (po_prob (snd s)) -> m_gen = 0 -> gwo_evolve r srt m_gen s = (Ok [], s).
Proof. intros (E1 & E2 & E3) ->. unfold gwo_evolve, rbind, getp. cbv beta iota zeta. rewrite E1, E2, E3. reflexivity. Qed.
Context (RC : rng_contract r) (SC : sort_contract srt).
Lemma gwo_ok_nan (s : G * pop P) p : po_prob (snd s) = p -> valid_pop (snd s) -> plain_single p -> fitness_defined p -> m_gen <> 0 -> 3 <= length (po_id (snd s)) ->
  ends (gwo_evolve r srt m_gen) s (fun log s' => gwo_post p (in_box_or_nan (p_lb p) (p_ub p)) m_gen (snd s) (snd s') log) (fails p).
Proof.
  intros EP V PS FD Hm HN. pose proof V as (PO & _). rewrite EP in PO. pose proof PS as (_ & NF & _). destruct (prob_obj_lens p PO) as [Ll Lu].
  assert (T : forall x : list dbl, Forall (fun _ => True) x) by (intros x; apply Forall_forall; auto).
  apply (gwo_evolve_ok r RC srt SC p (in_box_or_nan (p_lb p) (p_ub p)) (fun _ => True) (fun _ => True) (fun _ => True) m_gen PO NF FD); auto.
  - intros y z Ly _ E. split; [|auto]. destruct (stick_spec y (p_lb p) (p_ub p) ltac:(lia) ltac:(lia)) as (z' & E' & L' & H). assert (z' = z) by congruence. subst z'.
    split; [lia|]. split; [lia|]. intros i l u v A B C. destruct (nth_error y i) as [w|] eqn:W; [|apply nth_error_None in W; assert (i < length z) by (apply nth_error_Some; congruence); lia].
    destruct (H i l u w A B W (prob_obj_ord p PO i l u A B)) as (v' & C' & H1 & _ & H3 & _). assert (v' = v) by congruence. subst v'. destruct w; [left; now apply H3| | |]; right; apply H1; discriminate.
  - apply Forall_forall. auto.
Qed.
Lemma gwo_ok_box (s : G * pop P) p : po_prob (snd s) = p -> valid_pop (snd s) -> plain_single p -> fitness_defined p -> m_gen <> 0 -> (Z.of_nat m_gen < 2 ^ 32)%Z -> 3 <= length (po_id (snd s)) ->
  (forall l, In l (p_lb p) -> below_2p900 l) -> (forall u, In u (p_ub p) -> below_2p900 u) -> (forall x v, In x (po_x (snd s)) -> In v x -> below_2p900 v) ->
  ends (gwo_evolve r srt m_gen) s (fun log s' => gwo_post p (in_box (p_lb p) (p_ub p)) m_gen (snd s) (snd s') log) (fails p).
Proof.
  intros EP V PS FD Hm HM HN BL BU BX. pose proof V as (PO & ST & _). rewrite EP in PO. pose proof PS as (_ & NF & _). destruct (prob_obj_lens p PO) as [Ll Lu].
  apply (gwo_evolve_ok r RC srt SC p (in_box (p_lb p) (p_ub p)) (bnd 1974) (bnd 1974) (fun v => v <> NaN) m_gen PO NF FD); auto.
  - intros g G1 G2 a b d x r1 r2 r3 r4 r5 r6 Ba Bb Bd Bx H1 H2 H3 H4 H5 H6. cbv zeta.
    pose proof (bnd_a m_gen g (conj G1 G2) HM) as BA. rewrite dthree_eq.
    assert (BS : bnd 2015 (dadd (dadd (dsub a (dmul (dsub (dmul (dmul dtwo (gwo_a m_gen g)) r1) (gwo_a m_gen g)) (dabs (dsub (dmul (dmul dtwo r2) a) x))))
       (dsub b (dmul (dsub (dmul (dmul dtwo (gwo_a m_gen g)) r3) (gwo_a m_gen g)) (dabs (dsub (dmul (dmul dtwo r4) b) x)))))
       (dsub d (dmul (dsub (dmul (dmul dtwo (gwo_a m_gen g)) r5) (gwo_a m_gen g)) (dabs (dsub (dmul (dmul dtwo r6) d) x)))))).
    { change 2015%Z with (2014 + 1)%Z. apply bnd_add; [lia| |]; [change 2014%Z with (2013 + 1)%Z; apply bnd_add; [lia| |]|apply (bnd_weak (1974 + 39)); [lia|]]; apply (bnd_pull 1974); auto; lia. }
    destruct BS as (zz & -> & _). pose proof one_z_pos as OP. cbn [ddiv]. destruct (Z.eqb_spec (3 * one_z) 0); [lia|]. destruct (Z.ltb_spec (3 * one_z) 0); [lia|]. apply rnd_not_nan.
  - intros y z Ly Fy E. assert (B : in_box (p_lb p) (p_ub p) z). { apply (stick_in_box y (p_lb p) (p_ub p) z); auto; try lia; [apply prob_obj_ord; exact PO|]. now apply Forall_forall. }
    split; [exact B|]. assert (K : Forall (bnd 1974) z); [|auto]. apply Forall_forall. intros v Hv. apply In_nth_error in Hv. destruct Hv as (i & Hi). destruct B as (B1 & B2 & B3). assert (i < length z) by (apply nth_error_Some; congruence).
    destruct (vget_in_range (p_lb p) i ltac:(lia)) as (l & _ & Nl). destruct (vget_in_range (p_ub p) i ltac:(lia)) as (u & _ & Nu).
    apply (bnd_within 1974 l u); [apply BL; eapply nth_error_In; eauto|apply BU; eapply nth_error_In; eauto|apply (B3 i); auto].
  - apply Forall_forall. intros x Hx. apply Forall_forall. intros v Hv. now apply (BX x).
  - intros l El. destruct ST as (S1 & S2 & Fx & Ff & _). rewrite EP in Fx, Ff.
    destruct (gwo_init_ok srt (po_x (snd s)) (po_f (snd s)) SC ltac:(lia)) as (i0 & i1 & i2 & x0 & x1 & x2 & EI & _ & _ & _ & _ & N0 & N1 & N2 & _); [apply Forall_forall; intros f Hf; rewrite <- NF; now apply Ff|lia|].
    assert (l = mkleaders (mkwolf (obj (nth i0 (po_f (snd s)) [])) x0) (mkwolf (obj (nth i1 (po_f (snd s)) [])) x1) (mkwolf (obj (nth i2 (po_f (snd s)) [])) x2)) by congruence. subst l. cbn [l_alpha l_beta l_delta w_pos].
    assert (K : forall i x, nth_error (po_x (snd s)) i = Some x -> Forall (bnd 1974) x) by (intros i x Hx; apply Forall_forall; intros v Hv; apply (BX x); [exact (nth_error_In _ _ Hx)|exact Hv]). exact (conj (K _ _ N0) (conj (K _ _ N1) (K _ _ N2))).
Qed.
End S.

(** ** The best individual is lost *)
Definition gwo_pop : pop (list Z) := {| po_prob := alg_problem; po_fevals := 4; po_id := [1; 2; 3; 4]%Z;
  po_x := [[Fin 0; Fin 0]; [Fin 9; Fin 9]; [Fin 9; Fin 9]; [Fin 9; Fin 9]]; po_f := [[Fin 0]; [Fin 18]; [Fin 18]; [Fin 18]]; po_cx := [Fin 0; Fin 0]; po_cf := [Fin 0]; po_rng := [] |}.
Lemma gwo_pop_valid : valid_pop gwo_pop.
Proof.
  split; [exact alg_problem_obj|]. split; [|right; split; reflexivity]. split; [reflexivity|]. split; [reflexivity|].
  split; [apply (proj1 (Forall_forall (fun x => length x = 2) (po_x gwo_pop))); repeat constructor|]. split; [apply (proj1 (Forall_forall (fun x => length x = 1) (po_f gwo_pop))); repeat constructor|].
  intros i H. cbn [gwo_pop po_id In] in H. lia.
Qed.
Lemma fin_small z : (Z.abs z <= 10)%Z -> bnd 10 (Fin z).
Proof. intros H. exists z. split; [reflexivity|]. pose proof two_p10. lia. Qed.
Lemma pull_9 g u v x : 1 <= g -> g <= 1 -> bnd 10 x -> within dzero done u -> within dzero done v -> dsub (Fin 9) (dmul (dsub (dmul (dmul dtwo (gwo_a 1 g)) u) (gwo_a 1 g)) (dabs (dsub (dmul (dmul dtwo v) (Fin 9)) x))) = Fin 9.
Proof.
  intros G1 G2 Bx [U1 U2] [V1 V2]. replace g with 1 by lia. rewrite gwo_a_11. pose proof (bnd_unit u U1 U2) as (uz & -> & _). pose proof (bnd_unit v V1 V2) as Bv.
  assert (BD : bnd 12 (dabs (dsub (dmul (dmul dtwo v) (Fin 9)) x))).
  { apply bnd_abs. change 12%Z with (11 + 1)%Z. apply bnd_sub; [lia| |apply (bnd_weak 10); [lia|exact Bx]]. change 11%Z with (10 + 1)%Z. apply bnd_mul; [lia|lia|lia| |apply fin_small; lia]. change (1074 + 1)%Z with (1074 + 1)%Z. apply bnd_two; [lia|exact Bv]. }
  destruct BD as (dz & -> & _). pose proof one_z_pos as OP.
  assert (E : forall a b, dmul (Fin 0) (Fin b) = Fin 0 /\ dmul (Fin a) (Fin 0) = Fin 0).
  { intros a b. cbn [dmul]. rewrite Z.mul_0_l, Z.mul_0_r, rnd_zero by lia. auto. }
  rewrite dtwo_eq. unfold dzero. rewrite (proj2 (E (2 * one_z)%Z 0%Z)), (proj1 (E 0%Z uz)), dsub_self, (proj1 (E 0%Z dz)). vm_compute. reflexivity.
Qed.
Lemma gwo_gather G (r : rng G) srt : rng_contract r -> sort_contract srt -> forall g, exists log s', gwo_evolve r srt 1 (g, gwo_pop) = (Ok log, s') /\
  po_x (snd s') = [[Fin 9; Fin 9]; [Fin 9; Fin 9]; [Fin 9; Fin 9]; [Fin 9; Fin 9]] /\ po_f (snd s') = [[Fin 18]; [Fin 18]; [Fin 18]; [Fin 18]].
Proof.
  intros RC SC g.
  assert (K : ends (gwo_evolve r srt 1) (g, gwo_pop) (fun log s' => gwo_post alg_problem (fun x => x = [Fin 9; Fin 9]) 1 gwo_pop (snd s') log) (fails alg_problem)).
  { apply (gwo_evolve_ok r RC srt SC alg_problem (fun x => x = [Fin 9; Fin 9]) (bnd 10) (fun v => v = Fin 9) (fun v => v = Fin 9) 1 alg_problem_obj eq_refl alg_problem_defined).
    - intros k G1 G2 a b d x r1 r2 r3 r4 r5 r6 -> -> -> Bx H1 H2 H3 H4 H5 H6. cbv beta zeta. rewrite (pull_9 k r1 r2 x G1 G2 Bx H1 H2), (pull_9 k r3 r4 x G1 G2 Bx H3 H4), (pull_9 k r5 r6 x G1 G2 Bx H5 H6). exact third_9.
    - intros y z Ly Fy E. destruct y as [|y0 [|y1 [|y2 y]]]; try discriminate Ly. inversion Fy as [|? ? A F1]. inversion F1 as [|? ? B F2]. subst.
      assert (E' : force_bounds_stick [Fin 9; Fin 9] (p_lb alg_problem) (p_ub alg_problem) = Ok [Fin 9; Fin 9]) by (vm_compute; reflexivity). rewrite E' in E. injection E as <-.
      split; [reflexivity|]. split; repeat constructor; apply fin_small; lia.
    - reflexivity.
    - exact gwo_pop_valid.
    - exact alg_problem_plain.
    - discriminate.
    - cbn. lia.
    - repeat constructor; apply fin_small; lia.
    - cbn [snd]. intros l El. destruct (gwo_init_ok srt (po_x gwo_pop) (po_f gwo_pop) SC eq_refl) as (i0 & i1 & i2 & x0 & x1 & x2 & EI & ND & H0 & H1 & H2 & N0 & N1 & N2 & W1 & W2 & W3); [repeat constructor|cbn; lia|].
      rewrite EI in El. injection El as <-. cbn [l_alpha l_beta l_delta w_pos].
      assert (F : forall i x, i <> 0 -> nth_error (po_x gwo_pop) i = Some x -> Forall (fun v => v = Fin 9) x).
      { intros i x Hi Hx. destruct i as [|[|[|[|i]]]]; cbn in Hx; [lia| | | |destruct i; discriminate]; injection Hx as <-; repeat constructor. }
      assert (O : forall i, i <> 0 -> i < 4 -> obj (nth i (po_f gwo_pop) []) = Fin 18) by (intros [|[|[|[|i]]]] A B; try lia; reflexivity).
      assert (NB : ~ not_worse (Fin 18) (Fin 0)) by (intros Q; apply Q; cbn; lia). cbn [gwo_pop po_f length] in H0, H1, H2.
      rewrite !NoDup_cons_iff in ND. cbn [In] in ND.
      assert (Z2 : i2 <> 0). { intros Q. rewrite Q in *. assert (J : exists j, j <> 0 /\ j < 4 /\ j <> i0 /\ j <> i1).
        { destruct (Nat.eq_dec 1 i0), (Nat.eq_dec 1 i1), (Nat.eq_dec 2 i0), (Nat.eq_dec 2 i1), (Nat.eq_dec 3 i0), (Nat.eq_dec 3 i1); try lia; (exists 1; lia) || (exists 2; lia) || (exists 3; lia). }
        destruct J as (j & J0 & J4 & J5 & J6). specialize (W3 j J4). rewrite (O j J0 J4) in W3. apply NB. apply W3. cbn [In]. lia. }
      assert (Z1 : i1 <> 0). { intros Q. rewrite Q in W2. rewrite (O i2 Z2 H2) in W2. exact (NB W2). }
      assert (Z0 : i0 <> 0). { intros Q. rewrite Q in W1. rewrite (O i1 Z1 H1) in W1. exact (NB W1). }
      exact (conj (F _ _ Z0 N0) (conj (F _ _ Z1 N1) (F _ _ Z2 N2))). }
  unfold ends_w in K. destruct (gwo_evolve r srt 1 (g, gwo_pop)) as [[log|e| |] s']; try contradiction; [|exfalso; exact (alg_problem_no_fail e K)].
  exists log, s'. split; [reflexivity|]. destruct K as (V & EP & EI & BX & EV & _). pose proof V as (_ & (S1 & S2 & _) & _). rewrite EI in S1. rewrite <- S1 in S2.
  assert (EX : po_x (snd s') = [[Fin 9; Fin 9]; [Fin 9; Fin 9]; [Fin 9; Fin 9]; [Fin 9; Fin 9]]).
  { destruct (po_x (snd s')) as [|x0 [|x1 [|x2 [|x3 [|x4 t]]]]]; try discriminate S1. cbn [length] in S2; rewrite (BX x0), (BX x1), (BX x2), (BX x3); cbn; auto. }
  split; [exact EX|]. rewrite EX in EV.
  assert (FE : forall f, evaluated alg_problem [Fin 9; Fin 9] f -> f = [Fin 18]).
  { intros f (_ & _ & H). cbn [alg_problem p_udp box_udp u_fitness alg_fit] in H. assert (D : dadd (Fin 9) (Fin 9) = Fin 18) by (vm_compute; reflexivity). rewrite D in H. now injection H as <-. }
  destruct (po_f (snd s')) as [|f0 [|f1 [|f2 [|f3 [|f4 t]]]]]; try discriminate S2.
  rewrite (FE f0), (FE f1), (FE f2), (FE f3); [reflexivity|apply (EV 3)|apply (EV 2)|apply (EV 1)|apply (EV 0)]; reflexivity.
Qed.
Lemma small_900 z : (Z.abs z <= 10)%Z -> below_2p900 (Fin z).
Proof. intros H. apply (bnd_weak 10 1974); [lia|]. now apply fin_small. Qed.
Lemma gwo_nonvacuous : po_prob gwo_pop = alg_problem /\ valid_pop gwo_pop /\ plain_single alg_problem /\ fitness_defined alg_problem /\ 3 <= length (po_id gwo_pop) /\
  (forall l, In l (p_lb alg_problem) -> below_2p900 l) /\ (forall u, In u (p_ub alg_problem) -> below_2p900 u) /\ (forall x v, In x (po_x gwo_pop) -> In v x -> below_2p900 v) /\ (forall e, ~ fails alg_problem e).
Proof.
  split; [reflexivity|]. split; [exact gwo_pop_valid|]. split; [exact alg_problem_plain|]. split; [exact alg_problem_defined|]. split; [cbn; lia|].
  split; [intros l [<-|[<-|[]]]; apply small_900; lia|]. split; [intros l [<-|[<-|[]]]; apply small_900; lia|]. split; [|exact alg_problem_no_fail].
  assert (F : Forall (Forall below_2p900) (po_x gwo_pop)) by (repeat constructor; apply small_900; lia). intros x v Hx Hv. rewrite Forall_forall in F. specialize (F x Hx). rewrite Forall_forall in F. now apply F.
Qed.
