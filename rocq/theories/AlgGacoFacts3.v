From Coq Require Import List Bool Arith ZArith Lia Permutation.
From Verif Require Import Dbl DblFacts IntDbl Outcome StdSort BaseFacts Compare CompareFacts Constrained SpecConstrained ConstrainedFacts Problem SpecProblem Rng SpecGeneric SpecGenetic SpecHarmony Generic GeneticOps GeneticFacts Population SpecPopulation PopulationFacts SpecAlgo RmFacts
  Algo SpecSga AlgSga AlgSgaFacts3 AlgDe AlgNsga2 AlgGaco AlgoFacts AlgoFacts2 AlgSaFacts AlgPsoFacts3 AlgGwoFacts2 AlgSaFacts AlgGacoFacts AlgGacoFacts2.
Import ListNotations.
Local Notation within := SpecGeneric.within.

Lemma always_okp {G A} (o : outcome A) (Q : A -> Prop) E : okp o Q -> always (G := G) (rlift o) Q E.
Proof. intros (v & -> & H). now apply always_lift. Qed.

Section N.
Context {G : Type} (r : rng G) (RC : rng_contract r) (a : gaco_params) (KER : 2 <= ga_ker a) (p : problem) (PO : prob_obj p).
Notation ker := (ga_ker a).
(** Dv: what is known of the deviations, C: of the centres; V: of the values before clamping *)
Context (E : exn -> Prop) (C Dv : dbl -> Prop) (V : dbl -> Prop) (HV : forall c s, C c -> Dv s -> always (around r c s) V E).

Lemma again_ok n c s l u : C c -> Dv s -> forall g, V g -> always (again r n c s l u g) V E.
Proof.
  intros Hc Hs. induction n as [|n IH]; intros g Hg; cbn [again]; [now apply always_ret|].
  destruct (_ || _); [|now apply always_ret]. eapply always_bind; [now apply HV|]. intros g' Hg'. now apply IH.
Qed.
Lemma value_ok row sg h c s l u : nth_error row (1 + h) = Some c -> nth_error sg h = Some s -> nth_error (p_lb p) h = Some l -> nth_error (p_ub p) h = Some u -> C c -> Dv s -> h < get_nx p ->
  always (ant_value r p row sg h) (fun v => (within l u v \/ (v = NaN /\ V NaN)) /\ (get_nx p - p_nix p <= h -> whole v)) E.
Proof.
  intros Nc Ns Nl Nu Hc Hs Hh. unfold ant_value. unfold vget at 1 2 3 4. rewrite Nc, Ns, Nl, Nu.
  apply always_bind with (P := eq c); [now apply always_lift|]. intros ? <-. apply always_bind with (P := eq s); [now apply always_lift|]. intros ? <-.
  apply always_bind with (P := eq l); [now apply always_lift|]. intros ? <-. apply always_bind with (P := eq u); [now apply always_lift|]. intros ? <-.
  eapply always_bind; [now apply HV|]. intros g Hg. eapply always_bind; [apply again_ok; eassumption|]. intros g1 Hg1.
  apply always_ret. cbv zeta. destruct (prob_obj_bounds p PO) as (_ & _ & OB & _ & IB). destruct (OB h l u Nl Nu) as (_ & _ & LU).
  destruct (clamp_or_nan l u g1 LU) as [(-> & EN)|(NN & W)]; cbv zeta in *; set (g3 := if dgt _ u then u else _) in *.
  - rewrite EN. destruct (Nat.leb_spec (get_nx p - p_nix p) h); (split; [right; split; [reflexivity|exact Hg1]|intros H'; try lia; discriminate]).
  - destruct (Nat.leb_spec (get_nx p - p_nix p) h) as [I|I]; split; try (left; exact W); try (intros; lia).
    + left. destruct (IB h l u I Nl Nu). now apply dround_within.
    + intros _. apply dround_whole.
Qed.
Lemma new_ant_ok nf cum sg arch : length cum = ker -> arch_shape ker (get_nx p) nf arch -> length sg = get_nx p ->
  (forall row h v, In row arch -> h < get_nx p -> nth_error row (1 + h) = Some v -> C v) -> (forall s, In s sg -> Dv s) ->
  always (new_ant r a p cum sg arch) (fun x => length x = get_nx p /\ whole_tail (p_nix p) x /\
    forall i l u v, nth_error (p_lb p) i = Some l -> nth_error (p_ub p) i = Some u -> nth_error x i = Some v -> within l u v \/ (v = NaN /\ V NaN)) E.
Proof.
  intros LC (LA & SA) LS HC HD. destruct (prob_obj_lens p PO) as (L1 & L2). unfold new_ant.
  eapply always_bind; [apply (draw01_any r RC)|]. intros w _.
  eapply always_bind; [apply always_okp, kernel_ok; assumption|]. intros k Hk. cbv beta in Hk.
  apply always_bind with (P := fun row => In row arch); [apply always_okp, okp_vget; [lia|intros row Hr; exact (nth_error_In _ _ Hr)]|]. intros row Hr.
  eapply always_weak; [apply (always_map (ant_value r p row sg) (fun h v => forall l u, nth_error (p_lb p) h = Some l -> nth_error (p_ub p) h = Some u -> (within l u v \/ (v = NaN /\ V NaN)) /\ (get_nx p - p_nix p <= h -> whole v)) E)| |intros e He; exact He].
  - intros h Hh. apply in_seq in Hh. destruct (nth_ex row (1 + h)) as (c & Nc); [rewrite (SA row Hr); lia|]. destruct (nth_ex sg h) as (s & Ns); [lia|].
    destruct (nth_ex (p_lb p) h) as (l & Nl); [lia|]. destruct (nth_ex (p_ub p) h) as (u & Nu); [lia|].
    assert (Hc : C c) by (apply (HC row h c); auto; lia). assert (Hs : Dv s) by (apply HD, (nth_error_In _ _ Ns)). assert (Hx : h < get_nx p) by lia.
    eapply always_weak; [apply (value_ok row sg h c s l u Nc Ns Nl Nu Hc Hs Hx)| |intros e He; exact He].
    intros v Hv l' u' Nl' Nu'. assert (l' = l) by congruence. assert (u' = u) by congruence. subst. exact Hv.
  - intros x HF. pose proof (F2_len _ _ _ HF) as LX. rewrite seq_length in LX. split; [lia|].
    assert (AT : forall i l u v, nth_error (p_lb p) i = Some l -> nth_error (p_ub p) i = Some u -> nth_error x i = Some v -> (within l u v \/ (v = NaN /\ V NaN)) /\ (get_nx p - p_nix p <= i -> whole v)).
    { intros i l u v Nl Nu Nv. destruct (F2_seq _ _ _ HF i v Nv) as (Hi & K). now apply K. }
    split; [|intros i l u v Nl Nu Nv; exact (proj1 (AT i l u v Nl Nu Nv))].
    intros i v Hi Nv. assert (Li : i < length x) by (apply nth_error_Some; congruence).
    destruct (nth_ex (p_lb p) i) as (l & Nl); [lia|]. destruct (nth_ex (p_ub p) i) as (u & Nu); [lia|]. apply (AT i l u v Nl Nu Nv). lia.
Qed.
End N.

Local Opaque one_z.
(** Deviations of an archive in the box are finite *)
Section S.
Context (a : gaco_params) (KER : 2 <= ga_ker a) (FO : dlt (ga_focus a) dzero = false) (p : problem) (PO : prob_obj p).
Context (HB : forall b, In b (p_lb p) \/ In b (p_ub p) -> below_2p1019 b).
Definition mark_ok (m : Z) : Prop := (1 <= m < 2 ^ 32)%Z.
Lemma next_mark_ok k : (Z.of_nat (ga_ngm a) + 1 < 2 ^ 32)%Z -> mark_ok (an_mark k) -> (an_mark k <= Z.max 1 (Z.of_nat (ga_ngm a)))%Z ->
  mark_ok (next_mark a k) /\ (next_mark a k <= Z.max 1 (Z.of_nat (ga_ngm a)))%Z.
Proof.
  unfold mark_ok, next_mark, u32. intros N M B. destruct (_ || _); cbv zeta.
  - rewrite Z.mod_small by lia. destruct (Z.ltb_spec (Z.of_nat (ga_ngm a)) (an_mark k + 1)); lia.
  - destruct (Z.ltb_spec (Z.of_nat (ga_ngm a)) (an_mark k)); lia.
Qed.
Lemma fin_div k x m : (0 <= k <= 2097)%Z -> bnd k x -> mark_ok m -> bnd k (ddiv x (d_of_Z m)).
Proof.
  unfold mark_ok. intros K (z & -> & B) M. rewrite d_of_Z_int by (rewrite Z.abs_eq by lia; apply Z.lt_trans with (2 ^ 32)%Z; [lia|reflexivity]).
  unfold dint. pose proof one_z_pos as OP. cbn [ddiv]. destruct (Z.eqb_spec (m * one_z) 0) as [Z0|Z0]; [nia|]. destruct (Z.ltb_spec (m * one_z) 0) as [Z1|Z1]; [nia|].
  apply bnd_rnd; [nia|exact K|]. rewrite Z.abs_mul, (Z.abs_eq one_z) by lia. set (t := (2 ^ k)%Z) in *. assert (T : (0 <= t)%Z) by (apply Z.pow_nonneg; lia). clearbody t. nia.
Qed.
Definition in_arch (arch : list (list dbl)) : Prop := forall row h l u v, In row arch -> h < get_nx p -> nth_error (p_lb p) h = Some l -> nth_error (p_ub p) h = Some u -> nth_error row (1 + h) = Some v -> within l u v.
Lemma bnd_in l u v h : nth_error (p_lb p) h = Some l -> nth_error (p_ub p) h = Some u -> within l u v -> bnd 2093 v.
Proof.
  clear - HB. intros Nl Nu [A B]. destruct (HB l (or_introl (nth_error_In _ _ Nl))) as (x & -> & X). destruct (HB u (or_intror (nth_error_In _ _ Nu))) as (y & -> & Y).
  destruct v as [| |z|]; try discriminate. apply dle_fin in A, B. exists z. split; [reflexivity|]. set (t := (2 ^ 2093)%Z) in *. clearbody t. lia.
Qed.
Lemma dmax_fin x y : isfinite x = true -> y <> PInf -> isfinite (dmax x y) = true.
Proof. intros X Y. unfold dmax. destruct x as [| |a0|], y as [| |b0|]; try discriminate; try congruence; cbn; try reflexivity. destruct (_ <? _)%Z; reflexivity. Qed.
Lemma rnd_pos n d : (0 <= n)%Z -> (0 < d)%Z -> rnd n d = PInf \/ exists z, rnd n d = Fin z /\ (0 <= z)%Z.
Proof. intros N D. pose proof (rnd_nonneg n d N D) as H. destruct (rnd n d) as [| |z|]; try discriminate; [right|now left]. exists z. split; [reflexivity|]. now apply dle_fin in H. Qed.
Lemma sigma_fin gen k nf arch h sg : arch_shape (ga_ker a) (get_nx p) nf arch -> in_arch arch -> mark_ok (an_mark k) -> 1 <= h <= get_nx p -> sigma_of a p gen k arch h = Ok sg -> isfinite sg = true.
Proof.
  intros SH IA MK Hh ES. destruct (prob_obj_lens p PO) as (L1 & L2). destruct (prob_obj_bounds p PO) as (_ & _ & OB & _).
  destruct (nth_ex (p_lb p) (h - 1)) as (l & Nl); [lia|]. destruct (nth_ex (p_ub p) (h - 1)) as (u & Nu); [lia|]. unfold sigma_of in ES.
  destruct (spread_ok a KER _ _ arch h SH Hh) as ([dm dM] & ESP & DM & DX). rewrite ESP in ES. clear ESP. unfold vget in ES. rewrite Nl, Nu in ES. cbn [bind fst snd] in *.
  assert (DB : forall v, diff_in arch h v -> bnd 2094 v).
  { intros v (ri & rj & x & y & I1 & I2 & X & Y & ->). apply AlgGwoFacts2.bnd_abs. apply (bnd_sub 2093); [lia| |]; eapply bnd_in; eauto; [apply (IA ri (h - 1))|apply (IA rj (h - 1))]; auto; try lia;
      replace (1 + (h - 1)) with h by lia; assumption. }
  pose proof (bnd_sub 2094 dM dm ltac:(lia) (DB _ DX) (DB _ DM)) as D. change (2094 + 1)%Z with 2095%Z in D. clear DB DM DX. set (d := dsub dM dm) in *. clearbody d.
  assert (M1 : bnd 2095 (ddiv d (d_of_Z (an_mark k)))) by (apply fin_div; [lia|exact D|exact MK]).
  assert (M2 : bnd 1074 (ddiv done (d_of_Z (an_mark k)))) by (apply fin_div; [lia| |exact MK]; exists one_z; split; [reflexivity|]; rewrite <- one_z_eq, Z.abs_eq; [apply Z.le_refl|apply Z.lt_le_incl, one_z_pos]).
  assert (LM : forall y, negb (deq (ga_focus a) dzero) = true -> dgt y (ddiv (dsub u l) (ga_focus a)) = true -> isfinite (ddiv (dsub u l) (ga_focus a)) = true).
  { intros y F1 F2. destruct (HB l (or_introl (nth_error_In _ _ Nl))) as (z1 & -> & X). destruct (HB u (or_intror (nth_error_In _ _ Nu))) as (z2 & -> & Y).
    destruct (OB _ _ _ Nl Nu) as (_ & _ & LU). apply dle_fin in LU.
    destruct (bnd_sub 2093 (Fin z2) (Fin z1)) as (w & W & _); [lia|exists z2; auto|exists z1; auto|].
    assert (W0 : (0 <= w)%Z). { assert (Q : dle (Fin 0) (dsub (Fin z2) (Fin z1)) = true) by (unfold dsub; cbn [dneg dadd]; apply rnd_nonneg; lia). rewrite W in Q. now apply dle_fin in Q. }
    rewrite W in *. unfold dgt in F2. destruct (ga_focus a) as [| |z|] eqn:EF; cbn [ddiv] in *; try reflexivity; [destruct y; discriminate|].
    apply negb_true_iff in F1. cbn [deq] in F1. unfold dzero in F1. cbn in F1. rewrite F1 in *. unfold dzero in FO. cbn in FO. rewrite FO in *. apply Z.ltb_ge in FO. apply Z.eqb_neq in F1.
    destruct (rnd_pos (w * one_z) z) as [EQ|(q & EQ & _)]; [pose proof one_z_pos; nia|lia| |rewrite EQ; reflexivity]. rewrite EQ in F2. destruct y; discriminate. }
  destruct (_ && _ && negb (ga_memory a)) eqn:B1.
  { apply andb_true_iff in B1 as (B1 & _). apply andb_true_iff in B1 as (B1 & B2). injection ES as <-. exact (LM _ B1 B2). }
  destruct (_ && _ && ga_memory a) eqn:B2.
  { apply andb_true_iff in B2 as (B2 & _). apply andb_true_iff in B2 as (B2 & B3). injection ES as <-. exact (LM _ B2 B3). }
  destruct (Nat.leb h (get_nx p - p_nix p)); injection ES as <-; [exact (bnd_finite _ _ M1)|].
  apply dmax_fin; [apply dmax_fin; [exact (bnd_finite _ _ M1)|]|].
  - intros EQ. change (ddiv done (d_of_Z (an_mark k)) = PInf) in EQ. destruct M2 as (w & EW & _). congruence.
  - assert (SQ : dsqrt (dnat (p_nix p)) = PInf \/ exists z, dsqrt (dnat (p_nix p)) = Fin z /\ (0 <= z)%Z).
    { unfold dnat, d_of_Z. destruct (rnd_pos (Z.of_nat (p_nix p) * one_z) 1) as [->|(z & -> & Hz)]; [pose proof one_z_pos; nia|lia|left; reflexivity|].
      unfold dsqrt. destruct (Z.ltb_spec z 0); [lia|]. apply rnd_pos; [|reflexivity]. cbv zeta. pose proof (Z.sqrt_nonneg (z * one_z * 2 ^ 120)). destruct (_ =? _)%Z; lia. }
    assert (DQ : forall y, y = PInf \/ (exists z, y = Fin z /\ (0 <= z)%Z) -> dsub done y <> PInf).
    { clear. intros y [->|(q & -> & Hq)]; unfold dsub, done; cbn [dneg dadd]; [discriminate|]. intros EQ.
      assert (Q : dle (rnd (one_z + - q) 1) (rnd one_z 1) = true) by (apply rnd_mono; lia). rewrite EQ in Q.
      assert (O1 : rnd one_z 1 = done) by (pose proof (d_of_Z_int 1 ltac:(lia)) as X; unfold d_of_Z, dint in X; rewrite Z.mul_1_l in X; exact X). rewrite O1 in Q. unfold done in Q. discriminate Q. }
    apply DQ. clear DQ. destruct SQ as [SQ|(z & SQ & Hz)]; rewrite SQ; unfold done; cbn [ddiv]; [right; exists 0%Z; split; [reflexivity|apply Z.le_refl]|].
    destruct (Z.eqb_spec z 0) as [->|NZ]; [left; rewrite Z.sgn_pos by apply one_z_pos; reflexivity|]. destruct (Z.ltb_spec z 0); [lia|]. apply rnd_pos; [pose proof one_z_pos; nia|lia].
Qed.
End S.
