From Coq Require Import List Bool Arith ZArith Lia Permutation.
From Verif Require Import Dbl DblFacts IntDbl Outcome BaseFacts StdSort SpecOrder MultiObj SpecMultiObj MultiObjFacts2 DecomposeFacts SpecDiscrepancy Weights WeightsFacts Problem SpecProblem Rng Generic SpecGeneric GenericFacts3
  SpecGenetic RmFacts GeneticOps GeneticFacts Population SpecPopulation Algo SpecAlgo AlgoFacts AlgoFacts2 AlgSga SpecSga SpecNsga2 AlgNsga2Facts3 AlgMoead SpecMoead AlgMoeadFacts AlgMoeadFacts2.
Import ListNotations.
Local Open Scope Z_scope.
Local Opaque one_z.

Lemma dsqrt_between k a b : 0 <= a -> 0 <= b -> a < 2 ^ 53 -> b < 2 ^ 53 -> a * a <= k <= b * b -> exists z, dsqrt (dint k) = Fin z /\ a * one_z <= z <= b * one_z.
Proof.
  intros Ha Hb Ha' Hb' Hk. pose proof IntDbl.one_z_pos as O. unfold dsqrt, dint. destruct (Z.ltb_spec (k * one_z) 0); [nia|]. cbv zeta.
  set (n := k * one_z * one_z * 2 ^ 120). set (s := Z.sqrt n). assert (N0 : 0 <= n) by (unfold n; nia). pose proof (Z.sqrt_spec n N0) as [S1 S2]. fold s in S1, S2.
  pose proof (Z.sqrt_nonneg n) as S0. fold s in S0. change (2 ^ 61) with (2 * 2 ^ 60). set (t := 2 ^ 60).
  assert (T : 0 < t) by reflexivity. assert (En : n = k * (one_z * t) * (one_z * t)) by (unfold n, t; change (2 ^ 120) with (2 ^ 60 * 2 ^ 60); ring).
  set (q := one_z * t) in *. assert (Q : 0 < q) by (unfold q; nia).
  assert (B1 : a * q <= s). { assert (~ s < a * q); [|lia]. intros C. assert ((s + 1) * (s + 1) <= (a * q) * (a * q)) by (apply Z.mul_le_mono_nonneg; lia). nia. }
  assert (B2 : 2 * s + (if s * s =? n then 0 else 1) <= 2 * (b * q)).
  { destruct (Z.eqb_spec (s * s) n).
    - assert (~ b * q < s); [|lia]. intros C. assert ((b * q + 1) * (b * q + 1) <= s * s) by (apply Z.mul_le_mono_nonneg; nia). nia.
    - assert (~ b * q <= s); [|lia]. intros C. assert (b * q * (b * q) <= s * s) by (apply Z.mul_le_mono_nonneg; nia). nia. }
  apply rnd_between; [lia| | |].
  - apply (is_double_int a). lia.
  - apply (is_double_int b). lia.
  - replace (a * one_z * (2 * t)) with (2 * (a * q)) by (unfold q; ring). replace (b * one_z * (2 * t)) with (2 * (b * q)) by (unfold q; ring).
    destruct (s * s =? n); lia.
Qed.
Lemma grid_three nw : 3 <= nw < 2 ^ 49 -> exists H, grid_H (fun _ _ => NaN) 0 3 nw = Ok H.
Proof.
  intros Hw. unfold grid_H. cbn [Z.eqb Pos.eqb]. rewrite !d_of_Z_int by lia. rewrite done_int. rewrite dmul_int by lia. rewrite dadd_int by lia.
  destruct (dsqrt_between (8 * nw + 1) 5 (2 ^ 27)) as (y & -> & Hy); [lia|lia|lia|lia|lia|]. unfold dint.
  pose proof IntDbl.one_z_pos as O.
  destruct (rnd_between (y + - (3 * one_z)) 1 (2 * one_z) (2 ^ 27 * one_z)) as (y' & E' & Hy'); [lia|apply (is_double_int 2); lia|apply (is_double_int (2 ^ 27)); lia|lia|].
  assert (Edb : dsub (Fin y) (Fin (3 * one_z)) = Fin y') by exact E'. rewrite Edb.
  assert (Eh : exists h, Weights.dhalf = Fin h /\ 0 <= h <= one_z). { exists (2 ^ 1073). split; [reflexivity|]. Transparent one_z. unfold one_z. split; [apply Z.pow_nonneg; lia|apply Z.pow_le_mono_r; lia]. }
  Opaque one_z. destruct Eh as (h & -> & Hh). cbn [dmul].
  destruct (rnd_between (h * y') one_z 0 (2 ^ 27 * one_z)) as (y2 & -> & Hy2); [lia|apply (is_double_int 0); lia|apply (is_double_int (2 ^ 27)); lia|nia|].
  cbn [dfloor]. destruct (Z.ltb_spec (y2 / one_z * one_z) 0) as [C|C]; [|eauto]. pose proof (Z.div_pos y2 one_z ltac:(lia) O). nia.
Qed.
Lemma grid_H_three binom fuel nw : grid_H binom fuel 3 nw = grid_H (fun _ _ => NaN) 0 3 nw.
Proof. reflexivity. Qed.
Lemma grid_loop_ends binom nf nw : forall fuel h, grid_loop binom fuel nf nw h = NoFuel \/ exists H, grid_loop binom fuel nf nw h = Ok H.
Proof. induction fuel as [|k IH]; intros h; cbn [grid_loop]; [now left|]. destruct (dle _ _); eauto. Qed.
Lemma grid_ends binom fuel nf nw : 3 <= nw < 2 ^ 49 \/ nf <> 3 -> grid_H binom fuel nf nw = NoFuel \/ exists H, grid_H binom fuel nf nw = Ok H.
Proof.
  intros H. destruct (Z.eq_dec nf 3) as [->|N].
  - rewrite grid_H_three. right. apply grid_three. destruct H; [auto|congruence].
  - unfold grid_H. destruct (nf =? 2); [eauto|]. destruct (Z.eqb_spec nf 3); [congruence|]. destruct (grid_loop_ends binom nf nw fuel 1) as [-> | (k & ->)]; cbn [bind]; eauto.
Qed.
Lemma mmap_ext_in {A B} (f f' : A -> outcome B) l : (forall x, In x l -> f x = f' x) -> mmap f l = mmap f' l.
Proof. induction l as [|x l IH]; intros H; [reflexivity|]. cbn [mmap]. rewrite (H x (or_introl eq_refl)), IH; [reflexivity|]. intros y Hy. apply H. now right. Qed.
Lemma F2L A B (R : A -> B -> Prop) l l' : Forall2 R l l' -> length l = length l'.
Proof. induction 1; cbn [length]; congruence. Qed.
Lemma lattice_length nf H k : lattice_point nf H k -> length k = nf.
Proof. unfold lattice_point. intros (L & _). exact L. Qed.
Close Scope Z_scope.

Section Weights.
Context {G : Type} (r : rng G) (RC : rng_contract r) (srt : sorter) (HS : sort_contract srt).
Context (binom : Z -> Z -> dbl) (BE : binomial_exact binom) (halton : nat -> nat -> list dbl).
Context (HH : forall n i, length (halton n i) = n - 1 /\ Forall unit_dbl (halton n i)).
Context (fuel : nat) (a : moead_params) (W : Prop) (WG : me_weights a = WGrid -> W).

Lemma weights_ok nf NP g : 2 <= nf -> (Z.of_nat NP < 2 ^ 49)%Z -> (Z.of_nat nf * Z.of_nat NP <= 2 ^ 64)%Z ->
  ends_w W (moead_weights r srt binom halton fuel a nf NP) g (fun ws _ => nf <= NP /\ weights_for nf NP ws)
    (fun e => e = InvalidArgument /\ (NP < nf \/ me_weights a = WGrid \/ me_weights a = WOther)).
Proof.
  intros Hf Hp HB. unfold moead_weights. destruct (Nat.ltb_spec NP nf) as [Hlt|Hle].
  - assert (E : (match me_weights a with WRandom => if true || Nat.ltb nf 2 then rret [] else rmap (fun _ => draw01 r) (seq 0 ((NP - nf) * (nf - 1))) | _ => rret [] end) = (rret [] : RM G (list dbl))) by (destruct (me_weights a); reflexivity).
    rewrite E. apply ends_bind, ends_ret. apply ends_lift. unfold decomposition_weights. destruct (Nat.ltb_spec NP nf); [|lia]. split; [reflexivity|now left].
  - destruct (Nat.ltb_spec nf 2); [lia|]. cbn [orb].
    assert (SI : forall ws, length ws = NP /\ (forall i w, i < nf -> nth_error ws i = Some w -> canonical nf i w) /\ (forall i w, nf <= i -> nth_error ws i = Some w -> on_simplex nf w) -> nf <= NP /\ weights_for nf NP ws).
    { intros ws (L & C & S). split; [lia|]. split; [exact L|]. intros w Hw. apply In_nth_error in Hw. destruct Hw as [i Hi]. destruct (Nat.lt_ge_cases i nf) as [Li|Li].
      - apply (C i w Li Hi).
      - destruct (S i w Li Hi) as (gaps & Lg & _ & _ & ->). now rewrite map_length. }
    destruct (me_weights a) eqn:EM; apply ends_bind.
    + apply ends_ret. apply ends_lift.
      destruct (decomposition_weights srt binom fuel (halton nf) _ nf NP WGrid) as [ws|e| |] eqn:E.
      * destruct (weights_grid_full _ _ _ _ _ _ _ _ BE E HB ltac:(lia)) as (L & H1 & K & _ & _ & IL & ->). split; [lia|]. split; [exact L|]. intros w Hw. apply in_map_iff in Hw. destruct Hw as (k & <- & Hk). rewrite map_length. apply IL in Hk. now apply lattice_length in Hk.
      * unfold decomposition_weights in E. destruct (Nat.ltb_spec NP nf); [lia|]. destruct (Nat.ltb_spec nf 2); [lia|].
        destruct (grid_ends binom fuel (Z.of_nat nf) (Z.of_nat NP)) as [E1 | (h & E1)]; [lia| |]; rewrite E1 in E; cbn [bind] in E; [discriminate|]. destruct (dgt _ _); inversion E; auto.
      * exfalso. unfold decomposition_weights in E. destruct (Nat.ltb_spec NP nf); [lia|]. destruct (Nat.ltb_spec nf 2); [lia|].
        destruct (grid_ends binom fuel (Z.of_nat nf) (Z.of_nat NP)) as [E1 | (h & E1)]; [lia| |]; rewrite E1 in E; cbn [bind] in E; [discriminate|]. destruct (dgt _ _); inversion E.
      * now apply WG.
    + apply ends_ret. apply ends_lift.
      destruct (weights_sampled srt binom fuel (halton nf) (fun i j => nth ((i - nf) * (nf - 1) + j) [] NaN) nf NP WLowDiscrepancy HS ltac:(lia) (or_introl (conj eq_refl (HH nf)))) as (ws & -> & WS). now apply SI.
    + assert (AL := always_map (fun _ : nat => draw01 r) (fun _ v => exists z, v = Fin z /\ (0 <= z <= one_z)%Z) never (seq 0 ((NP - nf) * (nf - 1))) (fun k _ => draw01_ok r RC)).
      eapply ends_always; [eapply always_weak; [exact AL|intros ds Hds; exact Hds|intros e []]|].
      intros ds g1 HD. cbv beta in HD |- *. apply ends_lift.
      set (dr := fun i j => if Nat.ltb ((i - nf) * (nf - 1) + j) (length ds) then nth ((i - nf) * (nf - 1) + j) ds NaN else Fin 0).
      assert (LD : length ds = (NP - nf) * (nf - 1)) by (rewrite <- (F2L _ _ _ _ _ HD); apply seq_length).
      assert (EQ : decomposition_weights srt binom fuel (halton nf) (fun i j => nth ((i - nf) * (nf - 1) + j) ds NaN) nf NP WRandom = decomposition_weights srt binom fuel (halton nf) dr nf NP WRandom).
      { unfold decomposition_weights. destruct (Nat.ltb NP nf); [reflexivity|]. destruct (Nat.ltb nf 2); [reflexivity|]. f_equal.
        apply mmap_ext_in. intros i Hi. apply in_seq in Hi. f_equal. apply map_ext_in. intros j Hj. apply in_seq in Hj. unfold dr.
        assert (B : (i - nf) * (nf - 1) + j < length ds) by (rewrite LD; nia). apply Nat.ltb_lt in B. now rewrite B. }
      rewrite EQ. destruct (weights_sampled srt binom fuel (halton nf) dr nf NP WRandom HS ltac:(lia)) as (ws & -> & WS).
      { right. split; [reflexivity|]. intros i j. unfold dr. destruct (Nat.ltb_spec ((i - nf) * (nf - 1) + j) (length ds)) as [B|B].
        - destruct (nth_ex ds _ B) as (v & Ev). rewrite (nth_error_nth _ _ _ Ev).
          assert (A : forall l1 l2, Forall2 (fun (_ : nat) v => exists z, v = Fin z /\ (0 <= z <= one_z)%Z) l1 l2 -> forall v, In v l2 -> unit_dbl v).
          { clear. induction 1; intros v Hv; [destruct Hv|destruct Hv as [<- | Hv]; auto]. } apply (A _ _ HD). eapply nth_error_In. exact Ev.
        - exists 0%Z. split; [reflexivity|]. pose proof IntDbl.one_z_pos. lia. }
      now apply SI.
    + apply ends_ret. apply ends_lift. unfold decomposition_weights. destruct (Nat.ltb_spec NP nf); [lia|]. destruct (Nat.ltb_spec nf 2); [lia|]. auto.
Qed.
End Weights.
