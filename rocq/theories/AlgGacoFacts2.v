From Coq Require Import List Bool Arith ZArith Lia Permutation.
From Verif Require Import Dbl DblFacts IntDbl Outcome StdSort BaseFacts Compare CompareFacts Constrained SpecConstrained ConstrainedFacts Problem SpecProblem Rng SpecGeneric SpecGenetic SpecHarmony Generic GeneticOps Population SpecPopulation PopulationFacts SpecAlgo RmFacts
  Algo SpecSga AlgSga AlgSgaFacts3 AlgDe AlgNsga2 AlgGaco AlgoFacts2 AlgGacoFacts.
Import ListNotations.
Local Notation within := SpecGeneric.within.

(** ** Penalties *)
Lemma residual_ok p f : prob_obj p -> p_nobj p = 1 -> length f = get_nf p -> okp (residual p f) (fun _ => True).
Proof.
  intros PO N1 LF. destruct (prob_obj_facts p PO) as (_ & _ & LT & NF). unfold get_nc, get_nf in *. unfold residual, test_eq_constraints, test_ineq_constraints.
  destruct (test_constraints_spec true (firstn (p_nec p) (skipn 1 f)) (p_ctol p)) as (k1 & r1 & -> & _); [rewrite firstn_length, skipn_length; lia|]. cbn [bind].
  destruct (test_constraints_spec false (skipn (1 + p_nec p) f) (skipn (p_nec p) (p_ctol p))) as (k2 & r2 & -> & _); [rewrite !skipn_length; lia|]. cbn [bind].
  apply okp_ret. exact I.
Qed.
Lemma penalty_of_ok p o f : prob_obj p -> p_nobj p = 1 -> length f = get_nf p -> okp (penalty_of p o f) (fun _ => True).
Proof.
  intros PO N1 LF. unfold penalty_of. apply okp_bind with (Q1 := fun _ => True).
  - destruct (Nat.eqb (get_nc p) 0); [now apply okp_ret|now apply residual_ok].
  - intros res _. apply okp_bind with (Q1 := fun _ => True); [apply okp_vget; [|auto]; rewrite LF; unfold get_nf; lia|]. intros v _. now apply okp_ret.
Qed.

Section G.
Context (a : gaco_params) (KER : 2 <= ga_ker a).
Notation ker := (ga_ker a).

(** ** The oracle *)
Lemma oracle_ok p k arch Pt : prob_obj p -> p_nobj p = 1 -> good_arch ker (get_nx p) (get_nf p) Pt arch ->
  okp (oracle_step a p k arch) (fun ka => good_arch ker (get_nx p) (get_nf p) Pt (snd ka) /\
    an_q (fst ka) = an_q k /\ an_counter (fst ka) = an_counter k /\ an_evalstop (fst ka) = an_evalstop k /\ an_impstop (fst ka) = an_impstop k /\ an_mark (fst ka) = an_mark k /\
    (ga_memory a = false -> an_arch (fst ka) = an_arch k) /\ (ga_memory a = true -> an_arch k = arch -> an_arch (fst ka) = snd ka)).
Proof.
  intros PO N1 (LA & GA). assert (NF : 1 <= get_nf p) by (unfold get_nf; lia). unfold oracle_step.
  apply okp_bind with (Q1 := fun row => In row arch); [apply okp_vget; [lia|intros row Hr; exact (nth_error_In _ _ Hr)]|]. intros row Hr.
  apply okp_bind with (Q1 := fun _ => True); [apply okp_vget; [rewrite (good_row_len _ _ _ _ (GA row Hr)); lia|auto]|]. intros fv _.
  destruct (dlt fv (an_oracle k)); [|apply okp_ret; split; [exact (conj LA GA)|]; cbn; do 5 (split; [reflexivity|]); split; intros; [reflexivity|assumption]].
  eapply okp_bind.
  - apply (okp_seq _ (fun _ st => good_arch ker (get_nx p) (get_nf p) Pt (snd st))); [exact (conj LA GA)|]. intros i st Hi (L1 & G1). unfold oracle_row.
    apply okp_bind with (Q1 := good_row (get_nx p) (get_nf p) Pt); [apply okp_vget; [lia|intros row1 Hr1; apply G1, (nth_error_In _ _ Hr1)]|]. intros row1 (pn & x & f & -> & LX & LF & HP).
    apply okp_bind with (Q1 := fun _ => True); [apply okp_vget; [cbn; rewrite app_length; lia|auto]|]. intros v _.
    apply okp_bind with (Q1 := fun _ => True).
    { destruct (Nat.eqb i 0 && Nat.eqb (get_nc p) 0); [now apply okp_ret|]. rewrite <- LX, <- LF, row_f_ok. cbn [bind]. eapply okp_bind; [apply residual_ok; assumption|]. intros res _. now apply okp_ret. }
    intros orr _. cbn [vget nth_error bind]. unfold vset at 1. cbn [length Nat.ltb Nat.leb bind upd].
    rewrite vset_in_range by lia. cbn [bind]. apply okp_ret. cbn [snd]. split; [now rewrite upd_length|]. intros y Hy. apply upd_In in Hy. destruct Hy as [->|Hy]; [|auto].
    eexists _, x, f. split; [reflexivity|]. auto.
  - intros st HS. apply okp_ret. cbn [snd]. split; [exact HS|]. destruct (ga_memory a); cbn; do 5 (split; [reflexivity|]); split; intros; congruence.
Qed.

(** ** Weights and deviations *)
Lemma cumulative_len dexp q : length (cumulative dexp a q) = ker.
Proof. unfold cumulative. now rewrite map_length, seq_length. Qed.
Lemma weights_ok dexp gen k cum : length cum = ker -> length (snd (weights_step dexp a gen k cum)) = ker /\
  (let k' := fst (weights_step dexp a gen k cum) in an_counter k' = an_counter k /\ an_arch k' = an_arch k /\ an_evalstop k' = an_evalstop k /\ an_impstop k' = an_impstop k /\ an_mark k' = an_mark k /\ an_oracle k' = an_oracle k).
Proof.
  intros L. unfold weights_step. destruct (ga_memory a).
  - cbn [fst snd]. split; [apply cumulative_len|]. destruct (Z.eqb _ _); now repeat split.
  - destruct (_ || _); [|now repeat split]. cbn [fst snd]. split; [apply cumulative_len|]. destruct (Nat.eqb gen (ga_threshold a)); now repeat split.
Qed.
(** d_min and d_max are differences of two elements of the column *)
Definition diff_in (arch : list (list dbl)) (h : nat) (v : dbl) : Prop :=
  exists ri rj x y, In ri arch /\ In rj arch /\ nth_error ri h = Some x /\ nth_error rj h = Some y /\ v = dabs (dsub x y).
Lemma spread_ok nx nf arch h : arch_shape ker nx nf arch -> 1 <= h <= nx -> okp (spread a arch h) (fun mm => diff_in arch h (fst mm) /\ diff_in arch h (snd mm)).
Proof.
  intros (LA & SA) Hh. unfold spread.
  set (d := fun i j => bind (vget arch i) (fun ri => bind (vget arch j) (fun rj => bind (vget ri h) (fun x => bind (vget rj h) (fun y => Ok (dabs (dsub x y))))))).
  assert (D : forall i j, i < ker -> j < ker -> okp (d i j) (diff_in arch h)).
  { intros i j Hi Hj. unfold d. apply okp_bind with (Q1 := fun row => In row arch); [apply okp_vget; [lia|intros row Hr; exact (nth_error_In _ _ Hr)]|]. intros ri Hri.
    apply okp_bind with (Q1 := fun row => In row arch); [apply okp_vget; [lia|intros row Hr; exact (nth_error_In _ _ Hr)]|]. intros rj Hrj.
    apply okp_bind with (Q1 := fun x => nth_error ri h = Some x); [apply okp_vget; [rewrite (SA ri Hri); lia|auto]|]. intros x Hx.
    apply okp_bind with (Q1 := fun x => nth_error rj h = Some x); [apply okp_vget; [rewrite (SA rj Hrj); lia|auto]|]. intros y Hy.
    apply okp_ret. exists ri, rj, x, y. auto. }
  eapply okp_bind; [apply D; lia|]. intros d01 H01.
  apply (okp_seq _ (fun _ mm => diff_in arch h (fst mm) /\ diff_in arch h (snd mm))); [auto|]. intros c mm Hc HM.
  apply (okp_seq _ (fun _ mm => diff_in arch h (fst mm) /\ diff_in arch h (snd mm))); [exact HM|]. intros k mm1 Hk (M1 & M2).
  eapply okp_bind; [apply (D c k); lia|]. intros v Hv. apply okp_ret. cbn [fst snd]. destruct (dlt v (fst mm1)), (dgt v (snd mm1)); auto.
Qed.
Lemma sigmas_ok p gen k arch nf : prob_obj p -> arch_shape ker (get_nx p) nf arch -> okp (sigmas a p gen k arch) (Forall2 (fun h s => sigma_of a p gen k arch h = Ok s) (seq 1 (get_nx p))).
Proof.
  intros PO SH. destruct (prob_obj_lens p PO) as (L1 & L2). unfold sigmas. apply okp_mmap. intros h Hh. apply in_seq in Hh.
  assert (X : okp (sigma_of a p gen k arch h) (fun _ => True)).
  { unfold sigma_of. eapply okp_bind; [apply (spread_ok _ _ _ h SH); lia|]. intros mm _.
    apply okp_bind with (Q1 := fun _ => True); [apply okp_vget; [lia|auto]|]. intros l _.
    apply okp_bind with (Q1 := fun _ => True); [apply okp_vget; [lia|auto]|]. intros u _. now apply okp_ret. }
  destruct X as (s & E & _). exists s. auto.
Qed.

(** ** New ants *)
Lemma kernel_ok cum u : length cum = ker -> okp (kernel_of a cum u) (fun k => k < ker).
Proof.
  intros L. unfold kernel_of. apply okp_bind with (Q1 := fun _ => True); [apply okp_vget; [lia|auto]|]. intros c0 _.
  apply okp_bind with (Q1 := fun _ => True); [apply okp_vget; [lia|auto]|]. intros c1 _.
  destruct (dle u c0); [apply okp_ret; lia|]. destruct (dgt u c1); [apply okp_ret; lia|].
  apply (okp_seq _ (fun _ b => b < ker)); [lia|]. intros i b Hi Hb.
  apply okp_bind with (Q1 := fun _ => True); [apply okp_vget; [lia|auto]|]. intros lo _.
  apply okp_bind with (Q1 := fun _ => True); [apply okp_vget; [lia|auto]|]. intros hi _. apply okp_ret. destruct (_ && _); lia.
Qed.
End G.

(** Clamping and rounding *)
Lemma clamp_or_nan l u g : dle l u = true -> let g2 := if dlt g l then l else g in let g3 := if dgt g2 u then u else g2 in (g = NaN /\ g3 = NaN) \/ (g <> NaN /\ within l u g3).
Proof.
  intros LU. cbv zeta. destruct g as [| |z|]; [left; split; [reflexivity|]; destruct l, u; reflexivity| | |]; right; (split; [discriminate|]);
    destruct l as [| |x|], u as [| |y|]; cbn in *; try discriminate; unfold within, dgt, dle in *; cbn in *; rewrite ?orb_false_r in *; rewrite ?orb_true_iff in *; rewrite ?Z.ltb_lt, ?Z.eqb_eq in *; auto.
  all: repeat match goal with |- context [if ?b then _ else _] => destruct b eqn:? end; cbn in *; rewrite ?orb_true_iff, ?Z.ltb_lt, ?Z.ltb_ge, ?Z.eqb_eq in *; try discriminate; try (split; lia); auto.
  all: split; auto; lia.
Qed.

Lemma dround_within l u v : (isfinite l = true -> integral l) -> (isfinite u = true -> integral u) -> within l u v -> within l u (dround v).
Proof.
  intros IL IU [A B]. destruct v as [| |z|]; try (split; assumption). pose proof one_z_pos as OP. cbn [dround].
  assert (RD : forall k, (k * one_z <= z -> k <= Z.sgn z * ((Z.abs z + one_z / 2) / one_z))%Z /\ (z <= k * one_z -> Z.sgn z * ((Z.abs z + one_z / 2) / one_z) <= k)%Z).
  { intros k. assert (H2 : (0 <= one_z / 2 < one_z)%Z) by (split; [apply Z.div_pos; lia|apply Z.div_lt; lia]).
    assert (U : forall w j, (0 <= w -> w <= j * one_z -> (w + one_z / 2) / one_z <= j)%Z) by (intros w j W H; apply Z.lt_succ_r, Z.div_lt_upper_bound; lia).
    assert (D : forall w j, (0 <= w -> j * one_z <= w -> j <= (w + one_z / 2) / one_z)%Z) by (intros w j W H; apply Z.div_le_lower_bound; lia).
    destruct (Z.lt_trichotomy z 0) as [N|[->|N]].
    - rewrite Z.sgn_neg, (Z.abs_neq z) by lia. split; intros H; [specialize (U (- z) (- k))%Z|specialize (D (- z) (- k))%Z]; lia.
    - cbn [Z.sgn]. rewrite Z.mul_0_l. split; intros H; nia.
    - rewrite Z.sgn_pos, (Z.abs_eq z) by lia. split; intros H; [specialize (D z k)|specialize (U z k)]; lia. }
  split; [destruct l as [| |x|]|destruct u as [| |y|]]; try reflexivity; try discriminate.
  - destruct (IL eq_refl) as (k & E). injection E as ->. apply dle_fin in A. apply dle_fin. apply Z.mul_le_mono_nonneg_r; [lia|]. now apply RD.
  - destruct (IU eq_refl) as (k & E). injection E as ->. apply dle_fin in B. apply dle_fin. apply Z.mul_le_mono_nonneg_r; [lia|]. now apply RD.
Qed.
