(** Concrete cases for the generational MOEA/D. *)
From Coq Require Import String List Bool Arith ZArith Lia Permutation.
From Verif Require Import Dbl DblFacts IntDbl Outcome BaseFacts StdSort SpecOrder MultiObj SpecMultiObj SpecDiscrepancy Weights Problem SpecProblem Rng Generic SpecGeneric GenericFacts GenericFacts3 SpecGenetic
  RmFacts GeneticOps GeneticFacts GeneticFacts3 Population SpecPopulation Algo SpecAlgo AlgoFacts AlgoFacts2 AlgSga SpecSga AlgSgaFacts6 AlgPsoFacts4 SgaExamples SpecNsga2 Nsga2Examples CstrsExamples
  SpecCmaes AlgMoead SpecMoead AlgMoeadFacts AlgMoeadFacts2 AlgMoeadFacts4 AlgMoeadFacts5 AlgMoeadFacts6 MoeadExamples AlgMoeadGen AlgMoeadGenFacts2 AlgMoeadGenFacts3.
Import ListNotations.

Lemma xy_evaluates : evaluates (Some xy_bfe) xy_problem. Proof. exact (conj xy_total xy_faithful). Qed.
Lemma mgen_evolves : exists u s', mgen_evolve count_rng (@isort) pow_toy still exact_binom flat_halton 3 me_ex (Some xy_bfe) (0, xy_pop) = (Ok u, s') /\
  moead_run Weighted 2 true (in_box (p_lb xy_problem) (p_ub xy_problem)) 2 1 xy_pop (snd s').
Proof.
  apply (ends_ex _ _ (fun s' => moead_run Weighted 2 true (in_box (p_lb xy_problem) (p_ub xy_problem)) 2 1 xy_pop (snd s'))).
  eapply ends_weak; [apply (mgen_evolve_gen count_rng (@isort) pow_toy still exact_binom flat_halton 3 me_ex count_contract isort_c still_contract exact_binom_ok flat_halton_ok (Some xy_bfe) False (in_box (p_lb xy_problem) (p_ub xy_problem)) (0, xy_pop) xy_problem eq_refl xy_valid xy_mo xy_evaluates)| |].
  - cbn; lia.
  - discriminate.
  - cbn; lia.
  - exact xy_size49.
  - exact xy_size64.
  - intros x (L & _). exact L.
  - apply child_box; [exact count_contract|exact (proj1 xy_valid)|exact xy_dl|exact xy_du|exact count_below|exact xy_moderate|exact half_unit|exact pow_toy_contract|exact one_nonneg|reflexivity].
  - exact xy_in.
  - discriminate.
  - intros nb whole g ND L IB. apply (select_count _ nb ND); [cbn in L |- *; lia|exact IB].
  - intros u s' (_ & H & _). exact H.
  - intros e [He|[_ [H|[H|H]]]]; [apply (xy_no_fail e); now left|cbn in H; lia|discriminate H|discriminate H].
Qed.
