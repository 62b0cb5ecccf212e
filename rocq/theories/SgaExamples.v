(** Concrete cases for the genetic algorithm. *)
From Coq Require Import String List Bool Arith ZArith Lia Permutation.
From Verif Require Import Dbl DblFacts IntDbl Outcome BaseFacts StdSort SpecOrder Problem SpecProblem ProblemFacts Rng Generic SpecGeneric GenericFacts GenericFacts3 SpecGenetic
  GeneticOps GeneticFacts GeneticFacts3 Population SpecPopulation PopulationFacts Algo SpecAlgo AlgoFacts AlgoFacts2 AlgSga SpecSga AlgSgaFacts3 AlgSgaFacts6 AlgPsoFacts4 AlgSaFacts2 AlgExamples.
Import ListNotations.

Definition zero_pow (_ _ : dbl) : dbl := dzero.
Definition no_reseed (p : problem) (_ : Z) : problem := p.
Definition sga_ex := sga_example Exponential Uniform Tournament.
Lemma isort_c : sort_contract (@isort). Proof. exact isort_contract. Qed.
Lemma ex_ready : ready sga_ex 5.
Proof. split; [lia|]. split; [cbn; lia|]. split; [discriminate|]. split; reflexivity. Qed.
Lemma ex_draws : draws_ok sga_ex alg_problem.
Proof. intros i l u Hi Nl _. exfalso. assert (i < length (p_lb alg_problem)) by (apply nth_error_Some; congruence). cbn in Hi, H. lia. Qed.
Lemma ex_evolves : exists u s', @sga_evolve (list Z) (list Z) stream_rng (@isort) zero_pow no_reseed no_shuffle one_gene sga_ex ([], alg_pop) = (Ok u, s') /\
  generations alg_problem (in_box_or_nan (p_lb alg_problem) (p_ub alg_problem)) 1 alg_pop (snd s').
Proof.
  apply (ends_ex _ _ (fun s' => generations alg_problem (in_box_or_nan (p_lb alg_problem) (p_ub alg_problem)) 1 alg_pop (snd s'))).
  eapply ends_weak; [apply (sga_evolve_any stream_rng stream_contract (@isort) isort_c zero_pow no_reseed no_shuffle no_shuffle_contract one_gene one_gene_contract sga_ex ([], alg_pop) alg_problem eq_refl alg_pop_valid alg_problem_plain alg_problem_defined ex_draws ex_ready)| |].
  - intros u s' (_ & H & _). exact H.
  - intros e He. exact (alg_problem_no_fail e He).
Qed.
Definition sga_ex2 := sga_example SBX Polynomial Truncated.
Lemma ex2_ready : ready sga_ex2 2.
Proof. split; [lia|]. split; [cbn; lia|]. split; [reflexivity|]. split; reflexivity. Qed.
Lemma ex2_sane : sane_mutation sga_ex2. Proof. exact one_hundred. Qed.
Lemma ex2_draws : draws_ok sga_ex2 alg_problem.
Proof. exact ex_draws. Qed.
Lemma two_pop_tame x : In x (po_x two_pop) -> tame alg_problem x.
Proof.
  intros H. split; [destruct H as [<-|[<-|[]]]; (split; [reflexivity|]; split; [reflexivity|]; intros [|[|i]] l u v; cbn; intros E1 E2 E3; try (destruct i; discriminate); injection E1 as <-; injection E2 as <-; injection E3 as <-; split; reflexivity)|].
  intros i v Hi Nv. cbn [alg_problem p_nix] in Hi. assert (i < length x) by (apply nth_error_Some; congruence). lia.
Qed.
(** An integer variable in 0..2^31 *)
Definition long_udp : udp := {| u_fitness := fun x => Ok [Fin 0]; u_lb := [dint 0]; u_ub := [dint (2 ^ 31)]; u_nobj := 1; u_nec := 0; u_nic := 0; u_nix := 1;
     u_batch := None; u_gradient := None; u_gs := None; u_hessians := None; u_hs := None; u_set_seed := false; u_ts := TSbasic |}.
Definition long_problem : problem := {| p_udp := long_udp; p_lb := [dint 0]; p_ub := [dint (2 ^ 31)]; p_nobj := 1; p_nec := 0; p_nic := 0; p_nix := 1; p_ctol := []; p_gs_dim := 1; p_hs_dim := [1]%Z |}.
Lemma long_made : construct long_udp = Ok long_problem. Proof. vm_compute. reflexivity. Qed.
Definition long_pop : pop (list Z) := {| po_prob := long_problem; po_fevals := 2; po_id := [7; 8]%Z; po_x := [[dint 0]; [dint 1]]; po_f := [[Fin 0]; [Fin 0]]; po_cx := [dint 0]; po_cf := [Fin 0]; po_rng := [] |}.
Lemma long_valid : valid_pop long_pop.
Proof.
  split; [exact (obj_new _ _ long_made)|]. split; [|right; split; reflexivity]. split; [reflexivity|]. split; [reflexivity|].
  split; [intros x [<-|[<-|[]]]; reflexivity|]. split; [intros x [<-|[<-|[]]]; reflexivity|]. intros i [<-|[<-|[]]]; lia.
Qed.
Lemma long_drawable : drawable long_problem.
Proof. intros [|[|i]] l u El Eu; try discriminate. injection El as <-. injection Eu as <-. split; [reflexivity|]. split; [reflexivity|]. rewrite dsub_int by reflexivity. reflexivity. Qed.
Lemma long_unfit : ~ (fits_int (dint 0) /\ fits_int (dint (2 ^ 31))).
Proof.
  intros [_ (k & E & H)]. unfold dint in E.
  assert (E' : (2 ^ 31 * one_z = k * one_z)%Z) by exact (f_equal (fun d => match d with Fin z => z | _ => 0%Z end) E).
  pose proof one_z_pos as P. apply Z.mul_reg_r in E'; [|lia]. rewrite <- E' in H. destruct H as [_ H]. exact (Z.lt_irrefl _ H).
Qed.
(** A NaN parent wins its tournaments *)
Lemma nan_wins : exists g, fst (sga_select stream_rng (@isort) sga_ex [[NaN]; [Fin 1]] g) = Ok [0; 0] /\ better (Fin 1) NaN.
Proof. exists [0; 1; 0; 1]%Z. split; [vm_compute; reflexivity|exact I]. Qed.
Lemma cross_example : exists g, fst (sga_cross stream_rng zero_pow no_shuffle sga_ex [[Fin 1; Fin 2]; [Fin 3; Fin 4]; [Fin 5; Fin 6]] [] [] 0 g) = Ok [[Fin 3; Fin 2]; [Fin 3; Fin 2]; [Fin 5; Fin 2]].
Proof. exists [1; 0; 1; 1; 1; 1; 1; 1; 1]%Z. vm_compute. reflexivity. Qed.
Definition nan_params := mksga 1 done done NaN done 2 Exponential Uniform Tournament.
Lemma nan_made : sga_construct 1 done done NaN done 2 "exponential" "uniform" "tournament" = Ok nan_params.
Proof.
  apply sga_constructor. exact (conj eq_refl (conj eq_refl (conj eq_refl (conj eq_refl (conj eq_refl (conj eq_refl (conj (or_introl eq_refl) (conj (or_intror (or_introl eq_refl)) (conj (or_introl eq_refl) (conj unit_ok (conj (or_intror one_hundred) (conj (or_introl eq_refl) (conj (le_S 1 1 (le_n 1)) unit_ok))))))))))))).
Qed.
Lemma five_individuals : 2 <= length (po_id alg_pop) /\ 1 <= 2 <= length (po_id alg_pop). Proof. cbn. lia. Qed.
Lemma two_individuals : 2 <= length (po_id long_pop) /\ 1 <= 2 <= length (po_id long_pop). Proof. cbn. lia. Qed.
Lemma ex2_evolves : exists u s', @sga_evolve (list Z) (list Z) calm_rng (@isort) pow_toy no_reseed no_shuffle one_gene sga_ex2 ([], two_pop) = (Ok u, s') /\
  forall x, In x (po_x (snd s')) -> tame alg_problem x.
Proof.
  apply (ends_ex _ _ (fun s' => forall x, In x (po_x (snd s')) -> tame alg_problem x)).
  eapply ends_weak; [apply (sga_evolve_tame calm_rng calm_contract (@isort) isort_c pow_toy no_reseed no_shuffle no_shuffle_contract one_gene one_gene_contract sga_ex2 ([], two_pop) alg_problem pow_toy_contract calm_normals eq_refl two_pop_valid alg_problem_plain alg_problem_defined ex2_draws ex2_ready alg_moderate ex2_sane one_hundred two_pop_tame)| |].
  - intros u s' (_ & _ & H & _). exact H.
  - intros e He. exact (alg_problem_no_fail e He).
Qed.
Lemma two_good : has_good two_pop (Fin 1) 1.
Proof.
  exists [0]. split; [repeat constructor; intros []|]. split; [reflexivity|].
  intros i [<-|[]]. eexists. split; [reflexivity|]. intros H. discriminate H.
Qed.
Lemma long_plain : plain_single long_problem. Proof. repeat split. Qed.
Lemma sbx_example p1 p2 : In p1 (po_x two_pop) -> In p2 (po_x two_pop) ->
  always (sbx_crossover_impl stream_rng pow_toy p1 p2 (p_lb alg_problem) (p_ub alg_problem) 0 (sg_cr sga_ex2) (sg_eta sga_ex2)) (fun cs => tame alg_problem (fst cs) /\ tame alg_problem (snd cs)) never.
Proof.
  intros H1 H2. exact (sbx_tame stream_rng stream_contract pow_toy sga_ex2 pow_toy_contract alg_problem p1 p2 alg_problem_obj alg_moderate one_hundred (two_pop_tame _ H1) (two_pop_tame _ H2)).
Qed.
