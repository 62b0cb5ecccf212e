(** Concrete cases for NSGA-II. *)
From Coq Require Import List Bool Arith ZArith Lia Permutation.
From Verif Require Import Dbl DblFacts IntDbl Outcome BaseFacts StdSort SpecOrder MultiObj SpecMultiObj Problem SpecProblem ProblemFacts Rng Generic SpecGeneric GenericFacts GenericFacts3 SpecGenetic
  GeneticOps GeneticFacts GeneticFacts3 Population SpecPopulation PopulationFacts Algo SpecAlgo AlgoFacts AlgoFacts2 AlgSga SpecSga AlgSgaFacts3 AlgSgaFacts4 AlgSgaFacts6 AlgPsoFacts4 AlgSaFacts2 AlgExamples AlgIhsFacts2 SgaExamples
  AlgNsga2 SpecNsga2 AlgNsga2Facts3 AlgNsga2Facts4 AlgNsga2Facts5.
Import ListNotations.

(** The two objectives are the two coordinates. *)
Definition xy_fit (x : list dbl) : outcome (list dbl) := Ok x.
Definition xy_problem := bi_problem xy_fit.
Definition xy_points : list (list dbl) := [[Fin 0; Fin 9]; [Fin 9; Fin 0]; [Fin 4; Fin 4]; [Fin 5; Fin 5]; [Fin 2; Fin 7]; [Fin 3; Fin 7]; [Fin 8; Fin 8]; [Fin 7; Fin 1]].
Definition xy_pop : pop (list Z) :=
  {| po_prob := xy_problem; po_fevals := 8; po_id := [1; 2; 3; 4; 5; 6; 7; 8]%Z; po_x := xy_points; po_f := xy_points; po_cx := []; po_cf := []; po_rng := [] |}.
Lemma xy_len x : In x xy_points -> length x = 2.
Proof. intros H. repeat (destruct H as [<-|H]; [reflexivity|]). contradiction. Qed.
Lemma xy_valid : valid_pop xy_pop.
Proof.
  split; [exact (obj_new _ _ (bi_problem_gen xy_fit))|]. split; [|left; split; reflexivity]. split; [reflexivity|]. split; [reflexivity|].
  split; [exact xy_len|]. split; [exact xy_len|]. intros i H. repeat (destruct H as [<-|H]; [lia|]). contradiction.
Qed.
Lemma xy_mo : mo_problem xy_problem.
Proof. split; [reflexivity|]. split; [reflexivity|]. split; [cbn; lia|]. intros [|[|[|i]]] l u; cbn; intros E1 E2; try discriminate; injection E1 as <-; injection E2 as <-; reflexivity. Qed.
Lemma xy_size : mo_size (length (po_id xy_pop)). Proof. split; [cbn; lia|]. exists 2. reflexivity. Qed.
Lemma xy_defined : fitness_defined xy_problem. Proof. intros x _. split; discriminate. Qed.
Lemma xy_total : total_fitness xy_problem.
Proof. intros x L. exists x. split; [exact L|]. split; [exact L|reflexivity]. Qed.
Lemma small_double k : (0 <= k < 2 ^ 53)%Z -> is_double (Fin k).
Proof. intros Hk. assert (2 ^ 53 < ovf_z)%Z by (unfold ovf_z; apply Z.pow_lt_mono_r; lia). exists k, 0%Z. rewrite Z.pow_0_r. repeat split; lia. Qed.
Lemma xy_dl : Forall is_double (p_lb xy_problem). Proof. repeat (apply Forall_cons; [apply small_double; lia|]). apply Forall_nil. Qed.
Lemma xy_du : Forall is_double (p_ub xy_problem). Proof. repeat (apply Forall_cons; [apply small_double; lia|]). apply Forall_nil. Qed.
Lemma xy_no_fail e : ~ mo_fails xy_problem e.
Proof.
  intros [(x & L & H)|[_ H]].
  - destruct x as [|a [|b [|c x]]]; try discriminate L. unfold fitness in H. cbn [xy_problem bi_problem p_udp box_udp u_fitness xy_fit] in H. vm_compute in H. discriminate H.
  - apply H. intros i l u Hi Nl _. assert (K : i < 2) by (change 2 with (length (p_lb xy_problem)); apply nth_error_Some; congruence). cbn in Hi. lia.
Qed.
Lemma xy_moderate : moderate_bounds xy_problem.
Proof. split; intros x [<-|[<-|[]]]; eexists; (split; [reflexivity|]); vm_compute; discriminate. Qed.
Lemma xy_tame x : In x (po_x xy_pop) -> tame xy_problem x.
Proof.
  intros H. pose proof (xy_len x H) as L. split; [|intros i v Hi Nv; cbn [xy_problem bi_problem p_nix] in Hi; assert (i < length x) by (apply nth_error_Some; congruence); lia].
  split; [exact L|]. split; [exact L|]. repeat (destruct H as [<-|H]; [intros [|[|[|i]]] l u v; cbn; intros E1 E2 E3; try discriminate; injection E1 as <-; injection E2 as <-; injection E3 as <-; split; reflexivity|]). contradiction.
Qed.
Definition xy_params := mknsga2 1 dhalf done dhalf done.
Lemma xy_made : nsga2_construct 1 dhalf done dhalf done = Ok xy_params.
Proof.
  apply nsga2_constructor. split; [reflexivity|]. split; [right; split; vm_compute; reflexivity|]. split; [right; exact one_hundred|]. split; [right; split; vm_compute; reflexivity|right; exact one_hundred].
Qed.
Lemma xy_evolves : exists u s', nsga2_evolve stream_rng (@isort) pow_toy no_shuffle xy_params None ([], xy_pop) = (Ok u, s') /\ mo_generations xy_problem (tame xy_problem) 1 xy_pop (snd s').
Proof.
  apply (ends_ex _ _ (fun s' => mo_generations xy_problem (tame xy_problem) 1 xy_pop (snd s'))).
  eapply ends_weak; [apply (nsga2_evolve_tame stream_rng stream_contract (@isort) isort_c pow_toy no_shuffle no_shuffle_contract xy_params ([], xy_pop) xy_problem pow_toy_contract eq_refl xy_valid xy_mo xy_defined xy_size xy_dl xy_du xy_moderate one_hundred one_hundred xy_tame)| |].
  - intros u s' (_ & H & _). exact H.
  - intros e He. exact (xy_no_fail e He).
Qed.
Lemma xy_evolves_any : exists u s', nsga2_evolve stream_rng (@isort) zero_pow no_shuffle xy_params None ([], xy_pop) = (Ok u, s') /\ exists H, mo_generations xy_problem (mo_box xy_problem H) 1 xy_pop (snd s').
Proof.
  apply (ends_ex _ _ (fun s' => exists H, mo_generations xy_problem (mo_box xy_problem H) 1 xy_pop (snd s'))).
  eapply ends_weak; [apply (nsga2_evolve_any stream_rng stream_contract (@isort) isort_c zero_pow no_shuffle no_shuffle_contract xy_params ([], xy_pop) xy_problem eq_refl xy_valid xy_mo xy_defined xy_size xy_dl xy_du)| |].
  - intros u s' (_ & H & _). eexists. exact H.
  - intros e He. exact (xy_no_fail e He).
Qed.
Definition xy_bfe (p : problem) (xs : list dbl) : outcome (list dbl) := Ok xs.
Lemma xy_faithful : faithful_bfe xy_bfe xy_problem.
Proof.
  intros X F H. unfold xy_bfe. f_equal. f_equal. induction H as [|x f X F (_ & _ & E) _ IH]; [reflexivity|]. f_equal; [|exact IH]. exact (f_equal (fun o => match o with Ok v => v | _ => [] end) E).
Qed.
Lemma xy_ranks : exists t, fast_non_dominated_sorting xy_points = Ok t /\ fr_rank t = [0; 0; 0; 1; 0; 1; 2; 0].
Proof. eexists. split; vm_compute; reflexivity. Qed.
Lemma xy_uniform : uniform xy_points 2. Proof. exact xy_len. Qed.
Lemma xy_step : exists born s', mo_step xy_problem (tame xy_problem) xy_pop born s'.
Proof.
  destruct xy_evolves as (u & s' & _ & H). inversion H as [|n s1 s2 born s3 H1 H2]. inversion H1. subst. exists born, (snd s'). exact H2.
Qed.
Lemma sizes : ~ mo_size 4 /\ ~ mo_size 10.
Proof. split; [intros [H _]; lia|intros [_ [k H]]; lia]. Qed.
