(** Concrete cases for MOEA/D. *)
From Coq Require Import String List Bool Arith ZArith Lia Permutation.
From Verif Require Import Dbl DblFacts IntDbl Outcome BaseFacts StdSort SpecOrder MultiObj SpecMultiObj SpecDiscrepancy Weights Problem SpecProblem Rng Generic SpecGeneric GenericFacts GenericFacts3 SpecGenetic
  RmFacts GeneticOps GeneticFacts GeneticFacts3 Population SpecPopulation Algo SpecAlgo AlgoFacts AlgoFacts2 AlgSga SpecSga AlgSgaFacts6 AlgPsoFacts4 SgaExamples SpecNsga2 Nsga2Examples CstrsExamples
  AlgMoead SpecMoead AlgMoeadFacts AlgMoeadFacts2 AlgMoeadFacts4 AlgMoeadFacts5 AlgMoeadFacts6.
Import ListNotations.

Definition me_ex := mkmoead 1 WLowDiscrepancy Weighted 2 done dhalf done dhalf 2 true.
Lemma half_unit : within dzero done dhalf. Proof. split; vm_compute; reflexivity. Qed.
Lemma one_unit : within dzero done done. Proof. split; vm_compute; reflexivity. Qed.
Lemma me_made : moead_construct 1 "low discrepancy" "weighted" 2 done dhalf done dhalf 2 true = Ok me_ex.
Proof.
  apply moead_constructor. exists WLowDiscrepancy, Weighted. split; [right; right; now left|]. split; [right; now left|]. split; [right; exact one_unit|]. split; [right; exact half_unit|]. split; [vm_compute; reflexivity|]. split; [right; exact half_unit|]. split; [lia|reflexivity].
Qed.
Definition still (A : Type) (l : list A) (g : nat) : list A * nat := (l, g).
Lemma still_contract : shuffle_contract still. Proof. intros A l g. apply Permutation_refl. Qed.
Definition exact_binom (n k : Z) : dbl := d_of_Z (choose (Z.to_nat n) (Z.to_nat k)).
Lemma exact_binom_ok : binomial_exact exact_binom. Proof. intros n k _. unfold exact_binom. now rewrite !Nat2Z.id. Qed.
Definition flat_halton (n i : nat) : list dbl := repeat dzero (n - 1).
Lemma flat_halton_ok n i : length (flat_halton n i) = n - 1 /\ Forall unit_dbl (flat_halton n i).
Proof. split; [apply repeat_length|]. apply Forall_forall. intros x Hx. apply repeat_spec in Hx. subst x. exists 0%Z. split; [reflexivity|]. pose proof IntDbl.one_z_pos. lia. Qed.
Lemma xy_in x : In x (po_x xy_pop) -> in_box (p_lb xy_problem) (p_ub xy_problem) x.
Proof. intros H. exact (proj1 (xy_tame x H)). Qed.
Lemma xy_size49 : (Z.of_nat (length (po_id xy_pop)) < 2 ^ 49)%Z. Proof. reflexivity. Qed.
Lemma xy_size64 : (Z.of_nat (get_nf xy_problem) * Z.of_nat (length (po_id xy_pop)) <= 2 ^ 64)%Z. Proof. vm_compute. discriminate. Qed.
Lemma one_nonneg : nonneg done. Proof. vm_compute. reflexivity. Qed.
Lemma me_evolves : exists u s', moead_evolve count_rng (@isort) pow_toy still exact_binom flat_halton 3 me_ex (0, xy_pop) = (Ok u, s') /\
  moead_run Weighted 2 true (in_box (p_lb xy_problem) (p_ub xy_problem)) 2 1 xy_pop (snd s').
Proof.
  apply (ends_ex _ _ (fun s' => moead_run Weighted 2 true (in_box (p_lb xy_problem) (p_ub xy_problem)) 2 1 xy_pop (snd s'))).
  eapply ends_weak; [apply (moead_evolve_gen count_rng (@isort) pow_toy still exact_binom flat_halton 3 me_ex count_contract isort_c still_contract exact_binom_ok flat_halton_ok False (in_box (p_lb xy_problem) (p_ub xy_problem)) (0, xy_pop) xy_problem eq_refl xy_valid xy_mo xy_defined)| |].
  - cbn; lia.
  - discriminate.
  - cbn; lia.
  - exact xy_size49.
  - exact xy_size64.
  - intros x (L & _). exact L.
  - apply child_box; [exact count_contract|exact (proj1 xy_valid)|exact xy_dl|exact xy_du|exact count_below|exact xy_moderate|exact half_unit|exact pow_toy_contract|exact one_nonneg|reflexivity].
  - exact xy_in.
  - discriminate.
  - intros nb whole g ND L IB. apply (select_count _ nb ND); [cbn in L |- *; lia|exact IB].
  - intros u s' (_ & H & _). exact H.
  - intros e [He|[_ [H|[H|H]]]]; [apply (xy_no_fail e); now left|cbn in H; lia|discriminate H|discriminate H].
Qed.

(** One point that beats everything takes two places although the limit is 1. *)
Definition me_one := mkmoead 1 WLowDiscrepancy Weighted 2 done dhalf done dhalf 1 true.
Definition all_one : list (list dbl) := repeat [done; done] 8.
Definition zero_xy : list dbl := [Fin 0; Fin 0].
Lemma sum_value a b : (0 <= a < 2 ^ 20)%Z -> (0 <= b < 2 ^ 20)%Z -> decompose_objectives [Fin a; Fin b] [done; done] zero_xy Weighted = Ok [dadd (dadd dzero (Fin a)) (Fin b)].
Proof. intros Ha Hb. unfold decompose_objectives, zero_xy. cbn [List.length Nat.eqb negb throw_if bind dec_weighted]. now rewrite (proj1 (dmul_done_tiny a ltac:(lia))), (proj1 (dmul_done_tiny b ltac:(lia))). Qed.
Lemma all_beaten i : i < length (po_id xy_pop) -> beaten Weighted all_one zero_xy xy_pop zero_xy i.
Proof.
  intros Hi. cbn in Hi. assert (B : forall a b, (0 <= a < 2 ^ 20)%Z -> (0 <= b < 2 ^ 20)%Z -> dlt (dadd (dadd dzero (Fin 0)) (Fin 0)) (dadd (dadd dzero (Fin a)) (Fin b)) = true -> improves Weighted [done; done] zero_xy zero_xy [Fin a; Fin b]).
  { intros a b Ha Hb H. eexists _, _. split; [apply sum_value; lia|]. split; [apply sum_value; assumption|exact H]. }
  exists [done; done], (nth i xy_points []). do 8 (destruct i as [|i]; [split; [reflexivity|]; split; [reflexivity|]; apply B; [lia|lia|vm_compute; reflexivity]|]). lia.
Qed.
Definition two_nb : list (list nat) := repeat [1; 2] 8.
Lemma one_is_two : exists u s', moead_insert still me_one all_one two_nb zero_xy zero_xy zero_xy 0 false (0, xy_pop) = (Ok u, s') /\ exists i, i <> 0 /\ overwrites zero_xy zero_xy [i; 0] xy_pop (snd s').
Proof.
  apply (ends_ex _ _ (fun s' => exists i, i <> 0 /\ overwrites zero_xy zero_xy [i; 0] xy_pop (snd s'))).
  eapply ends_weak; [apply (two_overwritten still still_contract me_one xy_pop all_one zero_xy zero_xy zero_xy two_nb [1; 2] 0 0 xy_valid)|auto|auto].
  - split; [reflexivity|]. intros w Hw. apply repeat_spec in Hw. now subst w.
  - discriminate.
  - cbn; lia.
  - reflexivity.
  - split; [reflexivity|]. split; reflexivity.
  - cbn; lia.
  - reflexivity.
  - cbn; lia.
  - reflexivity.
  - discriminate.
  - intros [H|[H|[]]]; discriminate.
  - intros i [<-|[<-|[]]]; cbn; lia.
  - exact all_beaten.
Qed.
