(** A colony for the examples. *)
From Coq Require Import List Bool Arith ZArith Lia.
From Verif Require Import Dbl Outcome StdSort Problem SpecProblem Rng SpecGeneric SpecGenetic Population SpecPopulation Algo SpecAlgo SpecNsga2 AlgGaco SpecGaco AlgGacoFacts6 AlgExamples.
Import ListNotations.

(** Two generations, three kernels *)
Definition ga_example (gen ker : nat) (mem : bool) : gaco_params := mkgaco gen ker done dzero (Fin 1) 1 7 100 100 dzero mem.
Definition ants0 : ants := mkants dzero done 0 [] 1 1 1.
Lemma ga_ctor : gaco_ctor (ga_example 2 3 true) = Ok ants0. Proof. vm_compute. reflexivity. Qed.
Lemma ga_ok gen ker mem : 1 <= gen -> 2 <= ker -> gaco_accepts (ga_example gen ker mem).
Proof. intros H K. repeat (split; [vm_compute; reflexivity|]). split; [exact K|]. intros _. split; [apply le_n|intros _; exact H]. Qed.
Lemma alg_colony gen ker mem : ker <= 5 -> colony (ga_example gen ker mem) alg_pop.
Proof. intros K. split; [exact alg_pop_valid|]. split; [discriminate|]. split; [reflexivity|]. split; [reflexivity|exact K]. Qed.
Lemma ga_ready mem : gaco_ready (ga_example 2 3 mem) alg_problem any_point ants0.
Proof. destruct mem; [left; reflexivity|reflexivity]. Qed.
Lemma ga_ready_box mem : gaco_ready (ga_example 2 3 mem) alg_problem (in_box_of alg_problem) ants0.
Proof. destruct mem; [left; reflexivity|reflexivity]. Qed.
Lemma ga_mark : mark_fine (ga_example 2 3 true) ants0. Proof. split; [apply Z.le_refl|discriminate]. Qed.
Lemma ga_going gen ker mem : ~ gaco_stopped (ga_example gen ker mem) ants0.
Proof. intros [(_ & H)|(_ & H)]; exact (H eq_refl). Qed.
(** Population of two, for the call that is refused *)
Definition few : pop (list Z) :=
  {| po_prob := alg_problem; po_fevals := 2; po_id := [1; 2]%Z; po_x := [[Fin 1; Fin 9]; [Fin 2; Fin 2]]; po_f := [[Fin 10]; [Fin 4]]; po_cx := [Fin 2; Fin 2]; po_cf := [Fin 4]; po_rng := [] |}.
