(** C87: inventory, a stochastic problem. *)
From Coq Require Import List ZArith Bool.
Import ListNotations.
From Verif Require Import Outcome Dbl DblFacts Inventory SpecInventory InventoryFacts InventoryExamples.

(** After any calls of fitness and set_seed, the fitness of x is the mean cost of x over the
    scenarios of the seed last set: nothing else in the history matters *)
Theorem C87_history : forall (G : Type) (eng_seed : Z -> G) (u01 : G -> dbl * G) (weeks samples : nat) (seed : Z) (l : list icall) (x : list dbl),
  exists p p', inventory_calls eng_seed u01 l (inventory_ctor eng_seed weeks samples seed) = Ok p
  /\ inventory_fitness eng_seed u01 x p = Ok ([mean_cost eng_seed u01 samples (seed_after l seed) x], p').
Proof. exact @inventory_history. Qed.
Print Assumptions C87_history.
Example C87_history_ex : bind (inventory_calls iv_seed iv_u [IFitness [d_of_Z 3]; ISetSeed 1%Z; IFitness [d_of_Z 3]] (inventory_ctor iv_seed 2 2 7%Z))
   (fun p => bind (inventory_fitness iv_seed iv_u iv_x p) (fun r => Ok (fst r)))
  = bind (inventory_fitness iv_seed iv_u iv_x (inventory_ctor iv_seed 2 2 1%Z)) (fun r => Ok (fst r))
  /\ mean_cost iv_seed iv_u 2 1%Z iv_x = ddiv (dadd (dadd (dadd (dadd (d_of_Z 50) (dmul inv_h (d_of_Z 25))) (dadd (d_of_Z 20) (dmul inv_b (d_of_Z 5))))
        (dadd (d_of_Z 50) (dmul inv_b (d_of_Z 25)))) (dadd (d_of_Z 20) (dmul inv_h (d_of_Z 20)))) (d_of_Z 2).
Proof. split; vm_compute; reflexivity. Qed.

(** Within the bounds the cost is a number, and not negative *)
Theorem C87_nonneg : forall (G : Type) (eng_seed : Z -> G) (u01 : G -> dbl * G), unit_numbers u01 ->
  forall (samples : nat) (seed : Z) (x : list dbl), 0 < samples -> (Z.of_nat samples < 2 ^ 32)%Z -> in_range x ->
  dle dzero (mean_cost eng_seed u01 samples seed x) = true.
Proof. exact @mean_nonneg. Qed.
Print Assumptions C87_nonneg.
Example C87_nonneg_ex : unit_numbers iv_u /\ in_range iv_x.
Proof. split; [exact iv_unit|exact iv_range]. Qed.

(** Without samples, which the constructor accepts, it is never a number *)
Theorem C87_no_samples_refuted : forall (G : Type) (eng_seed : Z -> G) (u01 : G -> dbl * G) (weeks : nat) (seed : Z) (l : list icall) (x : list dbl),
  exists p p', inventory_calls eng_seed u01 l (inventory_ctor eng_seed weeks 0 seed) = Ok p /\ inventory_fitness eng_seed u01 x p = Ok ([NaN], p').
Proof.
  exact (fun G es u w s l x => match @inventory_history G es u w 0 s l x with
    | ex_intro _ p (ex_intro _ e (conj H1 H2)) => ex_intro _ p (ex_intro _ e (conj H1 (eq_trans H2 (f_equal (fun v => Ok ([v], e)) (mean_no_samples es u (seed_after l s) x))))) end).
Qed.
Print Assumptions C87_no_samples_refuted.
Example C87_no_samples_ex : bind (inventory_fitness iv_seed iv_u iv_x (inventory_ctor iv_seed 2 0 1%Z)) (fun r => Ok (fst r)) = Ok [NaN].
Proof. vm_compute. reflexivity. Qed.
