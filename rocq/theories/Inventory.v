(** The stochastic problem inventory (src/problems/inventory.cpp, include/pagmo/problems/inventory.hpp).
    The engine and std::uniform_real_distribution(0, 1) are parameters. *)
From Coq Require Import List ZArith Bool.
Import ListNotations.
From Verif Require Import Outcome Dbl.

Section M.
Context {G : Type} (eng_seed : Z -> G) (u01 : G -> dbl * G).
(** m_weeks, m_sample_size, m_e, m_seed; inventory.hpp:117-124 *)
Record inventory := mkinventory { i_weeks : nat; i_samples : nat; i_eng : G; i_seed : Z }.
(** The constructor, inventory.hpp:84-87: nothing is checked *)
Definition inventory_ctor (weeks samples : nat) (seed : Z) : inventory := mkinventory weeks samples (eng_seed seed) seed.
(** set_seed, inventory.hpp:96-99: the engine is not touched *)
Definition inventory_set_seed (s : Z) (p : inventory) : inventory := mkinventory (i_weeks p) (i_samples p) (i_eng p) s.
(** c = 1., b = 1.5, h = 0.1, inventory.cpp:59-60; 0.1 is the double nearest to one tenth *)
Definition inv_c : dbl := d_of_Z 1.
Definition inv_b : dbl := ddiv (d_of_Z 3) (d_of_Z 2).
Definition inv_h : dbl := ddiv (d_of_Z 1) (d_of_Z 10).
(** One week, inventory.cpp:66-68; the state is (retval, I, m_e), with I called stock. std::max<double>(a, b) is a < b ? b : a *)
Definition inv_week (x : list dbl) (s : dbl * dbl * G) (j : nat) : outcome (dbl * dbl * G) :=
  let '(retval, stock, e) := s in
  let (u, e') := u01 e in
  let d := dmul u (d_of_Z 100) in
  bind (vget x j) (fun xj =>
  let t := dadd (dadd (dmul inv_c xj) (dmul inv_b (dmax (dsub (dsub d stock) xj) dzero))) (dmul inv_h (dmax (dsub (dadd stock xj) d) dzero)) in
  Ok (dadd retval t, dmax dzero (dsub (dadd stock xj) d), e')).
(** One sample, inventory.cpp:64-69: the inventory is empty at the start *)
Definition inv_sample (x : list dbl) (s : dbl * G) (_ : nat) : outcome (dbl * G) :=
  bind (mfold (inv_week x) (fst s, dzero, snd s) (seq 0 (length x))) (fun r => Ok (fst (fst r), snd r)).
(** fitness, inventory.cpp:52-72: the engine, a mutable member, is seeded at each call *)
Definition inventory_fitness (x : list dbl) (p : inventory) : outcome (list dbl * inventory) :=
  bind (mfold (inv_sample x) (dzero, eng_seed (i_seed p)) (seq 0 (i_samples p))) (fun r =>
  Ok ([ddiv (fst r) (d_of_Z (Z.of_nat (i_samples p)))], mkinventory (i_weeks p) (i_samples p) (snd r) (i_seed p))).
(** get_bounds, inventory.cpp:80-85 *)
Definition inventory_bounds (p : inventory) : list dbl * list dbl := (repeat dzero (i_weeks p), repeat (d_of_Z 200) (i_weeks p)).

(** What a user can do with the object *)
Inductive icall := IFitness (x : list dbl) | ISetSeed (s : Z).
Fixpoint inventory_calls (l : list icall) (p : inventory) : outcome inventory :=
  match l with
  | [] => Ok p
  | IFitness x :: t => bind (inventory_fitness x p) (fun r => inventory_calls t (snd r))
  | ISetSeed s :: t => inventory_calls t (inventory_set_seed s p)
  end.
End M.
