(** Vocabulary for the genetic algorithm. *)
From Coq Require Import String List Bool Arith ZArith Permutation.
From Verif Require Import Dbl Outcome Problem Rng SpecOrder SpecProblem SpecGeneric SpecGenetic Population SpecAlgo AlgSga.
Import ListNotations.

(** What the standard promises of std::shuffle and std::binomial_distribution *)
Definition shuffle_contract {G} (shuf : forall A, list A -> G -> list A * G) : Prop := forall A l g, Permutation l (fst (shuf A l g)).
Definition binomial_contract {G} (binom : nat -> dbl -> G -> nat * G) : Prop := forall n p g, dle dzero p = true -> dle p done = true -> fst (binom n p g) <= n.
(** Normal draws are numbers. *)
Definition finite_normals {G} (r : rng G) : Prop := forall g, isfinite (fst (g_norm r dzero done g)) = true.

(** A whole number that an int can hold *)
Definition fits_int (x : dbl) : Prop := exists k, x = Fin (k * one_z) /\ (- 2 ^ 31 <= k < 2 ^ 31)%Z.
(** The bounds of the integer variables fit in an int. *)
Definition int_bounds (p : problem) : Prop :=
  forall i l u, length (p_lb p) - p_nix p <= i -> nth_error (p_lb p) i = Some l -> nth_error (p_ub p) i = Some u -> fits_int l /\ fits_int u.

(** ** Selection *)
Definition value (F : list (list dbl)) (i : nat) : dbl := obj (nth i F []).
(** w wins against ps - 1 others: none of the group has a smaller value. *)
Definition wins (F : list (list dbl)) (ps w : nat) : Prop :=
  exists T, NoDup T /\ length T = ps /\ (forall t, In t T -> t < length F) /\ In w T /\ forall t, In t T -> dlt (value F t) (value F w) = false.
(** T are ps best individuals. *)
Definition best_group (F : list (list dbl)) (ps : nat) (T : list nat) : Prop :=
  NoDup T /\ length T = ps /\ (forall t, In t T -> t < length F) /\ forall t u, In t T -> u < length F -> ~ In u T -> not_worse (value F t) (value F u).

(** ** Crossover: child c of a with partner b *)
Definition crossed (kind : sga_crossover) (c a b : list dbl) : Prop :=
  let dim := length a in length c = dim /\
  match kind with
  | Exponential => exists n L, n < dim /\ 1 <= L <= dim /\ forall j, j < dim -> (in_run dim n L j -> nth_error c j = nth_error b j) /\ (~ in_run dim n L j -> nth_error c j = nth_error a j)
  | Binomial => (forall j, j < dim -> nth_error c j = nth_error a j \/ nth_error c j = nth_error b j) /\ exists j, j < dim /\ nth_error c j = nth_error b j
  | Single => c = a \/ exists n, n < dim /\ c = firstn n a ++ skipn n b
  | SBX => False
  end.

(** ** Survival *)
Definition individuals {P} (s : pop P) : list (list dbl * list dbl) := combine (po_x s) (po_f s).
Definition fit (i : list dbl * list dbl) : dbl := obj (snd i).
(** s' are the best of s and as many newborn ones, best first. *)
Definition elitist {P} (p : problem) (Box : list dbl -> Prop) (s s' : pop P) : Prop :=
  po_prob s' = po_prob s /\ po_id s' = po_id s /\ length (individuals s') = length (individuals s) /\
  exists born dead, length born = length (individuals s) /\
    (forall i, In i born -> evaluated p (fst i) (snd i) /\ Box (fst i)) /\
    Permutation (born ++ individuals s) (individuals s' ++ dead) /\
    (forall i j, In i (individuals s') -> In j dead -> not_worse (fit i) (fit j)) /\
    (forall k l i j, k < l -> nth_error (individuals s') k = Some i -> nth_error (individuals s') l = Some j -> not_worse (fit i) (fit j)).
Inductive generations {P} (p : problem) (Box : list dbl -> Prop) : nat -> pop P -> pop P -> Prop :=
| gen_none s : generations p Box 0 s s
| gen_one n s s1 s2 : generations p Box n s s1 -> elitist p Box s1 s2 -> generations p Box (S n) s s2.
(** s has at least k individuals not worse than v. *)
Definition has_good {P} (s : pop P) (v : dbl) (k : nat) : Prop :=
  exists T, NoDup T /\ length T = k /\ forall i, In i T -> exists q, nth_error (individuals s) i = Some q /\ not_worse (fit q) v.

(** ** Conditions *)
(** What the selected parents sel are *)
Definition selected (a : sga_params) (F : list (list dbl)) (sel : list nat) : Prop := length sel = length F /\ (forall k, In k sel -> k < length F) /\
  match sg_sel a with
  | Tournament => forall k, In k sel -> wins F (sg_ps a) k
  | Truncated => exists T, best_group F (sg_ps a) T /\ forall k, In k sel <-> In k T
  end.
(** n individuals suffice and the mutation probability is one. *)
Definition ready (a : sga_params) (n : nat) : Prop := 2 <= n /\ 1 <= sg_ps a <= n /\ (sg_cross a = SBX -> Nat.even n = true) /\ dle dzero (sg_m a) = true /\ dle (sg_m a) done = true.
(** Integer genes are drawn as int, except by the gaussian mutation. *)
Definition draws_ok (a : sga_params) (p : problem) : Prop := match sg_mut a with Gaussian => True | _ => int_bounds p end.
(** The mutation parameter is what the constructor accepts, and not NaN. *)
Definition sane_mutation (a : sga_params) : Prop := match sg_mut a with Polynomial => within done dhundred (sg_pm a) | _ => within dzero done (sg_pm a) end.
Definition moderate_bounds (p : problem) : Prop := (forall l, In l (p_lb p) -> moderate l) /\ (forall u, In u (p_ub p) -> moderate u).
(** In the box, with integers where integers belong *)
Definition tame (p : problem) (x : list dbl) : Prop := in_box (p_lb p) (p_ub p) x /\ integral_tail (p_nix p) x.
(** Every gene of c is that of x or that of y at the same place. *)
Definition genes_of (c x y : list dbl) : Prop := length c = length x /\ forall j, j < length x -> nth_error c j = nth_error x j \/ nth_error c j = nth_error y j.
(** ** The constructor *)
(** NaN or between l and u *)
Definition not_outside (l u x : dbl) : Prop := x = NaN \/ within l u x.
Definition crossover_names : list (String.string * sga_crossover) := [("exponential", Exponential); ("binomial", Binomial); ("single", Single); ("sbx", SBX)]%string.
Definition mutation_names : list (String.string * sga_mutation) := [("gaussian", Gaussian); ("uniform", Uniform); ("polynomial", Polynomial)]%string.
Definition selection_names : list (String.string * sga_selection) := [("tournament", Tournament); ("truncated", Truncated)]%string.
