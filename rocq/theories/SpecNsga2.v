(** Vocabulary for NSGA-II. *)
From Coq Require Import List Bool Arith ZArith Permutation.
From Verif Require Import Dbl Outcome Problem SpecOrder SpecMultiObj SpecProblem SpecGeneric SpecGenetic Population SpecAlgo SpecSga.
Import ListNotations.

(** The problems that NSGA-II accepts: deterministic, unconstrained, two or more objectives,
    no lower bound equal to the upper one *)
Definition mo_problem (p : problem) : Prop :=
  u_set_seed (p_udp p) = false /\ get_nc p = 0 /\ 2 <= get_nf p /\
  forall i l u, nth_error (p_lb p) i = Some l -> nth_error (p_ub p) i = Some u -> deq l u = false.
Definition mo_size (n : nat) : Prop := 5 <= n /\ exists k, n = 4 * k.

(** Crowding distances for the tournaments: infinite in fronts of one or two points *)
Definition front_spacing (M : nat) (F : list (list dbl)) (front : list nat) (cd : list dbl) : Prop :=
  (length front <= 2 -> forall i, In i front -> nth_error cd i = Some PInf) /\
  (3 <= length front -> exists cds, crowding_spec (map (fun i => nth i F []) front) M cds /\ forall k i, nth_error front k = Some i -> nth_error cd i = nth_error cds k).

(** From s to s' with the offspring born: the survivors are a best selection of the old
    individuals and of as many newborn ones. *)
Definition mo_step {P} (p : problem) (Box : list dbl -> Prop) (s : pop P) (born : list (list dbl * list dbl)) (s' : pop P) : Prop :=
  po_prob s' = po_prob s /\ po_id s' = po_id s /\ length born = length (individuals s) /\
  (forall i, In i born -> evaluated p (fst i) (snd i) /\ Box (fst i)) /\
  exists sel, best_N_selection (get_nf p) (map snd (individuals s ++ born)) (length (individuals s)) sel /\
    Forall2 (fun b i => nth_error (individuals s ++ born) b = Some i) sel (individuals s').
Inductive mo_generations {P} (p : problem) (Box : list dbl -> Prop) : nat -> pop P -> pop P -> Prop :=
| mo_none s : mo_generations p Box 0 s s
| mo_one n s s1 born s2 : mo_generations p Box n s s1 -> mo_step p Box s1 born s2 -> mo_generations p Box (S n) s s2.

(** The exceptions of the runs: those of the fitness function, and the one for an integer
    variable whose bounds do not fit in 64 bits *)
Definition mo_fails (p : problem) (e : exn) : Prop := fitness_throws p e \/ (e = InvalidArgument /\ ~ ints_fit (p_nix p) (p_lb p) (p_ub p)).

(** Every point can be evaluated. *)
Definition total_fitness (p : problem) : Prop := forall x, length x = get_nx p -> exists f, evaluated p x f.
(** A batch evaluator that does what the problem does, point by point *)
Definition faithful_bfe (ud : problem -> list dbl -> outcome (list dbl)) (p : problem) : Prop :=
  forall X F, Forall2 (evaluated p) X F -> ud p (concat X) = Ok (concat F).
(** Two runs with the same result and, if they end normally, the same final state *)
Definition same_run {S A} (a b : outcome A * S) : Prop := fst a = fst b /\ (forall v, fst a = Ok v -> snd a = snd b).
