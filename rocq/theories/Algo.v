(** What the algorithms' evolve() methods (src/algorithms/) are written in: computations on
    the algorithm's own random engine m_e and on the population passed by value, which may
    throw. [G] is the type of the engine of the algorithm, [P] that of the population. An
    algorithm returns the population in its final state; when it throws, the copy it worked
    on is lost. Logging, screen output and memory exhaustion are left out everywhere. *)
From Coq Require Import List Bool Arith ZArith.
From Verif Require Import Dbl Outcome Problem Rng Population.
Import ListNotations.

Section Algo.
Context {G P : Type}.
Definition AM (A : Type) := RM (G * pop P) A.
(** A draw, or a computation with draws, on m_e. *)
Definition eng {A} (m : RM G A) : AM A := fun s => let (o, g) := m (fst s) in (o, (g, snd s)).
(** The population as it is now: get_x, get_f, get_ID, size, get_problem, ... *)
Definition getp : AM (pop P) := fun s => (Ok (snd s), s).
(** pop.get_problem().fitness(x), problem.cpp:353-379: increments the counter of the
    problem inside the population. *)
Definition peval (x : list dbl) : AM (list dbl) := fun s =>
  let (o, c) := fitness (po_prob (snd s)) (po_fevals (snd s)) x in (o, (fst s, with_fevals (snd s) c)).
(** pop.set_xf(i, x, f), population.cpp:490-519 *)
Definition pset (i : nat) (x f : list dbl) : AM unit := fun s =>
  let (p, o) := set_xf (snd s) i x f in (o, (fst s, p)).
End Algo.
