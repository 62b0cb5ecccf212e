(** The base class of the algorithms that optimise one individual of the population,
    src/algorithms/not_population_based.cpp. *)
From Coq Require Import String List Bool Arith ZArith.
From Verif Require Import Dbl Outcome StdSort Problem Rng Generic GeneticOps Population Algo.
Import ListNotations.
Local Open Scope rm_scope.
Local Open Scope nat_scope.

(** m_select and m_replace: one of three strings, or an index *)
Inductive policy := PBest | PWorst | PRandom | PIndex (i : nat).
(** set_selection and set_replacement with a string, not_population_based.cpp:88-96 and
    130-138; the overloads with an index, not_population_based.hpp:71-74 and 86-89, store it. *)
Definition policy_of_string (t : string) : outcome policy :=
  if String.eqb t "best" then Ok PBest else if String.eqb t "worst" then Ok PWorst else if String.eqb t "random" then Ok PRandom
  else Throw InvalidArgument.

Section NotPop.
Context {G P : Type} (r : rng G) (srt : sorter).
(** The index that a policy gives, not_population_based.cpp:180-205 and 234-257; [r] is the
    engine of the base class. best_idx is called twice in a row there, which is the same. *)
Definition pick (pol : policy) : AM (P := P) nat :=
  s <- getp ;;
  match pol with
  | PBest => rlift (best_idx srt s)
  | PWorst => rlift (worst_idx srt s)
  | PRandom => k <- eng (draw_int r 0 (Z.of_nat (length (po_id s)) - 1)) ;; rret (Z.to_nat k)
  | PIndex i => if Nat.leb (length (po_id s)) i then rlift (Throw InvalidArgument) else rret i
  end.
(** select_individual, not_population_based.cpp:178-207 *)
Definition select_individual (pol : policy) : AM (P := P) (list dbl * list dbl) :=
  i <- pick pol ;; s <- getp ;; x <- rlift (vget (po_x s) i) ;; f <- rlift (vget (po_f s) i) ;; rret (x, f).
(** replace_individual, not_population_based.cpp:232-254 *)
Definition replace_individual (pol : policy) (x f : list dbl) : AM (P := P) unit :=
  i <- pick pol ;; pset i x f.
End NotPop.
