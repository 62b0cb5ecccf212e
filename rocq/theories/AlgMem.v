(** Algorithms with mutable members: the members are part of the state, next to the engine m_e,
    and keep what they have when an exception is thrown. *)
From Coq Require Import List Bool Arith ZArith.
From Verif Require Import Dbl Outcome Problem Rng Generic GeneticOps Population Algo AlgNsga2.
Import ListNotations.
Local Open Scope rm_scope.

Section M.
Context {G P M : Type}.
Definition MM (A : Type) := AM (G := G * M) (P := P) A.
Definition mdraws {A} (m : RM G A) : MM A := fun s => let (o, g) := m (fst (fst s)) in (o, ((g, snd (fst s)), snd s)).
Definition getm : MM M := fun s => (Ok (snd (fst s)), s).
Definition setm (k : M) : MM unit := fun s => (Ok tt, ((fst (fst s), k), snd s)).
(** pop.get_problem().set_seed(k) *)
Definition mset_problem (p : problem) : MM unit := fun s =>
  (Ok tt, (fst s, {| po_prob := p; po_fevals := po_fevals (snd s); po_id := po_id (snd s); po_x := po_x (snd s); po_f := po_f (snd s);
                     po_cx := po_cx (snd s); po_cf := po_cf (snd s); po_rng := po_rng (snd s) |})).
(** set_x(i, new[i]) for all i; or, with a batch evaluator, first the evaluation of all and then
    set_xf(i, new[i], f): cmaes.cpp:318-347 *)
Definition set_all (bfe : option (problem -> list dbl -> outcome (list dbl))) (new : list (list dbl)) : MM unit :=
  s <- getp ;;
  match bfe with
  | None => rfold (fun _ i => x <- rlift (vget new i) ;; f <- peval x ;; pset i x f) tt (seq 0 (length (po_id s)))
  | Some ud =>
      fs <- nsga2_call ud (concat new) ;;
      rfold (fun _ i => x <- rlift (vget new i) ;; f <- rlift (sub_vector fs (i * get_nf (po_prob s)) (get_nf (po_prob s))) ;; pset i x f) tt (seq 0 (length (po_id s)))
  end.
End M.
