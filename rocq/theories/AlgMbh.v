(** Monotonic basin hopping, src/algorithms/mbh.cpp. *)
From Coq Require Import List Bool Arith ZArith.
From Verif Require Import Dbl Outcome StdSort Problem Rng Generic GeneticOps Constrained Population Algo.
Import ListNotations.
Local Open Scope rm_scope.

(** The constructors' checks: a scalar, mbh.cpp:73-79 (stored as a vector of size one,
    mbh.hpp:117-124), a vector, mbh.cpp:81-88 *)
Definition mbh_construct_scalar (c : dbl) : outcome unit := throw_if (isnan c || dgt c done || dle c dzero) InvalidArgument.
Definition mbh_construct_vector (c : list dbl) : outcome unit :=
  throw_if (negb (forallb (fun v => negb (isnan v) && dgt v dzero && dle v done) c)) InvalidArgument.

Section Mbh.
(** [inner] is the evolve() of the inner algorithm. Its random engines are part of G. *)
Context {G P : Type} (r : rng G) (srt : sorter) (inner : AM (G := G) (P := P) unit) (m_stop : nat) (m_perturb : list dbl).

(** pop.set_x(j, x), population.cpp:539-542 *)
Definition psetx (j : nat) (x : list dbl) : AM (G := G) (P := P) unit := fun s => let (q, o) := set_x (snd s) j x in (o, (fst s, q)).
(** perturb as completed, mbh.cpp:132-137 *)
Definition mbh_perturb (dim : nat) : list dbl :=
  match m_perturb with [c] => c :: repeat c (dim - 1) | _ => m_perturb end.
(** One perturbed component, mbh.cpp:157-159 *)
Definition mbh_component (perturb lb ub x : list dbl) (k : nat) : RM G dbl :=
  c <- rlift (vget x k) ;; w <- rlift (vget perturb k) ;; l <- rlift (vget lb k) ;; u <- rlift (vget ub k) ;;
  uniform_real_from_range r (dmax (dsub c (dmul w (dsub u l))) l) (dmin (dadd c (dmul w (dsub u l))) u).
(** The perturbation of individual j, mbh.cpp:155-161 *)
Definition mbh_perturb_one (perturb : list dbl) (j : nat) : AM (P := P) unit :=
  s <- getp ;;
  x <- rlift (vget (po_x s) j) ;;
  y <- eng (rmap (mbh_component perturb (p_lb (po_prob s)) (p_ub (po_prob s)) x) (seq 0 (get_nx (po_prob s)))) ;;
  psetx j y.
(** pop.get_f()[pop.best_idx()], mbh.cpp:167 *)
Definition best_f (s : pop P) : outcome (list dbl) := bind (best_idx srt s) (fun b => vget (po_f s) b).
(** Putting the old individuals back, mbh.cpp:170-172 *)
Definition mbh_restore (old : pop P) (j : nat) : AM (G := G) (P := P) unit :=
  x <- rlift (vget (po_x old) j) ;; f <- rlift (vget (po_f old) j) ;; pset j x f.
(** The body of the while loop, mbh.cpp:151-173, on the number of failures i: the new one.
    The problem is always that of the current population. *)
Definition mbh_step (perturb : list dbl) (NP i : nat) : AM (P := P) nat :=
  old <- getp ;;
  rfold (fun _ j => mbh_perturb_one perturb j) tt (seq 0 NP) ;;;
  inner ;;;
  s <- getp ;;
  fn <- rlift (best_f s) ;; fo <- rlift (best_f old) ;;
  b <- rlift (compare_fc fn fo (p_nec (po_prob s)) (p_ctol (po_prob s))) ;;
  if b : bool then rret 0
  else rfold (fun _ j => mbh_restore old j) tt (seq 0 NP) ;;; rret (i + 1).
(** The while loop, mbh.cpp:149-200 (without the log) *)
Fixpoint mbh_loop (perturb : list dbl) (NP fuel i : nat) : AM (P := P) unit :=
  if Nat.ltb i m_stop then
    match fuel with
    | 0 => rlift NoFuel
    | S fuel' => i' <- mbh_step perturb NP i ;; mbh_loop perturb NP fuel' i'
    end
  else rret tt.
(** evolve, mbh.cpp:102-203 *)
Definition mbh_evolve (fuel : nat) : AM (P := P) unit :=
  s <- getp ;;
  let p := po_prob s in
  let perturb := mbh_perturb (get_nx p) in
  if negb (Nat.eqb (p_nobj p) 1) then rlift (Throw InvalidArgument)
  else if u_set_seed (p_udp p) then rlift (Throw InvalidArgument)
  else if Nat.eqb m_stop 0 then rret tt
  else if negb (Nat.eqb (length perturb) (get_nx p)) then rlift (Throw InvalidArgument)
  else mbh_loop perturb (length (po_id s)) fuel 0.
End Mbh.
