(** Generational MOEA/D: src/algorithms/moead_gen.cpp. Constructor, weights, selection of parents,
    candidate and insertion are those of moead.cpp, line by line, and are taken from AlgMoead.v;
    here is what is different: all candidates of a generation are made from the population at its
    start, then evaluated, then inserted. The log is left out. *)
From Coq Require Import String List Bool Arith ZArith.
From Verif Require Import Dbl Outcome StdSort Problem Rng MultiObj Weights Generic GeneticOps Population Algo AlgNsga2 AlgMoead.
Import ListNotations.
Local Open Scope rm_scope.

Section MoeadGen.
Context {G P : Type} (r : rng G) (srt : sorter) (pw : dbl -> dbl -> dbl).
Context (shuf : forall A, list A -> G -> list A * G) (binom : Z -> Z -> dbl) (halton : nat -> nat -> list dbl) (fuel : nat) (a : moead_params).
(** m_bfe *)
Context (bfe : option (problem -> list dbl -> outcome (list dbl))).

(** The candidate for subproblem n and whole_population, moead_gen.cpp:228-262 *)
Definition mgen_child (p : problem) (X : list (list dbl)) (neigh : list (list nat)) (n : nat) : RM G (list dbl * bool) :=
  v <- draw01 r ;;
  let whole := negb (dlt v (me_realb a) || negb (me_div a)) in
  nb <- rlift (vget neigh n) ;;
  ps <- select_parents r fuel (List.length neigh) nb whole ;;
  p0 <- rlift (vget ps 0) ;; p1 <- rlift (vget ps 1) ;;
  x <- moead_child r pw a p X n p0 p1 ;; rret (x, whole).
(** The fitness vectors, moead_gen.cpp:268-294 *)
Definition mgen_eval (xs : list (list dbl)) : AM (G := G) (P := P) (list (list dbl)) :=
  match bfe with None => rmap peval xs | Some ud => nsga2_eval_batch ud xs end.
(** The i-th insertion, moead_gen.cpp:295-344; the state is ideal_point *)
Definition mgen_place (ws : list (list dbl)) (neigh : list (list nat)) (sh : list nat) (plan : list (list dbl * bool)) (fs : list (list dbl)) (z : list dbl) (i : nat) : AM (G := G) (P := P) (list dbl) :=
  n <- rlift (vget sh i) ;; f <- rlift (vget fs i) ;; c <- rlift (vget plan i) ;;
  let z' := moead_ideal z f in
  moead_insert shuf a ws neigh z' (fst c) f n (snd c) ;;; rret z'.
(** One generation, moead_gen.cpp:177-345; the state is (shuffle, ideal_point) *)
Definition mgen_generation (ws : list (list dbl)) (neigh : list (list nat)) (st : list nat * list dbl) : AM (G := G) (P := P) (list nat * list dbl) :=
  s <- getp ;;
  sh <- eng (rdraw (shuf nat (fst st))) ;;
  plan <- eng (rmap (mgen_child (po_prob s) (po_x s) neigh) sh) ;;
  fs <- mgen_eval (map fst plan) ;;
  z <- rfold (mgen_place ws neigh sh plan fs) (snd st) (seq 0 (List.length sh)) ;;
  rret (sh, z).
(** evolve, moead_gen.cpp:107-347 *)
Definition mgen_evolve : AM (G := G) (P := P) unit :=
  s <- getp ;;
  let p := po_prob s in let NP := List.length (po_id s) in
  if some_bound_is_equal (p_lb p) (p_ub p) then rlift (Throw InvalidArgument)
  else if Nat.eqb NP 0 then rlift (Throw InvalidArgument)
  else if Nat.ltb (get_nf p) 2 then rlift (Throw InvalidArgument)
  else if negb (Nat.eqb (get_nc p) 0) then rlift (Throw InvalidArgument)
  else if u_set_seed (p_udp p) then rlift (Throw InvalidArgument)
  else if Nat.ltb (NP - 1) (me_neigh a) then rlift (Throw InvalidArgument)
  else if Nat.eqb (me_gen a) 0 then rret tt
  else
    ws <- eng (moead_weights r srt binom halton fuel a (get_nf p) NP) ;;
    neigh <- rlift (kNN srt ws (me_neigh a)) ;;
    z <- rlift (ideal (po_f s)) ;;
    rfold (fun st _ => mgen_generation ws neigh st) (seq 0 NP, z) (seq 0 (me_gen a)) ;;; rret tt.
End MoeadGen.
