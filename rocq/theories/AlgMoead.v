(** MOEA/D: src/algorithms/moead.cpp.

    std::pow, std::sort, std::shuffle, the binomial coefficient and the points of the Halton
    sequence are parameters, as in Weights.v. The log is left out. *)
From Coq Require Import String List Bool Arith ZArith.
From Verif Require Import Dbl Outcome StdSort Problem Rng MultiObj Weights Generic GeneticOps Population Algo.
Import ListNotations.
Local Open Scope rm_scope.

Record moead_params := mkmoead { me_gen : nat; me_weights : wmethod; me_dec : dmethod; me_neigh : nat; me_CR : dbl; me_F : dbl; me_eta : dbl; me_realb : dbl; me_limit : nat; me_div : bool }.

(** The names the constructor accepts, moead.cpp:60, :64; decomposition_weights and
    decompose_objectives test the same ones *)
Definition weights_named (s : string) : option wmethod :=
  if String.eqb s "random" then Some WRandom else if String.eqb s "grid" then Some WGrid else if String.eqb s "low discrepancy" then Some WLowDiscrepancy else None.
Definition decomposition_named (s : string) : option dmethod :=
  if String.eqb s "tchebycheff" then Some Tchebycheff else if String.eqb s "weighted" then Some Weighted else if String.eqb s "bi" then Some BI else None.
(** The constructor, moead.cpp:53-94 *)
Definition moead_construct (gen : nat) (weights dec : string) (neighbours : nat) (CR F eta_m realb : dbl) (limit : nat) (div : bool) : outcome moead_params :=
  match weights_named weights with None => Throw InvalidArgument | Some w =>
  match decomposition_named dec with None => Throw InvalidArgument | Some d =>
  if dgt CR done || dlt CR dzero then Throw InvalidArgument
  else if dgt F done || dlt F dzero then Throw InvalidArgument
  else if dlt eta_m dzero then Throw InvalidArgument
  else if dgt realb done || dlt realb dzero then Throw InvalidArgument
  else if Nat.ltb neighbours 2 then Throw InvalidArgument
  else Ok (mkmoead gen w d neighbours CR F eta_m realb limit div)
  end end.

(** The update of the ideal point, moead.cpp:246-250: std::min(new_f[j], ideal_point[j]), then
    std::min(ideal_point[j], new_f[j]) *)
Fixpoint moead_ideal (z f : list dbl) : list dbl :=
  match z, f with a :: z', b :: f' => dmin (dmin b a) b :: moead_ideal z' f' | _, _ => [] end.

Section Moead.
Context {G P : Type} (r : rng G) (srt : sorter) (pw : dbl -> dbl -> dbl).
Context (shuf : forall A, list A -> G -> list A * G).
(** For decomposition_weights: see Weights.v. [halton nf] gives the points of the Halton
    sequence in nf - 1 dimensions. *)
Context (binom : Z -> Z -> dbl) (halton : nat -> nat -> list dbl).
(** The bound on the loops that wait for a suitable draw *)
Context (fuel : nat).
Context (a : moead_params).

(** decomposition_weights(nf, NP, m_weight_generation, m_e), moead.cpp:151: the random method
    draws nf - 1 numbers for each weight after the nf canonical ones,
    multi_objective.hpp:200-206 *)
Definition moead_weights (nf NP : nat) : RM G (list (list dbl)) :=
  ds <- (match me_weights a with WRandom => if Nat.ltb NP nf || Nat.ltb nf 2 then rret [] else rmap (fun _ => draw01 r) (seq 0 ((NP - nf) * (nf - 1))) | _ => rret [] end) ;;
  rlift (decomposition_weights srt binom fuel (halton nf) (fun i j => nth ((i - nf) * (nf - 1) + j) ds NaN) nf NP (me_weights a)).

(** select_parents, moead.cpp:333-362; NP is neigh_idx.size(), nb is neigh_idx[n] *)
Fixpoint select_loop (k : nat) (NP : nat) (nb : list nat) (whole : bool) (acc : list nat) : RM G (list nat) :=
  if Nat.leb 2 (List.length acc) then rret acc
  else match k with
  | 0 => rlift NoFuel
  | S k' =>
      d <- draw_int r 0 (Z.of_nat NP - 1) ;;
      p <- (if whole then rret (Z.to_nat d) else rlift (vget nb (Z.to_nat d mod List.length nb))) ;;
      select_loop k' NP nb whole (if existsb (Nat.eqb p) acc then acc else acc ++ [p])
  end.
Definition select_parents (NP : nat) (nb : list nat) (whole : bool) : RM G (list nat) := select_loop fuel NP nb whole [].

(** Component kk of the candidate, moead.cpp:225-240 *)
Definition moead_gene (X : list (list dbl)) (lb ub : list dbl) (n p0 p1 : nat) (kk : nat) : RM G dbl :=
  let at_ i := bind (vget X i) (fun x => vget x kk) in
  v <- draw01 r ;;
  if dlt v (me_CR a) then
    xn <- rlift (at_ n) ;; x0 <- rlift (at_ p0) ;; x1 <- rlift (at_ p1) ;;
    l <- rlift (vget lb kk) ;; u <- rlift (vget ub kk) ;;
    let c := dadd xn (dmul (me_F a) (dsub x0 x1)) in
    c1 <- (if dlt c l then v1 <- draw01 r ;; rret (dadd l (dmul v1 (dsub xn l))) else rret c) ;;
    (if dgt c1 u then v2 <- draw01 r ;; rret (dsub u (dmul v2 (dsub u xn))) else rret c1)
  else rlift (at_ n).
(** The candidate, moead.cpp:225-242. The mutation is told that there are no integer
    variables. *)
Definition moead_child (p : problem) (X : list (list dbl)) (n p0 p1 : nat) : RM G (list dbl) :=
  c <- rmap (moead_gene X (p_lb p) (p_ub p) n p0 p1) (seq 0 (get_nx p)) ;;
  polynomial_mutation_impl r pw c (p_lb p) (p_ub p) 0 (ddiv done (d_of_Z (Z.of_nat (get_nx p)))) (me_eta a).

(** One comparison and replacement, moead.cpp:254-259, :275-280; tells whether it happened *)
Definition moead_try (ws : list (list dbl)) (z x f : list dbl) (i : nat) : AM (G := G) (P := P) bool :=
  s <- getp ;;
  fi <- rlift (vget (po_f s) i) ;; w <- rlift (vget ws i) ;;
  d1 <- rlift (decompose_objectives fi w z (me_dec a)) ;; d2 <- rlift (decompose_objectives f w z (me_dec a)) ;;
  f1 <- rlift (vget d1 0) ;; f2 <- rlift (vget d2 0) ;;
  if dlt f2 f1 then pset i x f ;;; rret true else rret false.
Definition tick (b : bool) (time : nat) : nat := if b then S time else time.
(** The loop over the neighbours or the population, moead.cpp:268-286; nb is neigh_idxs[n] *)
Fixpoint moead_tries (ws : list (list dbl)) (z x f : list dbl) (nb : list nat) (whole : bool) (ks : list nat) (time : nat) : AM (G := G) (P := P) unit :=
  match ks with
  | [] => rret tt
  | k :: ks' =>
      pick <- (if whole then rret k else rlift (vget nb k)) ;;
      b <- moead_try ws z x f pick ;;
      if Nat.leb (me_limit a) (tick b time) && me_div a then rret tt else moead_tries ws z x f nb whole ks' (tick b time)
  end.
(** The insertion, moead.cpp:252-286 *)
Definition moead_insert (ws : list (list dbl)) (neigh : list (list nat)) (z x f : list dbl) (n : nat) (whole : bool) : AM (G := G) (P := P) unit :=
  s <- getp ;;
  b <- moead_try ws z x f n ;;
  nb <- rlift (vget neigh n) ;;
  ks <- eng (rdraw (shuf nat (seq 0 (if whole then List.length (po_id s) else List.length nb)))) ;;
  moead_tries ws z x f nb whole ks (tick b 0).
(** One subproblem, moead.cpp:211-287; the state is ideal_point *)
Definition moead_one (ws : list (list dbl)) (neigh : list (list nat)) (z : list dbl) (n : nat) : AM (G := G) (P := P) (list dbl) :=
  s <- getp ;;
  v <- eng (draw01 r) ;;
  let whole := negb (dlt v (me_realb a) || negb (me_div a)) in
  nb <- rlift (vget neigh n) ;;
  ps <- eng (select_parents (List.length neigh) nb whole) ;;
  p0 <- rlift (vget ps 0) ;; p1 <- rlift (vget ps 1) ;;
  x <- eng (moead_child (po_prob s) (po_x s) n p0 p1) ;;
  f <- peval x ;;
  let z' := moead_ideal z f in
  moead_insert ws neigh z' x f n whole ;;;
  rret z'.
(** One generation, moead.cpp:174-288; the state is (shuffle, ideal_point) *)
Definition moead_generation (ws : list (list dbl)) (neigh : list (list nat)) (st : list nat * list dbl) : AM (G := G) (P := P) (list nat * list dbl) :=
  sh <- eng (rdraw (shuf nat (fst st))) ;;
  z <- rfold (moead_one ws neigh) (snd st) sh ;;
  rret (sh, z).
(** evolve, moead.cpp:103-291 *)
Definition moead_evolve : AM (G := G) (P := P) unit :=
  s <- getp ;;
  let p := po_prob s in let NP := List.length (po_id s) in
  if some_bound_is_equal (p_lb p) (p_ub p) then rlift (Throw InvalidArgument)
  else if Nat.eqb NP 0 then rlift (Throw InvalidArgument)
  else if Nat.ltb (get_nf p) 2 then rlift (Throw InvalidArgument)
  else if negb (Nat.eqb (get_nc p) 0) then rlift (Throw InvalidArgument)
  else if u_set_seed (p_udp p) then rlift (Throw InvalidArgument)
  else if Nat.ltb (NP - 1) (me_neigh a) then rlift (Throw InvalidArgument)
  else if Nat.eqb (me_gen a) 0 then rret tt
  else
    ws <- eng (moead_weights (get_nf p) NP) ;;
    neigh <- rlift (kNN srt ws (me_neigh a)) ;;
    z <- rlift (ideal (po_f s)) ;;
    rfold (fun st _ => moead_generation ws neigh st) (seq 0 NP, z) (seq 0 (me_gen a)) ;;; rret tt.
End Moead.
