(** Genetic operators: src/utils/genetic_operators.cpp.

    std::pow is a parameter [pw]; theorems state what they assume of it. *)
From Coq Require Import List Bool Arith ZArith.
From Verif Require Import Dbl Outcome Rng Problem Generic.
Import ListNotations.

Declare Scope rm_scope.
Delimit Scope rm_scope with rm.
Notation "x <- e ;; f" := (rbind e (fun x => f)) (at level 61, e at next level, right associativity) : rm_scope.
Notation "' pat <- e ;; f" := (rbind e (fun x => match x with pat => f end)) (at level 61, pat pattern, e at next level, right associativity) : rm_scope.
Notation "e ;;; f" := (rbind e (fun _ => f)) (at level 61, right associativity) : rm_scope.
Local Open Scope rm_scope.

(** Floating point literals 0.5 and 1e-14 *)
Definition dhalf : dbl := Fin (2 ^ 1073).
Definition d1em14 : dbl := ddiv done (d_of_Z (10 ^ 14)).

Section Ops.
Context {G : Type} (r : rng G) (pw : dbl -> dbl -> dbl).

(** drng(e), std::uniform_real_distribution<>(0., 1.) *)
Definition draw01 : RM G dbl := draw_real r dzero done.

(** sbx_betaq, :49-57 *)
Definition sbx_betaq (beta eta_c u : dbl) : dbl :=
  let alpha := dsub dtwo (pw beta (dneg (dadd eta_c done))) in
  if dlt u (ddiv done alpha) then pw (dmul u alpha) (ddiv done (dadd eta_c done))
  else pw (ddiv done (dsub dtwo (dmul u alpha))) (ddiv done (dadd eta_c done)).

(** The two new values of a gene, :90-110; [a < b] are the parents' values *)
Definition sbx_values (a b l u eta_c rand01 : dbl) : dbl * dbl :=
  let beta1 := dadd done (ddiv (dmul dtwo (dsub a l)) (dsub b a)) in
  let c1 := dmul dhalf (dsub (dadd a b) (dmul (sbx_betaq beta1 eta_c rand01) (dsub b a))) in
  let beta2 := dadd done (ddiv (dmul dtwo (dsub u b)) (dsub b a)) in
  let c2 := dmul dhalf (dadd (dadd a b) (dmul (sbx_betaq beta2 eta_c rand01) (dsub b a))) in
  (stick1 c1 l u, stick1 c2 l u).

(** One iteration of the loop over the continuous genes, :87-119.  [stick1] is the pair
    of tests of lines 107-110. *)
Definition sbx_gene (p1 p2 lb ub : list dbl) (eta_c : dbl) (cs : list dbl * list dbl) (i : nat) : RM G (list dbl * list dbl) :=
  v <- draw01 ;;
  a <- rlift (vget p1 i) ;; b <- rlift (vget p2 i) ;; l <- rlift (vget lb i) ;; u <- rlift (vget ub i) ;;
  if dlt v dhalf && dgt (dabs (dsub a b)) d1em14 && dneq l u then
    let (y1, y2) := if dlt a b then (a, b) else (b, a) in
    rand01 <- draw01 ;;
    let (c1, c2) := sbx_values y1 y2 l u eta_c rand01 in
    w <- draw01 ;;
    let (d1, d2) := if dlt w dhalf then (c1, c2) else (c2, c1) in
    x1 <- rlift (vset (fst cs) i d1) ;; x2 <- rlift (vset (snd cs) i d2) ;; rret (x1, x2)
  else rret cs.

(** One iteration of the two-point crossover, :129-132 *)
Definition sbx_swap (p1 p2 : list dbl) (cs : list dbl * list dbl) (j : nat) : RM G (list dbl * list dbl) :=
  a <- rlift (vget p2 j) ;; b <- rlift (vget p1 j) ;;
  x1 <- rlift (vset (fst cs) j a) ;; x2 <- rlift (vset (snd cs) j b) ;; rret (x1, x2).

(** sbx_crossover_impl, :70-137 *)
Definition sbx_crossover_impl (p1 p2 lb ub : list dbl) (nix : nat) (p_cr eta_c : dbl) : RM G (list dbl * list dbl) :=
  let nx := length p1 in
  let ncx := nx - nix in
  v <- draw01 ;;
  if dlt v p_cr then
    cs <- rfold (sbx_gene p1 p2 lb ub eta_c) (p1, p2) (seq 0 ncx) ;;
    if Nat.ltb 0 nix then
      s1 <- draw_int r (Z.of_nat ncx) (Z.of_nat nx - 1) ;;
      s2 <- draw_int r (Z.of_nat ncx) (Z.of_nat nx - 1) ;;
      let lo := Z.to_nat (Z.min s1 s2) in
      let hi := Z.to_nat (Z.max s1 s2) in
      rfold (sbx_swap p1 p2) cs (seq lo (S hi - lo))
    else rret cs
  else rret (p1, p2).

(** The new value of a mutated gene, :162-184 *)
Definition mutate_value (y l u eta_m rnd : dbl) : dbl :=
  let w := dsub u l in
  let delta1 := ddiv (dsub y l) w in
  let delta2 := ddiv (dsub u y) w in
  let mut_pow := ddiv done (dadd eta_m done) in
  let deltaq :=
    if dlt rnd dhalf then
      let xy := dsub done delta1 in
      let val := dadd (dmul dtwo rnd) (dmul (dsub done (dmul dtwo rnd)) (pw xy (dadd eta_m done))) in
      dsub (pw val mut_pow) done
    else
      let xy := dsub done delta2 in
      let val := dadd (dmul dtwo (dsub done rnd)) (dmul (dmul dtwo (dsub rnd dhalf)) (pw xy (dadd eta_m done))) in
      dsub done (pw val mut_pow) in
  stick1 (dadd y (dmul deltaq w)) l u.

(** One continuous gene, :160-187 *)
Definition mutate_gene (lb ub : list dbl) (p_m eta_m : dbl) (c : list dbl) (j : nat) : RM G (list dbl) :=
  v <- draw01 ;;
  l <- rlift (vget lb j) ;; u <- rlift (vget ub j) ;;
  if dlt v p_m && dneq l u then
    y <- rlift (vget c j) ;; rnd <- draw01 ;; rlift (vset c j (mutate_value y l u eta_m rnd))
  else rret c.
(** One integer gene, :191-197 *)
Definition mutate_int (lb ub : list dbl) (p_m : dbl) (c : list dbl) (j : nat) : RM G (list dbl) :=
  v <- draw01 ;;
  if dlt v p_m then
    l <- rlift (vget lb j) ;; u <- rlift (vget ub j) ;;
    m <- uniform_integral_from_range r l u ;; rlift (vset c j m)
  else rret c.
(** polynomial_mutation_impl, :141-198 *)
Definition polynomial_mutation_impl (child lb ub : list dbl) (nix : nat) (p_m eta_m : dbl) : RM G (list dbl) :=
  let nx := length child in
  let ncx := nx - nix in
  c <- rfold (mutate_gene lb ub p_m eta_m) child (seq 0 ncx) ;;
  rfold (mutate_int lb ub p_m) c (seq ncx nix).

(** mo_tournament_selection_impl, :201-212 *)
Definition tournament (i j : nat) (rank : list nat) (crowd : list dbl) : RM G nat :=
  ri <- rlift (vget rank i) ;; rj <- rlift (vget rank j) ;;
  if Nat.ltb ri rj then rret i else if Nat.ltb rj ri then rret j else
  ci <- rlift (vget crowd i) ;; cj <- rlift (vget crowd j) ;;
  if dgt ci cj then rret i else if dlt ci cj then rret j else
  v <- draw01 ;; rret (if dlt v dhalf then i else j).

(** sbx_crossover, :247-282, and polynomial_mutation, :310-338 *)
Definition all_finite (lb ub : list dbl) : bool := forallb (fun p => isfinite (fst p) && isfinite (snd p)) (combine lb ub).
Definition sbx_crossover (p1 p2 lb ub : list dbl) (nix : nat) (p_cr eta_c : dbl) : RM G (list dbl * list dbl) :=
  rlift (check_problem_bounds lb ub nix) ;;;
  rlift (throw_if (negb (Nat.eqb (length p1) (length p2))) InvalidArgument) ;;;
  rlift (throw_if (negb (Nat.eqb (length p1) (length lb))) InvalidArgument) ;;;
  rlift (throw_if (negb (all_finite lb ub)) InvalidArgument) ;;;
  rlift (throw_if (negb (isfinite p_cr)) InvalidArgument) ;;;
  rlift (throw_if (negb (isfinite eta_c)) InvalidArgument) ;;;
  sbx_crossover_impl p1 p2 lb ub nix p_cr eta_c.
Definition polynomial_mutation (dv lb ub : list dbl) (nix : nat) (p_m eta_m : dbl) : RM G (list dbl) :=
  rlift (check_problem_bounds lb ub nix) ;;;
  rlift (throw_if (negb (Nat.eqb (length dv) (length lb))) InvalidArgument) ;;;
  rlift (throw_if (negb (all_finite lb ub)) InvalidArgument) ;;;
  rlift (throw_if (negb (isfinite p_m)) InvalidArgument) ;;;
  rlift (throw_if (negb (isfinite eta_m)) InvalidArgument) ;;;
  polynomial_mutation_impl dv lb ub nix p_m eta_m.
End Ops.
