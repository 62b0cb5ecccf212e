(** Improved harmony search: src/algorithms/ihs.cpp. *)
From Coq Require Import List Bool Arith ZArith.
From Verif Require Import Dbl Outcome StdSort Problem Constrained MultiObj Rng Generic GeneticOps Population Algo AlgDe.
Import ListNotations.
Local Open Scope rm_scope.

(** The constructor, ihs.cpp:51-67 *)
Definition ihs_construct (phmcr ppar_min ppar_max bw_min bw_max : dbl) : outcome unit :=
  let out x := dgt x done || dlt x dzero in
  bind (throw_if (out phmcr || out ppar_min || out ppar_max) InvalidArgument) (fun _ =>
  bind (throw_if (dgt ppar_min ppar_max) InvalidArgument) (fun _ =>
  throw_if (dle bw_min dzero || dlt bw_max bw_min) InvalidArgument)).

Section Ihs.
(** [lg] and [ex] stand for std::log and std::exp. *)
Context {G P : Type} (srt : sorter) (r : rng G) (lg ex : dbl -> dbl).

(** A component copied from a randomly chosen individual, ihs.cpp:136, 152 *)
Definition ihs_memory (X : list (list dbl)) (i : nat) : RM G dbl :=
  k <- draw_int r 0 (Z.of_nat (length X) - 1) ;;
  xk <- rlift (vget X (Z.to_nat k)) ;;
  rlift (vget xk i).
(** A continuous component, ihs.cpp:133-146; lu_diff[i] of line 112 is computed here. *)
Definition ihs_real (phmcr ppar bw : dbl) (X : list (list dbl)) (l u : dbl) (i : nat) : RM G dbl :=
  a <- draw01 r ;;
  if dlt a phmcr then
    v <- ihs_memory X i ;;
    b <- draw01 r ;;
    if dlt b ppar then
      c <- draw01 r ;;
      rret (dadd v (dmul (dmul (dmul dtwo (dsub dhalf c)) bw) (dsub u l)))
    else rret v
  else uniform_real_from_range r l u.
(** An integer component, ihs.cpp:149-165 *)
Definition ihs_int (phmcr ppar bw : dbl) (X : list (list dbl)) (l u : dbl) (i : nat) : RM G dbl :=
  a <- draw01 r ;;
  if dlt a phmcr then
    v <- ihs_memory X i ;;
    b <- draw01 r ;;
    if dlt b ppar then
      let pitch := dtrunc (dadd done (dmul bw (dsub u l))) in
      d <- uniform_integral_from_range r (dsub v pitch) (dadd v pitch) ;;
      rret (dadd v d)
    else rret v
  else uniform_integral_from_range r l u.
(** The new decision vector, ihs.cpp:130-168: the vector new_x lives across generations but
    every component of it is assigned in each one, so it is built anew here. *)
Definition ihs_candidate (phmcr ppar bw : dbl) (X : list (list dbl)) (p : problem) : RM G (list dbl) :=
  let comp (f : dbl -> dbl -> nat -> RM G dbl) i := l <- rlift (vget (p_lb p) i) ;; u <- rlift (vget (p_ub p) i) ;; f l u i in
  let dim := get_nx p in let ncx := dim - p_nix p in
  c <- rmap (comp (ihs_real phmcr ppar bw X)) (seq 0 ncx) ;;
  z <- rmap (comp (ihs_int phmcr ppar bw X)) (seq ncx (dim - ncx)) ;;
  rret (c ++ z).

(** The insertion into a single-objective population, ihs.cpp:171-182 *)
Definition ihs_insert_single (x f : list dbl) : @AM G P unit :=
  s <- getp ;;
  w <- rlift (worst_idx srt s) ;;
  fw <- rlift (vget (po_f s) w) ;;
  if Nat.eqb (get_nc (po_prob s)) 0 then
    a <- rlift (vget fw 0) ;;
    b <- rlift (vget f 0) ;;
    if dge a b then pset w x f else rret tt
  else
    c <- rlift (compare_fc f fw (p_nec (po_prob s)) (p_ctol (po_prob s))) ;;
    if c then pset w x f else rret tt.
(** The insertion into a multi-objective population, ihs.cpp:183-197: it runs in place, the
    individuals with smaller index having been overwritten already. *)
Definition ihs_insert_multi (x f : list dbl) : @AM G P unit :=
  s0 <- getp ;;
  let n := length (po_id s0) in
  best <- rlift (select_best_N_mo srt (po_f s0 ++ [f]) n) ;;
  rfold (fun _ i =>
    b <- rlift (vget best i) ;;
    if Nat.eqb b n then pset i x f
    else s <- getp ;; xb <- rlift (vget (po_x s) b) ;; fb <- rlift (vget (po_f s) b) ;; pset i xb fb) tt (seq 0 n).

(** One generation, ihs.cpp:126-206; the counter and the number of generations are
    converted to double where they meet one. The bound reflection may loop. *)
Definition ihs_ppar (ppar_min ppar_max : dbl) (gens gen : nat) : dbl :=
  dadd ppar_min (ddiv (dmul (dsub ppar_max ppar_min) (d_of_Z (Z.of_nat gen))) (d_of_Z (Z.of_nat gens))).
Definition ihs_bw (bw_min bw_max : dbl) (gens gen : nat) : dbl :=
  let c := ddiv (lg (ddiv bw_min bw_max)) (d_of_Z (Z.of_nat gens)) in dmul bw_max (ex (dmul c (d_of_Z (Z.of_nat gen)))).
Definition ihs_generation (fuel : nat) (phmcr ppar_min ppar_max bw_min bw_max : dbl) (gens gen : nat) : @AM G P unit :=
  s <- getp ;;
  let p := po_prob s in
  x0 <- eng (ihs_candidate phmcr (ihs_ppar ppar_min ppar_max gens gen) (ihs_bw bw_min bw_max gens gen) (po_x s) p) ;;
  x <- rlift (force_bounds_reflection fuel x0 (p_lb p) (p_ub p)) ;;
  f <- peval x ;;
  if Nat.eqb (p_nobj p) 1 then ihs_insert_single x f else ihs_insert_multi x f.

(** evolve, ihs.cpp:75-208 *)
Definition ihs_evolve (fuel gens : nat) (phmcr ppar_min ppar_max bw_min bw_max : dbl) : @AM G P unit :=
  if Nat.eqb gens 0 then rret tt
  else
    s <- getp ;;
    let p := po_prob s in
    (if Nat.eqb (length (po_id s)) 0 then rlift (Throw InvalidArgument) else rret tt) ;;;
    (if negb (Nat.eqb (get_nc p) 0) && Nat.ltb 1 (p_nobj p) then rlift (Throw InvalidArgument) else rret tt) ;;;
    (if u_set_seed (p_udp p) then rlift (Throw InvalidArgument) else rret tt) ;;;
    rfold (fun _ gen => ihs_generation fuel phmcr ppar_min ppar_max bw_min bw_max gens gen) tt (seq 1 gens).
End Ihs.
