(** The simple genetic algorithm, src/algorithms/sga.cpp. *)
From Coq Require Import String List Bool Arith ZArith.
From Verif Require Import Dbl Outcome StdSort Compare Problem Rng Generic GeneticOps Population Algo AlgSea.
Import ListNotations.
Local Open Scope rm_scope.

(** The enums, include/pagmo/algorithms/sga.hpp:49-53 *)
Inductive sga_selection := Tournament | Truncated.
Inductive sga_crossover := Exponential | Binomial | Single | SBX.
Inductive sga_mutation := Gaussian | Uniform | Polynomial.
Record sga_params := mksga { sg_gen : nat; sg_cr : dbl; sg_eta : dbl; sg_m : dbl; sg_pm : dbl; sg_ps : nat; sg_cross : sga_crossover; sg_mut : sga_mutation; sg_sel : sga_selection }.

(** The bimaps, sga.cpp:78-106 *)
Definition mutation_named (s : string) : option sga_mutation :=
  if String.eqb s "gaussian" then Some Gaussian else if String.eqb s "uniform" then Some Uniform else if String.eqb s "polynomial" then Some Polynomial else None.
Definition selection_named (s : string) : option sga_selection :=
  if String.eqb s "truncated" then Some Truncated else if String.eqb s "tournament" then Some Tournament else None.
Definition crossover_named (s : string) : option sga_crossover :=
  if String.eqb s "exponential" then Some Exponential else if String.eqb s "binomial" then Some Binomial else if String.eqb s "sbx" then Some SBX else if String.eqb s "single" then Some Single else None.
Definition dhundred : dbl := d_of_Z 100.
(** The constructor, sga.cpp:116-172; the strings are tested against the same names that the
    bimaps hold. *)
Definition sga_construct (gen : nat) (cr eta_c m param_m : dbl) (param_s : nat) (crossover mutation selection : string) : outcome sga_params :=
  if dgt cr done || dlt cr dzero then Throw InvalidArgument
  else if dlt eta_c done || dgt eta_c dhundred then Throw InvalidArgument
  else if dlt m dzero || dgt m done then Throw InvalidArgument
  else if Nat.eqb param_s 0 then Throw InvalidArgument
  else match mutation_named mutation with None => Throw InvalidArgument | Some mu =>
  match selection_named selection with None => Throw InvalidArgument | Some se =>
  match crossover_named crossover with None => Throw InvalidArgument | Some cx =>
  let bad := match mu with Polynomial => dlt param_m done || dgt param_m dhundred | _ => dlt param_m dzero || dgt param_m done end in
  if bad then Throw InvalidArgument else Ok (mksga gen cr eta_c m param_m param_s cx mu se)
  end end end.

(** std::round: to the nearest integer, halves away from zero *)
Definition dround (x : dbl) : dbl := match x with Fin z => Fin (Z.sgn z * ((Z.abs z + one_z / 2) / one_z) * one_z) | _ => x end.
(** static_cast<int>(double): undefined when the truncated value is not an int *)
Definition raw_int (x : dbl) : outcome Z :=
  match x with Fin z => let k := Z_of_d z in if ((- 2 ^ 31 <=? k) && (k <? 2 ^ 31))%Z then Ok k else UB | _ => UB end.
(** std::swap(l[i], l[j]) *)
Definition swap_at {A} (l : list A) (i j : nat) : outcome (list A) :=
  bind (vget l i) (fun a => bind (vget l j) (fun b => bind (vset l i b) (fun l1 => vset l1 j a))).
(** The objective value compared by the sorts; the vectors have one component (checked). *)
Definition key (F : list (list dbl)) (i : nat) : dbl := nth 0 (nth i F []) NaN.

Section Sga.
Context {G P : Type} (r : rng G) (srt : sorter) (pw : dbl -> dbl -> dbl) (reseed : problem -> Z -> problem).
(** std::shuffle and std::binomial_distribution<size_t>(n, p) with the engine *)
Context (shuf : forall A, list A -> G -> list A * G) (binom : nat -> dbl -> G -> nat * G).
Context (a : sga_params).

(** ** perform_selection, sga.cpp:341-383 *)
Definition sga_sorted (F : list (list dbl)) : outcome (list nat) := std_sort srt (fun i j => less_than_f (key F i) (key F j)) (seq 0 (length F)).
(** Lines 362-369 *)
Definition draw_group (n : nat) (idxs : list nat) : RM G (list nat) :=
  rfold (fun l i => k <- draw_int r (Z.of_nat i) (Z.of_nat n - 1) ;; rlift (swap_at l (Z.to_nat k) i)) idxs (seq 0 (sg_ps a)).
(** Lines 370-376 *)
Definition group_winner (F : list (list dbl)) (idxs : list nat) : outcome nat :=
  bind (vget idxs 0) (fun w0 =>
  mfold (fun w i => bind (vget idxs i) (fun k => bind (vget F k) (fun fk => bind (vget F w) (fun fw => Ok (if vec_lt fk fw then k else w))))) w0 (seq 1 (sg_ps a - 1))).
Definition sga_select (F : list (list dbl)) : RM G (list nat) :=
  match sg_sel a with
  | Truncated => best <- rlift (sga_sorted F) ;; rlift (mmap (fun i => vget best (i mod sg_ps a)) (seq 0 (length F)))
  | Tournament =>
      st <- rfold (fun (st : list nat * list nat) _ =>
        idxs <- draw_group (length F) (fst st) ;; w <- rlift (group_winner F idxs) ;; rret (idxs, snd st ++ [w])) (seq 0 (length F), []) (seq 0 (length F)) ;;
      rret (snd st)
  end.

(** ** perform_crossover, sga.cpp:385-457 *)
(** The do-while loop, :422-428; [k] is dim - L - 1 *)
Fixpoint cross_exp (k dim : nat) (p2 child : list dbl) (n : nat) : RM G (list dbl) :=
  v <- rlift (vget p2 n) ;; c <- rlift (vset child n v) ;;
  u <- draw01 r ;;
  if dlt u (sg_cr a) then match k with 0 => rret c | S k' => cross_exp k' dim p2 c ((n + 1) mod dim) end else rret c.
(** :431-439; the state is (child, n) *)
Definition cross_bin (dim : nat) (p2 child : list dbl) (n : nat) : RM G (list dbl) :=
  st <- rfold (fun (st : list dbl * nat) L =>
    u <- draw01 r ;;
    c <- (if dlt u (sg_cr a) || Nat.eqb (L + 1) dim then v <- rlift (vget p2 (snd st)) ;; rlift (vset (fst st) (snd st) v) else rret (fst st)) ;;
    rret (c, (snd st + 1) mod dim)) (child, n) (seq 0 dim) ;;
  rret (fst st).
(** :441-448 *)
Definition cross_tail (dim : nat) (p2 child : list dbl) (n : nat) : RM G (list dbl) :=
  rfold (fun c j => v <- rlift (vget p2 j) ;; rlift (vset c j v)) child (seq n (dim - n)).
Definition cross_one (dim : nat) (p2 child : list dbl) : RM G (list dbl) :=
  match sg_cross a with
  | Exponential => n <- draw_int r 0 (Z.of_nat dim - 1) ;; cross_exp (dim - 1) dim p2 child (Z.to_nat n)
  | Binomial => n <- draw_int r 0 (Z.of_nat dim - 1) ;; cross_bin dim p2 child (Z.to_nat n)
  | Single => u <- draw01 r ;; if dlt u (sg_cr a) then n <- draw_int r 0 (Z.of_nat dim - 1) ;; cross_tail dim p2 child (Z.to_nat n) else rret child
  | SBX => rret child
  end.
(** The main loop, :411-418; the state is (X, all_idx) *)
Definition cross_step (dim : nat) (XCOPY : list (list dbl)) (st : list (list dbl) * list nat) (i : nat) : RM G (list (list dbl) * list nat) :=
  idx <- rlift (swap_at (snd st) 0 i) ;;
  k <- draw_int r 1 (Z.of_nat (length XCOPY) - 1) ;;
  q <- rlift (vget idx (Z.to_nat k)) ;;
  child <- rlift (vget (fst st) i) ;; p2 <- rlift (vget XCOPY q) ;;
  c <- cross_one dim p2 child ;;
  X <- rlift (vset (fst st) i c) ;;
  rret (X, idx).
(** :396-403 *)
Definition sbx_step (lb ub : list dbl) (nix : nat) (X : list (list dbl)) (h : nat) : RM G (list (list dbl)) :=
  p1 <- rlift (vget X (2 * h)) ;; p2 <- rlift (vget X (2 * h + 1)) ;;
  cs <- sbx_crossover_impl r pw p1 p2 lb ub nix (sg_cr a) (sg_eta a) ;;
  X1 <- rlift (vset X (2 * h) (fst cs)) ;; rlift (vset X1 (2 * h + 1) (snd cs)).
Definition sga_cross (X : list (list dbl)) (lb ub : list dbl) (nix : nat) : RM G (list (list dbl)) :=
  x0 <- rlift (vget X 0) ;;
  match sg_cross a with
  | SBX => Y <- rdraw (shuf (list dbl) X) ;; rfold (sbx_step lb ub nix) Y (seq 0 ((length X + 1) / 2))
  | _ => st <- rfold (cross_step (length x0) X) (X, seq 0 (length X)) (seq 0 (length X)) ;; rret (fst st)
  end.

(** ** perform_mutation, sga.cpp:459-543 *)
(** rnd_lb_ub, a random int between the bounds, :497-500 and :531-534 *)
Definition draw_gene (l u : dbl) : RM G dbl :=
  li <- rlift (raw_int l) ;; ui <- rlift (raw_int u) ;; k <- draw_int r li ui ;; rret (d_of_Z k).
(** The new value of gene g, :494-501, :509-515, :521-535 *)
Definition mutated_gene (dimc g : nat) (x l u : dbl) : RM G dbl :=
  match sg_mut a with
  | Uniform => if Nat.ltb g dimc then uniform_real_from_range r l u else draw_gene l u
  | Gaussian =>
      let std := dmul (dsub u l) (sg_pm a) in
      z <- rdraw (g_norm r dzero done) ;;
      rret (if Nat.ltb g dimc then dadd x (dmul z std) else dadd x (dround (dmul z std)))
  | Polynomial =>
      if Nat.ltb g dimc then
        v <- draw01 r ;;
        let e := ddiv done (dadd done (sg_pm a)) in
        rret (if dle v dhalf then dadd x (dmul (dsub (pw (dmul dtwo v) e) done) (dsub x l))
              else dadd x (dmul (dsub done (pw (dmul dtwo (dsub done v)) e)) (dsub u x)))
      else draw_gene l u
  end.
(** The first N genes of the shuffled order, and the return to the box, :483-544 *)
Definition mutate_genes (dimc : nat) (lb ub : list dbl) (order : list nat) (N : nat) (x : list dbl) : RM G (list dbl) :=
  y <- rfold (fun c j =>
    g <- rlift (vget order j) ;; v <- rlift (vget c g) ;; l <- rlift (vget lb g) ;; u <- rlift (vget ub g) ;;
    w <- mutated_gene dimc g v l u ;; rlift (vset c g w)) x (seq 0 N) ;;
  rlift (force_bounds_stick y lb ub).
(** std::binomial_distribution(n, p): undefined unless 0 <= p <= 1 ([rand.dist.bern.bin]) *)
Definition draw_count (dim : nat) : RM G nat := if dle dzero (sg_m a) && dle (sg_m a) done then rdraw (binom dim (sg_m a)) else rlift UB.
(** One individual; the state is (X, to_be_mutated) *)
Definition mutate_step (dim dimc : nat) (lb ub : list dbl) (st : list (list dbl) * list nat) (i : nat) : RM G (list (list dbl) * list nat) :=
  order <- rdraw (shuf nat (snd st)) ;;
  N <- draw_count dim ;;
  x <- rlift (vget (fst st) i) ;;
  y <- mutate_genes dimc lb ub order N x ;;
  X <- rlift (vset (fst st) i y) ;;
  rret (X, order).
Definition sga_mutate (X : list (list dbl)) (lb ub : list dbl) (nix : nat) : RM G (list (list dbl)) :=
  x0 <- rlift (vget X 0) ;;
  let dim := length x0 in
  st <- rfold (mutate_step dim (dim - nix) lb ub) (X, seq 0 dim) (seq 0 (length X)) ;;
  rret (fst st).

(** ** evolve, sga.cpp:184-292, without the log *)
(** The offspring of a generation, :237-247 *)
Definition sga_offspring : AM (G := G) (P := P) (list (list dbl)) :=
  s <- getp ;;
  let p := po_prob s in
  sel <- eng (sga_select (po_f s)) ;;
  X1 <- rlift (mmap (vget (po_x s)) sel) ;;
  X2 <- eng (sga_cross X1 (p_lb p) (p_ub p) (p_nix p)) ;;
  eng (sga_mutate X2 (p_lb p) (p_ub p) (p_nix p)).
(** The insertion, :276-289 *)
Definition sga_insert (X F : list (list dbl)) : AM (G := G) (P := P) unit :=
  s <- getp ;;
  let XN := X ++ po_x s in let FN := F ++ po_f s in
  best <- rlift (sga_sorted FN) ;;
  rfold (fun _ j => b <- rlift (vget best j) ;; x <- rlift (vget XN b) ;; f <- rlift (vget FN b) ;; pset j x f) tt (seq 0 (length (po_id s))).
Definition sga_generation : AM (G := G) (P := P) unit :=
  sea_reseed r reseed ;;;                (* :229-236, the same text as sea.cpp:96-102 *)
  X <- sga_offspring ;;
  F <- rmap peval X ;;
  sga_insert X F.
Definition sga_evolve : AM (G := G) (P := P) unit :=
  s <- getp ;;
  let p := po_prob s in let NP := length (po_id s) in
  if negb (Nat.eqb (get_nc p) 0) then rlift (Throw InvalidArgument)
  else if negb (Nat.eqb (get_nf p) 1) then rlift (Throw InvalidArgument)
  else if Nat.ltb NP 2 then rlift (Throw InvalidArgument)
  else if Nat.ltb NP (sg_ps a) then rlift (Throw InvalidArgument)
  else if (match sg_cross a with SBX => true | _ => false end) && negb (Nat.eqb (NP mod 2) 0) then rlift (Throw InvalidArgument)
  else rfold (fun _ _ => sga_generation) tt (seq 0 (sg_gen a)).
End Sga.
