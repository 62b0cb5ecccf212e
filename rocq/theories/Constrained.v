(** Model of include/pagmo/utils/constrained.hpp and src/utils/constrained.cpp. *)
From Coq Require Import List Bool Arith.
From Verif Require Import Dbl Outcome StdSort Compare.
Import ListNotations.

(** One iteration of the loops constrained.hpp:54-60 and 72-78. [raw] is
    std::abs(c) for equality constraints, c for inequality ones. *)
Definition constraint_err (raw tol : dbl) : dbl := dmax (dsub raw tol) dzero.

(** constrained.hpp:48-62 and 66-80; the two functions differ only in the use of
    std::abs. [tol] may be longer than the constraints; reading past its end is
    undefined. The result pairs the number satisfied with the sum of squares. *)
Fixpoint test_constraints_loop (eq : bool) (c tol : list dbl) (n : nat) (l2 : dbl) : outcome (nat * dbl) :=
  match c with
  | [] => Ok (n, l2)
  | x :: c' =>
      match tol with
      | [] => UB
      | t :: tol' =>
          let err := constraint_err (if eq then dabs x else x) t in
          test_constraints_loop eq c' tol' (if dle err dzero then S n else n) (dadd l2 (dmul err err))
      end
  end.
Definition test_constraints (eq : bool) (c tol : list dbl) : outcome (nat * dbl) :=
  bind (test_constraints_loop eq c tol 0 dzero) (fun r => Ok (fst r, dsqrt (snd r))).
Definition test_eq_constraints := test_constraints true.
Definition test_ineq_constraints := test_constraints false.

(** compare_fc, constrained.cpp:76-122 (vector of tolerances). Note that the
    violation of f1 (line 107) is the sum of the two norms and that of f2 (line
    112) the norm of the pair. *)
Definition compare_fc (f1 f2 : list dbl) (neq : nat) (tol : list dbl) : outcome bool :=
  if negb (Nat.eqb (length f1) (length f2)) then Throw InvalidArgument
  else if Nat.ltb (length f1) 1 then Throw InvalidArgument
  else if negb (Nat.eqb (length f1 - 1) (length tol)) then Throw InvalidArgument
  else if Nat.ltb (length f1 - 1) neq then Throw InvalidArgument
  else
    let side f := (firstn neq (skipn 1 f), skipn (1 + neq) f) in
    bind (test_eq_constraints (fst (side f1)) tol) (fun c1eq =>
    bind (test_ineq_constraints (snd (side f1)) (skipn neq tol)) (fun c1ineq =>
    let n1 := fst c1eq + fst c1ineq in
    let l1 := dadd (snd c1eq) (snd c1ineq) in
    bind (test_eq_constraints (fst (side f2)) tol) (fun c2eq =>
    bind (test_ineq_constraints (snd (side f2)) (skipn neq tol)) (fun c2ineq =>
    let n2 := fst c2eq + fst c2ineq in
    let l2 := dsqrt (dadd (dmul (snd c2eq) (snd c2eq)) (dmul (snd c2ineq) (snd c2ineq))) in
    if Nat.eqb n1 n2 then
      if Nat.eqb n1 (length f1 - 1) then
        bind (vget f1 0) (fun a => bind (vget f2 0) (fun b => Ok (less_than_f a b)))
      else Ok (less_than_f l1 l2)
    else Ok (Nat.ltb n2 n1))))).

(** compare_fc with a scalar tolerance, constrained.cpp:137-146 *)
Definition compare_fc_scalar (f1 f2 : list dbl) (neq : nat) (tol : dbl) : outcome bool :=
  if Nat.ltb (length f1) 1 then Throw InvalidArgument
  else compare_fc f1 f2 neq (repeat tol (length f1 - 1)).

(** The comparator std::sort sees, once the comparisons are known not to throw. *)
Definition compare_fc_idx (input_f : list (list dbl)) (neq : nat) (tol : list dbl) (i j : nat) : bool :=
  match compare_fc (nth i input_f []) (nth j input_f []) neq tol with Ok b => b | _ => false end.

(** sort_population_con, constrained.cpp:180-202. std::sort calls compare_fc on
    pairs of individuals; it has to compare every individual with another one, along
    a connected set of pairs, so if the sizes are not the expected ones some
    comparison throws whatever the sorting algorithm. *)
Definition sort_population_con (srt : sorter) (input_f : list (list dbl)) (neq : nat) (tol : list dbl) : outcome (list nat) :=
  match input_f with
  | [] => Ok []
  | [_] => Ok [0]
  | f0 :: _ =>
      if forallb (fun f => Nat.leb 1 (length f) && Nat.eqb (length f - 1) (length tol) && Nat.leb neq (length f - 1)) input_f
      then std_sort srt (compare_fc_idx input_f neq tol) (iota (length input_f))
      else Throw InvalidArgument
  end.

(** sort_population_con with a scalar tolerance, constrained.cpp:216-238 *)
Definition sort_population_con_scalar (srt : sorter) (input_f : list (list dbl)) (neq : nat) (tol : dbl) : outcome (list nat) :=
  match input_f with
  | [] => Ok []
  | [_] => Ok [0]
  | f0 :: _ =>
      if Nat.ltb (length f0) 1 then Throw InvalidArgument
      else sort_population_con srt input_f neq (repeat tol (length f0 - 1))
  end.

(** problem::feasibility_f, problem.cpp:709-721 (problem dimensions as arguments) *)
Definition feasibility_f (nobj nec nic : nat) (c_tol f : list dbl) : outcome bool :=
  if negb (Nat.eqb (length f) (nobj + nec + nic)) then Throw InvalidArgument
  else
    bind (test_eq_constraints (firstn nec (skipn nobj f)) c_tol) (fun feas_eq =>
    bind (test_ineq_constraints (skipn (nobj + nec) f) (skipn nec c_tol)) (fun feas_ineq =>
    Ok (Nat.eqb (fst feas_eq + fst feas_ineq) (nec + nic)))).
