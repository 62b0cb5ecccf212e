(** Model of the generation of decomposition weights:
    detail::reksum (src/utils/multi_objective.cpp:60-77) and
    decomposition_weights (include/pagmo/utils/multi_objective.hpp:127-212). *)
From Coq Require Import List Bool Arith ZArith.
From Verif Require Import Dbl Outcome StdSort Compare Discrepancy.
Import ListNotations.
Local Open Scope Z_scope.

Definition two64 : Z := 2 ^ 64.

(** std::find(X.begin(), X.end(), s) != X.end() *)
Definition found (X : list Z) (s : Z) : bool := existsb (Z.eqb s) X.

(** multi_objective.cpp:60-77. The C++ parameter m is [S m1]; callers pass m >= 2
    and the recursion stops at 1. s - X[i] is unsigned 64-bit subtraction.
    The tuples are kept as integers; the C++ code casts each entry to double on
    insertion, which the caller below does afterwards. *)
Fixpoint reksum (X : list Z) (m1 : nat) (s : Z) (eggs : list Z) (ret : list (list Z)) : list (list Z) :=
  match m1 with
  | O => if found X s then ret ++ [eggs ++ [s]] else ret
  | S m => fold_left (fun ret x => reksum X m ((s - x) mod two64) (eggs ++ [x]) ret) X ret
  end.

(** std::iota over H+1 elements *)
Definition zrange0 (n : nat) : list Z := map Z.of_nat (seq 0 n).

Definition dhalf : dbl := Fin (2 ^ 1073).
Definition d1em8 : dbl := Fin ((2 ^ 52 + 1541029470702650) * 2 ^ 995).
(** std::floor *)
Definition dfloor (a : dbl) : dbl := match a with Fin z => Fin (z / one_z * one_z) | _ => a end.

(** multi_objective.hpp:157-161: while (binomial(H+n_f-1, n_f-1) <= n_w) ++H.
    [binom] stands for pagmo::binomial_coefficient (src/utils/generic.cpp:79-88),
    which is computed with lgamma and exp. *)
Fixpoint grid_loop (binom : Z -> Z -> dbl) (fuel : nat) (nf nw : Z) (H : Z) : outcome Z :=
  match fuel with
  | O => NoFuel
  | S k => if dle (binom (H + nf - 1) (nf - 1)) (d_of_Z nw) then grid_loop binom k nf nw (H + 1) else Ok H
  end.

(** multi_objective.hpp:151-162 *)
Definition grid_H (binom : Z -> Z -> dbl) (fuel : nat) (nf nw : Z) : outcome Z :=
  if nf =? 2 then Ok (nw - 1)
  else if nf =? 3 then
    match dfloor (dmul dhalf (dsub (dsqrt (dadd (dmul (d_of_Z 8) (d_of_Z nw)) done)) (d_of_Z 3))) with
    | Fin z => if z <? 0 then UB else Ok (Z_of_d z)
    | _ => UB
    end
  else bind (grid_loop binom fuel nf nw 1) (fun H => Ok (H - 1)).

Inductive wmethod := WGrid | WLowDiscrepancy | WRandom | WOther.

(** multi_objective.hpp:184-187 and 196-199: [1,0,0,...], [0,1,0,...], ... *)
Definition corners (nf : nat) : list (list dbl) := map (fun i => upd (repeat dzero nf) i done) (seq 0 nf).

(** [halton_pts i] is the i-th point returned by the Halton generator (dimension
    n_f - 1), [draw i j] the j-th uniform draw for the i-th random weight. *)
Definition decomposition_weights (srt : sorter) (binom : Z -> Z -> dbl) (fuel : nat)
    (halton_pts : nat -> list dbl) (draw : nat -> nat -> dbl)
    (nf nw : nat) (m : wmethod) : outcome (list (list dbl)) :=
  if Nat.ltb nw nf then Throw InvalidArgument
  else if Nat.ltb nf 2 then Throw InvalidArgument
  else match m with
  | WGrid =>
      bind (grid_H binom fuel (Z.of_nat nf) (Z.of_nat nw)) (fun H =>
      if dgt (dabs (dsub (d_of_Z (Z.of_nat nw)) (binom (H + Z.of_nat nf - 1) (Z.of_nat nf - 1)))) d1em8
      then Throw InvalidArgument
      else Ok (map (map (fun k => ddiv (d_of_Z k) (d_of_Z H)))
                   (reksum (zrange0 (Z.to_nat (H + 1))) (nf - 1) H [] [])))
  | WLowDiscrepancy =>
      bind (mmap (fun i => sample_from_simplex srt (halton_pts i)) (seq nf (nw - nf))) (fun ws =>
      Ok (corners nf ++ ws))
  | WRandom =>
      bind (mmap (fun i => sample_from_simplex srt (map (draw i) (seq 0 (nf - 1)))) (seq nf (nw - nf))) (fun ws =>
      Ok (corners nf ++ ws))
  | WOther => Throw InvalidArgument
  end.
