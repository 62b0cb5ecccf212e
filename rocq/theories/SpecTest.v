(** What it means for a gradient or a Hessian to be right, in terms of the derivative of the
    standard library. *)
From Coq Require Import List ZArith Reals.
Import ListNotations.
From Verif Require Import Outcome.
Local Open Scope R_scope.

(** x with component j replaced by t *)
Definition set_at (x : list R) (j : nat) (t : R) : list R := firstn j x ++ t :: skipn (S j) x.
(** Component i of the fitness, as a function of the decision vector *)
Definition component (fit : list R -> outcome (list R)) (i : nat) (x : list R) : R :=
  match fit x with Ok f => nth i f 0 | _ => 0 end.
(** d is the partial derivative of F at x in direction j. *)
Definition partial (F : list R -> R) (x : list R) (j : nat) (d : R) : Prop :=
  derivable_pt_lim (fun t => F (set_at x j t)) (nth j x 0) d.
(** h is the derivative in direction j of the partial derivative of F in direction i. *)
Definition partial2 (nx : nat) (F : list R -> R) (x : list R) (i j : nat) (h : R) : Prop :=
  exists D, (forall y, length y = nx -> partial F y i (D y)) /\ partial D x j h.

(** A fitness with nf components in nx variables is defined everywhere; the gradient lists
    the partial derivatives in the order of the pattern, and those the pattern leaves out
    vanish. *)
Definition gradient_right (nx nf : nat) (fit grad : list R -> outcome (list R)) (pattern : list (nat * nat)) : Prop :=
  forall x, length x = nx ->
    (exists f, fit x = Ok f /\ length f = nf) /\
    exists g, grad x = Ok g /\ length g = length pattern /\
      (forall k i j, nth_error pattern k = Some (i, j) -> (i < nf /\ j < nx)%nat /\ partial (component fit i) x j (nth k g 0)) /\
      (forall i j, (i < nf)%nat -> (j < nx)%nat -> ~ In (i, j) pattern -> partial (component fit i) x j 0).
(** The same for the lower triangles of the Hessians, one for each component. *)
Definition hessians_right (nx nf : nat) (fit : list R -> outcome (list R)) (hess : list R -> outcome (list (list R))) (patterns : list (list (nat * nat))) : Prop :=
  length patterns = nf /\
  forall x, length x = nx -> exists hs, hess x = Ok hs /\ length hs = nf /\
    forall m, (m < nf)%nat -> let pattern := nth m patterns [] in let h := nth m hs [] in
      length h = length pattern /\
      (forall k i j, nth_error pattern k = Some (i, j) -> (j <= i < nx)%nat /\ partial2 nx (component fit m) x i j (nth k h 0)) /\
      (forall i j, (j <= i < nx)%nat -> ~ In (i, j) pattern -> partial2 nx (component fit m) x i j 0).

(** Every component of x is between those of lb and ub. *)
Definition in_bounds (x : list R) (b : list R * list R) : Prop :=
  length x = length (fst b) /\ length x = length (snd b) /\ forall i, (i < length x)%nat -> nth i (fst b) 0 <= nth i x 0 <= nth i (snd b) 0.
(** best is a point within the bounds, its fitness [v] is the smallest in nx variables, and
    no other point has it. *)
Definition minimum_at (nx : nat) (fit : list R -> outcome (list R)) (bounds : list R * list R) (best : list R) (v : R) : Prop :=
  length best = nx /\ in_bounds best bounds /\ fit best = Ok [v] /\ forall x, length x = nx -> exists f, fit x = Ok [f] /\ v <= f /\ (f = v -> x = best).

(** A Lennard-Jones cluster: the decision vector is the list of the coordinates of the atoms
    without the six that are fixed at zero, those of atom 0, the first two of atom 1 and the
    first of atom 2. *)
Definition coordinates (x : list R) : list R := repeat 0 5 ++ firstn 1 x ++ [0] ++ skipn 1 x.
Definition square_distance (x : list R) (i j : nat) : R :=
  let d k := nth (3 * i + k) (coordinates x) 0 - nth (3 * j + k) (coordinates x) 0 in d 0%nat ^ 2 + d 1%nat ^ 2 + d 2%nat ^ 2.
Definition atom_pairs (atoms : nat) : list (nat * nat) := filter (fun ij => Nat.ltb (fst ij) (snd ij)) (list_prod (seq 0 atoms) (seq 0 atoms)).
(** 4 times the sum over the pairs of atoms of 1 / r^12 - 1 / r^6 *)
Definition lennard_jones_energy (atoms : nat) (x : list R) : R :=
  4 * fold_right Rplus 0 (map (fun ij => let r2 := square_distance x (fst ij) (snd ij) in / r2 ^ 6 - / r2 ^ 3) (atom_pairs atoms)).
Definition all_apart (atoms : nat) (x : list R) : Prop := forall i j, (i < j < atoms)%nat -> square_distance x i j <> 0.
