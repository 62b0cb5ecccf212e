(** Pareto optimality of real objective vectors. *)
From Coq Require Import List ZArith Reals.
Import ListNotations.
From Verif Require Import Outcome SpecTest.
Local Open Scope R_scope.

(** f is no worse than g in any objective (minimised), and not the same. *)
Definition pareto_dominates (f g : list R) : Prop := Forall2 Rle f g /\ f <> g.
(** x is admissible, and no admissible y has an objective vector that dominates that of x. *)
Definition pareto_optimal (admissible : list R -> Prop) (fit : list R -> outcome (list R)) (x : list R) : Prop :=
  admissible x /\ forall y fx fy, admissible y -> fit x = Ok fx -> fit y = Ok fy -> ~ pareto_dominates fy fx.
(** Within the bounds, and the last nix components are whole numbers. *)
Definition admissible (bounds : list R * list R) (nix : nat) (x : list R) : Prop :=
  in_bounds x bounds /\ forall i, (length x - nix <= i < length x)%nat -> exists k, nth i x 0 = IZR k.
(** The sum of the objectives, and of their squares *)
Definition total (f : list R) : R := fold_right Rplus 0 f.
Definition total_squares (f : list R) : R := fold_right (fun v s => v ^ 2 + s) 0 f.
