(** Vocabulary for the ZDT problems. *)
From Coq Require Import List ZArith Reals.
Import ListNotations.
From Verif Require Import Outcome TestArith SpecTest SpecPareto Zdt.
Local Open Scope R_scope.

(** A decision vector of the problem: within its bounds, with whole numbers where the problem
    declares integers *)
Definition zdt_admissible (id param : Z) : list R -> Prop := admissible (zdt_bounds Rar id (Z.to_nat (zdt_dim id param))) (Z.to_nat (zdt_nix id param)).
(** The unsigned int with the dimension of ZDT5 does not wrap around. *)
Definition zdt_fits (id param : Z) : Prop := (param < 2 ^ 32 /\ (id = 5 -> 30 + 5 * (param - 1) < 2 ^ 32))%Z.
(** The fronts of the ZDT problems: the second objective in terms of the first. *)
Definition zdt_front (id param : Z) (a : R) : R :=
  if (id =? 1)%Z then 1 - sqrt a else if (id =? 2)%Z then 1 - a ^ 2 else if (id =? 3)%Z then 1 - sqrt a - a * sin (10 * PI * a)
  else if (id =? 4)%Z then 1 - sqrt a else if (id =? 5)%Z then (IZR param - 1) / a else 1 - a ^ 2.
