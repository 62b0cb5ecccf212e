(** Specification vocabulary for constraint handling. *)
From Coq Require Import List Arith ZArith.
From Verif Require Import Dbl Outcome SpecOrder Constrained.
Import ListNotations.

(** The constraint value c is within tolerance t: |c| <= t for an equality, c <= t for
    an inequality ([dle] is the IEEE <=, false on NaN). *)
Definition within (eq : bool) (c t : dbl) : Prop := dle (if eq then dabs c else c) t = true.

(** Constraint i of the list is satisfied. *)
Definition sat_at (eq : bool) (c tol : list dbl) (i : nat) : Prop :=
  exists x t, nth_error c i = Some x /\ nth_error tol i = Some t /\ within eq x t.

(** Exactly n indices have property P. *)
Definition exactly (n : nat) (P : nat -> Prop) : Prop :=
  exists l, NoDup l /\ length l = n /\ forall i, In i l <-> P i.

(** A fitness vector is: one objective, [neq] equality constraints, inequality constraints. *)
Definition satisfied (neq : nat) (tol f : list dbl) (i : nat) : Prop :=
  exists c t, nth_error f (S i) = Some c /\ nth_error tol i = Some t /\ within (Nat.ltb i neq) c t.
Definition feasible (neq : nat) (tol f : list dbl) : Prop := forall i, i < length tol -> satisfied neq tol f i.

Definition finite_all (l : list dbl) : Prop := Forall (fun t => isfinite t = true) l.
(** What compare_fc expects of its arguments. *)
Definition fc_args_ok (neq : nat) (tol f : list dbl) : Prop := length f = S (length tol) /\ neq <= length tol.

(** Euclidean norm of the violations, in IEEE arithmetic summed left to right: the
    excess of a constraint is max(|c| - t, 0) or max(c - t, 0). *)
Definition excess (eq : bool) (c t : dbl) : dbl := dmax (dsub (if eq then dabs c else c) t) dzero.
Fixpoint excesses (eq : bool) (c tol : list dbl) : list dbl :=
  match c, tol with x :: c', t :: tol' => excess eq x t :: excesses eq c' tol' | _, _ => [] end.
Definition violation_norm (eq : bool) (c tol : list dbl) : dbl :=
  dsqrt (fold_left (fun s e => dadd s (dmul e e)) (excesses eq c tol) dzero).

(** The two blocks of a fitness vector and of its tolerances. *)
Definition eq_norm (neq : nat) (tol f : list dbl) : dbl := violation_norm true (firstn neq (tl f)) (firstn neq tol).
Definition ineq_norm (neq : nat) (tol f : list dbl) : dbl := violation_norm false (skipn neq (tl f)) (skipn neq tol).

(** compare_fc as a relation: it returns true. *)
Definition fc_lt (neq : nat) (tol : list dbl) (a b : list dbl) : bool :=
  match compare_fc a b neq tol with Ok r => r | _ => false end.
