(** Vocabulary for the numerical derivatives. *)
From Coq Require Import List Arith ZArith QArith.
From Verif Require Import Dbl Outcome Problem Gradients.
Import ListNotations.
Local Open Scope nat_scope.

(** y is x with component j replaced by v. *)
Definition moved {A} (x : list A) (j : nat) (v : A) (y : list A) : Prop :=
  length y = length x /\ j < length x /\ nth_error y j = Some v /\ forall k, k <> j -> nth_error y k = nth_error x k.
(** With component j of x set to v, f has nf components and component i is a. *)
Definition value_at {A} (f : list A -> outcome (list A)) (x : list A) (j : nat) (v : A) (nf i : nat) (a : A) : Prop :=
  exists y w, moved x j v y /\ f y = Ok w /\ length w = nf /\ nth_error w i = Some a.

(** Polynomials in one variable over the rationals, and their derivatives. *)
Fixpoint peval (c : list Q) (v : Q) : Q := match c with [] => 0%Q | a :: c' => (a + v * peval c' v)%Q end.
(** derivative of c0 + c1 v + c2 v^2 + ... : c1 + 2 c2 v + 3 c3 v^2 + ... *)
Fixpoint dcoefs (k : Z) (c : list Q) : list Q := match c with [] => [] | a :: c' => (inject_Z k * a)%Q :: dcoefs (k + 1) c' end.
Definition pderiv (c : list Q) (v : Q) : Q := match c with [] => 0%Q | _ :: c' => peval (dcoefs 1 c') v end.
(** As a function of component j alone, component i of f is a polynomial around x. *)
Definition polynomial_in (f : list Q -> outcome (list Q)) (x : list Q) (nf i j : nat) (c : list Q) : Prop :=
  forall v y, moved x j v y -> exists w a, f y = Ok w /\ length w = nf /\ nth_error w i = Some a /\ (a == peval c v)%Q.

(** The steps of the formulas, relative to the current value. *)
Definition step {A} (o : ops A) (dx xj : A) : A := o_mul o (o_max o (o_abs o xj) (o_num o 1)) dx.
Definition two_points {A} (o : ops A) (dx xj : A) : list A := let h := step o dx xj in [o_add o xj h; o_sub o xj h].
Definition six_points {A} (o : ops A) (dx xj : A) : list A :=
  let h := step o dx xj in
  [o_add o xj h; o_sub o xj h; o_add o xj (o_mul o (o_num o 2) h); o_sub o xj (o_mul o (o_num o 2) h);
   o_add o xj (o_mul o (o_num o 3) h); o_sub o xj (o_mul o (o_num o 3) h)].
Definition one_point {A} (o : ops A) (dx xj : A) : list A := [o_add o xj (step o dx xj)].
(** Every call around x returns; every one returns nf values; some one does not. *)
Definition calls_return {A} (pts : A -> list A) (f : list A -> outcome (list A)) (x : list A) : Prop :=
  forall j xj v y, nth_error x j = Some xj -> In v (pts xj) -> moved x j v y -> exists w, f y = Ok w.
Definition calls_have_size {A} (pts : A -> list A) (f : list A -> outcome (list A)) (x : list A) (nf : nat) : Prop :=
  forall j xj v y, nth_error x j = Some xj -> In v (pts xj) -> moved x j v y -> exists w, f y = Ok w /\ length w = nf.
Definition some_call_differs {A} (pts : A -> list A) (f : list A -> outcome (list A)) (x : list A) (nf : nat) : Prop :=
  exists j xj v y w, nth_error x j = Some xj /\ In v (pts xj) /\ moved x j v y /\ f y = Ok w /\ length w <> nf.
