(** The Schwefel function of the documentation. *)
From Coq Require Import List Reals.
Import ListNotations.
Local Open Scope R_scope.

(** The sum over the components of 418.9828872724338 - a sin(sqrt |a|) *)
Definition schwefel_term (a : R) : R := 4189828872724338 / 10000000000000 - a * sin (sqrt (Rabs a)).
Definition schwefel_value (x : list R) : R := fold_right Rplus 0 (map schwefel_term x).
