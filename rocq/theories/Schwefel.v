(** src/problems/schwefel.cpp, for any arithmetic. *)
From Coq Require Import List ZArith Bool.
Import ListNotations.
From Verif Require Import Outcome TestArith TestProblems.

Section Schwefel.
Context {A : Type} (o : arith A).
(** The constructor, schwefel.cpp:43-49 *)
Definition schwefel_ctor (dim : nat) : outcome nat := if Nat.ltb dim 1 then Throw InvalidArgument else Ok dim.
(** fitness, schwefel.cpp:59-68; the literal 418.9828872724338 *)
Definition schwefel_fitness (x : list A) : outcome (list A) :=
  bind (sum_loop o (fun i => bind (vget x i) (fun a => Ok (ar_mul o a (ar_sin o (ar_sqrt o (ar_abs o a)))))) (seq 0 (length x))) (fun s =>
  Ok [ar_sub o (ar_mul o (ar_lit o 4189828872724338 (10 ^ 13)) (ar_lit o (Z.of_nat (length x)) 1)) s]).
(** get_bounds, schwefel.cpp:76-81 *)
Definition schwefel_bounds (dim : nat) : list A * list A := (repeat (ar_lit o (-500) 1) dim, repeat (ar_lit o 500 1) dim).
(** best_known, schwefel.cpp:87-90 *)
Definition schwefel_best (dim : nat) : list A := repeat (ar_lit o 4209687 10000) dim.
End Schwefel.
