(** What cmaes and xnes use of Eigen: vectors are lists, matrices lists of rows. Operations on
    operands whose sizes do not fit are undefined (Eigen asserts). All matrices here are square;
    n is the number of rows and columns an operation expects. The order in which Eigen adds up
    the terms of a product or a sum, its decompositions and the functions of <cmath> are left
    open: they are the fields of [eigen]. *)
From Coq Require Import List Bool Arith ZArith.
From Verif Require Import Dbl Outcome.
Import ListNotations.

Definition vec := list dbl.
Definition mat := list (list dbl).
Record eigen := mkeigen {
  e_dot : vec -> vec -> dbl;                         (* the sum of the products of the elements *)
  e_sum : vec -> dbl;                                (* the sum of the elements *)
  e_eigh : mat -> option (mat * vec);                (* SelfAdjointEigenSolver: eigenvectors, eigenvalues, if successful *)
  e_mexp : mat -> mat;                               (* the exponential of a matrix *)
  e_log : dbl -> dbl; e_exp : dbl -> dbl; e_pow : dbl -> dbl -> dbl }.

Definition sq (n : nat) (M : mat) : bool := Nat.eqb (length M) n && forallb (fun row => Nat.eqb (length row) n) M.
Definition vsz (n : nat) (v : vec) : bool := Nat.eqb (length v) n.
Definition map2 {A B C} (f : A -> B -> C) (l : list A) (l' : list B) : list C := map (fun q => f (fst q) (snd q)) (combine l l').
Definition zeros (n : nat) : vec := repeat dzero n.
Definition diag (v : vec) : mat := map (fun i => map (fun j => if Nat.eqb i j then nth i v NaN else dzero) (seq 0 (length v))) (seq 0 (length v)).
Definition ident (n : nat) : mat := diag (repeat done n).
(** u + v, u - v, c * v, v * c, v / c *)
Definition vplus (n : nat) (u v : vec) : outcome vec := if vsz n u && vsz n v then Ok (map2 dadd u v) else UB.
Definition vminus (n : nat) (u v : vec) : outcome vec := if vsz n u && vsz n v then Ok (map2 dsub u v) else UB.
Definition vscale (c : dbl) (v : vec) : vec := map (dmul c) v.
Definition vtimes (v : vec) (c : dbl) : vec := map (fun x => dmul x c) v.
Definition vover (v : vec) (c : dbl) : vec := map (fun x => ddiv x c) v.
Definition mplus (n : nat) (A B : mat) : outcome mat := if sq n A && sq n B then Ok (map2 (map2 dadd) A B) else UB.
Definition mminus (n : nat) (A B : mat) : outcome mat := if sq n A && sq n B then Ok (map2 (map2 dsub) A B) else UB.
Definition mscale (c : dbl) (A : mat) : mat := map (vscale c) A.
Definition mtimes (A : mat) (c : dbl) : mat := map (fun v => vtimes v c) A.
Definition mover (A : mat) (c : dbl) : mat := map (fun v => vover v c) A.
Definition column (M : mat) (j : nat) : vec := map (fun row => nth j row NaN) M.
Definition transpose (n : nat) (M : mat) : outcome mat := if sq n M then Ok (map (column M) (seq 0 n)) else UB.
Definition diagonal (n : nat) (M : mat) : outcome vec := if sq n M then Ok (map (fun i => nth i (nth i M []) NaN) (seq 0 n)) else UB.
(** u * v.transpose() *)
Definition outer (u v : vec) : mat := map (fun x => map (dmul x) v) u.
Section K.
Context (K : eigen).
Definition mvec (n : nat) (M : mat) (v : vec) : outcome vec := if sq n M && vsz n v then Ok (map (fun row => e_dot K row v) M) else UB.
Definition mmul (n : nat) (A B : mat) : outcome mat :=
  if sq n A && sq n B then Ok (map (fun row => map (fun j => e_dot K row (column B j)) (seq 0 n)) A) else UB.
(** v.norm(), v.squaredNorm() *)
Definition sqnorm (v : vec) : dbl := e_dot K v v.
Definition vnorm (v : vec) : dbl := dsqrt (sqnorm v).
End K.
