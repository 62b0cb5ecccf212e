(** Model of include/pagmo/utils/gradients_and_hessians.hpp.

    The functions are templates over the callable; here they are written once over a
    record of arithmetic operations, so that the same code is run on doubles ([Dops]) and
    on exact rationals ([Qops]). The call f is a parameter that may throw. The product
    f0.size() * x.size() is the size of a vector that exists and does not overflow. *)
From Coq Require Import List Bool Arith ZArith QArith Qabs.
From Verif Require Import Dbl Outcome StdSort IntDbl Problem.
Import ListNotations.
Local Open Scope nat_scope.

Record ops (A : Type) := {
  o_add : A -> A -> A; o_sub : A -> A -> A; o_mul : A -> A -> A; o_div : A -> A -> A;
  o_abs : A -> A; o_max : A -> A -> A; o_neq : A -> A -> bool; o_num : Z -> A }.
Arguments o_add {A}. Arguments o_sub {A}. Arguments o_mul {A}. Arguments o_div {A}.
Arguments o_abs {A}. Arguments o_max {A}. Arguments o_neq {A}. Arguments o_num {A}.
Definition Dops : ops dbl :=
  {| o_add := dadd; o_sub := dsub; o_mul := dmul; o_div := ddiv; o_abs := dabs; o_max := dmax; o_neq := dneq; o_num := dint |}.
Definition Qops : ops Q :=
  {| o_add := Qplus; o_sub := Qminus; o_mul := Qmult; o_div := Qdiv; o_abs := Qabs;
     o_max := fun a b => if Qle_bool b a then a else b; o_neq := fun a b => negb (Qeq_bool a b); o_num := inject_Z |}.

Section Estimate.
Context {A : Type} (o : ops A) (f : list A -> outcome (list A)) (x : list A) (dx : A).

(** std::max(std::abs(x[j]), 1.0) * dx, lines 76, 139, 209 *)
Definition step_size (xj : A) : A := o_mul o (o_max o (o_abs o xj) (o_num o 1)) dx.

(** ** estimate_sparsity, lines 68-93 *)

(** The loop over i, lines 83-87 *)
Fixpoint changed (i j : nat) (fn f0 : list A) : sparsity :=
  match fn, f0 with
  | a :: fn', b :: f0' => if o_neq o a b then (i, j) :: changed (S i) j fn' f0' else changed (S i) j fn' f0'
  | _, _ => []
  end.
(** One turn of the loop over j, lines 75-89; the state is (retval, x_new) *)
Definition sparsity_step (f0 : list A) (s : sparsity * list A) (j : nat) : outcome (sparsity * list A) :=
  let (ret, xn) := s in
  bind (vget x j) (fun xj =>
  bind (vset xn j (o_add o xj (step_size xj))) (fun xn1 =>
  bind (f xn1) (fun fn =>
  if negb (Nat.eqb (length fn) (length f0)) then Throw InvalidArgument else
  bind (vset xn1 j xj) (fun xn2 => Ok (ret ++ changed 0 j fn f0, xn2))))).
(** std::sort with the < of std::pair *)
Definition estimate_sparsity (srt : sorter) : outcome sparsity :=
  bind (f x) (fun f0 =>
  bind (mfold (sparsity_step f0) ([], x) (seq 0 (length x))) (fun s =>
  std_sort srt pair_lt (fst s))).

(** ** estimate_gradient, lines 131-155, and estimate_gradient_h, lines 199-244

    The two functions have the same shape. [probes] gives the points x_r, x_l, ... (each a
    copy of x with component j replaced by a function of x[j] and h) in the order in which
    f is called on them, [formula] the entry computed from h and the values there. The
    vectors x_r, x_l, ... are kept in a list. *)
Context (probes : list (A -> A -> A)) (formula : A -> list A -> A).

(** Assign component j of each vector *)
Fixpoint set_all (xs : list (list A)) (j : nat) (vs : list A) : outcome (list (list A)) :=
  match xs, vs with
  | v :: xs', a :: vs' => bind (vset v j a) (fun v' => bind (set_all xs' j vs') (fun r => Ok (v' :: r)))
  | _, _ => Ok []
  end.
(** One turn of the loop over j, lines 138-153 and 208-242 *)
Definition gradient_step (nf : nat) (s : list A * list (list A)) (j : nat) : outcome (list A * list (list A)) :=
  let (g, xs) := s in
  bind (vget x j) (fun xj =>
  let h := step_size xj in
  bind (set_all xs j (map (fun pr => pr xj h) probes)) (fun xs1 =>
  bind (mmap f xs1) (fun fs =>
  if existsb (fun v => negb (Nat.eqb (length v) nf)) fs then Throw InvalidArgument else
  bind (mfold (fun g i => bind (mmap (fun v => vget v i) fs) (fun vs => vset g (j + i * length x) (formula h vs))) g (seq 0 nf)) (fun g' =>
  bind (set_all xs1 j (repeat xj (length probes))) (fun xs2 => Ok (g', xs2)))))).
Definition estimate_with : outcome (list A) :=
  bind (f x) (fun f0 =>
  bind (mfold (gradient_step (length f0)) (repeat (o_num o 0) (length f0 * length x), repeat x (length probes)) (seq 0 (length x))) (fun s =>
  Ok (fst s))).
End Estimate.

Section Formulas.
Context {A : Type} (o : ops A).
Let n := o_num o.
(** lines 140-141 and line 149 *)
Definition probes2 : list (A -> A -> A) := [o_add o; o_sub o].
Definition formula2 (h : A) (vs : list A) : A :=
  match vs with [r; l] => o_div o (o_div o (o_sub o r l) (n 2)) h | _ => n 0 end.
(** lines 210-215 and lines 228-234 *)
Definition probes6 : list (A -> A -> A) :=
  [o_add o; o_sub o;
   (fun x h => o_add o x (o_mul o (n 2) h)); (fun x h => o_sub o x (o_mul o (n 2) h));
   (fun x h => o_add o x (o_mul o (n 3) h)); (fun x h => o_sub o x (o_mul o (n 3) h))].
Definition formula6 (h : A) (vs : list A) : A :=
  match vs with
  | [r1; l1; r2; l2; r3; l3] =>
      let m1 := o_div o (o_sub o r1 l1) (n 2) in
      let m2 := o_div o (o_sub o r2 l2) (n 4) in
      let m3 := o_div o (o_sub o r3 l3) (n 6) in
      o_div o (o_add o (o_sub o (o_mul o (n 15) m1) (o_mul o (n 6) m2)) m3) (o_mul o (n 10) h)
  | _ => n 0
  end.
End Formulas.
Definition estimate_gradient {A} (o : ops A) f x dx := estimate_with o f x dx (probes2 o) (formula2 o).
Definition estimate_gradient_h {A} (o : ops A) f x dx := estimate_with o f x dx (probes6 o) (formula6 o).
