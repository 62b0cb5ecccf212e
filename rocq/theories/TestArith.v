(** The arithmetic the test problems compute with. Their code is written once, for any
    arithmetic; the C++ uses double, the theorems about values use the real numbers. *)
From Coq Require Import List ZArith Reals.
Import ListNotations.
From Verif Require Import Outcome.

(** The operators +, -, *, / and unary -, a literal num/den, the functions of <cmath> the
    problems call, detail::pi() (include/pagmo/detail/constants.hpp), std::max<double> and
    the comparison ==. *)
Record arith (A : Type) := mkarith {
  ar_add : A -> A -> A; ar_sub : A -> A -> A; ar_mul : A -> A -> A; ar_div : A -> A -> A; ar_neg : A -> A;
  ar_lit : Z -> Z -> A;
  ar_sqrt : A -> A; ar_abs : A -> A; ar_exp : A -> A; ar_sin : A -> A; ar_cos : A -> A; ar_pow : A -> A -> A;
  ar_round : A -> A; ar_floor : A -> A;
  ar_pi : A; ar_huge : A;
  ar_eqb : A -> A -> bool }.
Arguments ar_add {A}. Arguments ar_sub {A}. Arguments ar_mul {A}. Arguments ar_div {A}. Arguments ar_neg {A}.
Arguments ar_lit {A}. Arguments ar_sqrt {A}. Arguments ar_abs {A}. Arguments ar_exp {A}. Arguments ar_sin {A}. Arguments ar_cos {A}.
Arguments ar_pow {A}. Arguments ar_round {A}. Arguments ar_floor {A}. Arguments ar_pi {A}. Arguments ar_huge {A}. Arguments ar_eqb {A}.

Declare Scope arith_scope.
Delimit Scope arith_scope with ar.

(** std::pow on the real numbers: x^y for positive x, for integral y the product, and 0 to a
    positive power is 0. A negative number to a power that is not integral is NaN in C; the
    real function is 0 there, and no theorem speaks about such a point. *)
Definition rpow (x y : R) : R :=
  if Rlt_dec 0 x then Rpower x y
  else if Req_EM_T (IZR (Int_part y)) y then powerRZ x (Int_part y)
  else 0%R.
(** std::floor and std::round (halves away from zero) *)
Definition rfloor (x : R) : R := IZR (Int_part x).
Definition rround (x : R) : R := if Rle_dec 0 x then rfloor (x + / 2) else (- rfloor (- x + / 2))%R.
(** The real numbers; the largest double is (2^53 - 1) * 2^971. *)
Definition Rar : arith R :=
  {| ar_add := Rplus; ar_sub := Rminus; ar_mul := Rmult; ar_div := Rdiv; ar_neg := Ropp;
     ar_lit := fun n d => (IZR n / IZR d)%R;
     ar_sqrt := sqrt; ar_abs := Rabs; ar_exp := exp; ar_sin := sin; ar_cos := cos; ar_pow := rpow;
     ar_round := rround; ar_floor := rfloor;
     ar_pi := PI; ar_huge := (IZR (2 ^ 53 - 1) * 2 ^ 971)%R;
     ar_eqb := fun x y => if Req_EM_T x y then true else false |}.
