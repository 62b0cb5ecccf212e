(** include/pagmo/detail/custom_comparisons.hpp *)
From Coq Require Import List Bool.
From Verif Require Import Dbl.
Import ListNotations.

(** custom_comparisons.hpp:54-69, template parameter [After] explicit. *)
Definition less_than_f_gen (after : bool) (a b : dbl) : bool :=
  if negb (isnan a) then
    (if negb (isnan b) then dlt a b else after)
  else
    (if negb (isnan b) then negb after else false).

(** custom_comparisons.hpp:74-89 *)
Definition greater_than_f_gen (after : bool) (a b : dbl) : bool :=
  if negb (isnan a) then
    (if negb (isnan b) then dgt a b else negb after)
  else
    (if negb (isnan b) then after else false).

(** Default template argument After = true (custom_comparisons.hpp:54,74). *)
Definition less_than_f : dbl -> dbl -> bool := less_than_f_gen true.
Definition greater_than_f : dbl -> dbl -> bool := greater_than_f_gen true.

(** custom_comparisons.hpp:93-100 *)
Definition equal_to_f (a b : dbl) : bool :=
  if negb (isnan a) && negb (isnan b) then deq a b else isnan a && isnan b.

(** custom_comparisons.hpp:104-115 *)
Fixpoint std_equal_f (l r : list dbl) : bool :=
  match l, r with
  | [], _ => true
  | x :: l', y :: r' => equal_to_f x y && std_equal_f l' r'
  | _ :: _, [] => false   (* not reached: sizes are compared first *)
  end.
Definition equal_to_vf (l r : list dbl) : bool :=
  if negb (Nat.eqb (length l) (length r)) then false else std_equal_f l r.
