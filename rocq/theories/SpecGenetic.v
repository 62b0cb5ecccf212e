(** Vocabulary for the genetic operators and other randomised procedures. *)
From Coq Require Import List Arith ZArith.
From Verif Require Import Dbl Outcome Rng SpecProblem SpecGeneric.
Import ListNotations.

(** Whatever the state of the generator, the computation ends normally in a result
    that satisfies Q, or throws an exception that satisfies E: no undefined behaviour. *)
Definition always {G A} (m : RM G A) (Q : A -> Prop) (E : exn -> Prop) : Prop :=
  forall g, match fst (m g) with Ok a => Q a | Throw e => E e | _ => False end.
Definition never (e : exn) : Prop := False.

(** What is used of std::pow (C17 F.10.4.4 and monotonicity). *)
Record pow_contract (pw : dbl -> dbl -> dbl) : Prop := {
  pow_nonneg : forall x y, dle dzero x = true -> y <> NaN -> dle dzero (pw x y) = true;
  pow_big : forall x y, dle done x = true -> dle y dzero = true -> dle (pw x y) done = true;
  pow_small : forall x y, dle dzero x = true -> dle x done = true -> dle dzero y = true -> dle (pw x y) done = true;
  pow_one : forall y, pw done y = done;
  pow_zero : forall y, dlt dzero y = true -> pw dzero y = dzero
}.

(** The absolute value is at most 2^1022 (about 4.5e307). *)
Definition moderate (x : dbl) : Prop := exists z, x = Fin z /\ (Z.abs z <= 2 ^ 2096)%Z.

(** The last n components are integers. *)
Definition integral_tail (n : nat) (x : list dbl) : Prop :=
  forall i v, length x - n <= i -> nth_error x i = Some v -> integral v.

(** Every component is NaN or inside its bounds. *)
Definition in_box_or_nan (lb ub x : list dbl) : Prop :=
  length x = length lb /\ length x = length ub /\
  forall i l u v, nth_error lb i = Some l -> nth_error ub i = Some u -> nth_error x i = Some v -> v = NaN \/ within l u v.

(** Bounds fit for the integer mutation. *)
Definition ints_fit (nix : nat) (lb ub : list dbl) : Prop :=
  forall i l u, length lb - nix <= i -> nth_error lb i = Some l -> nth_error ub i = Some u -> fits_long_long l /\ fits_long_long u.

(** The arguments that the public functions accept. *)
Definition finite_bounds (lb ub : list dbl) : Prop :=
  (forall l, In l lb -> isfinite l = true) /\ (forall u, In u ub -> isfinite u = true).
Definition sbx_args (p1 p2 lb ub : list dbl) (nix : nat) (p_cr eta : dbl) : Prop :=
  good_bounds lb ub nix /\ length p1 = length lb /\ length p2 = length lb /\ finite_bounds lb ub /\ isfinite p_cr = true /\ isfinite eta = true.
Definition mut_args (dv lb ub : list dbl) (nix : nat) (p_m eta : dbl) : Prop :=
  good_bounds lb ub nix /\ length dv = length lb /\ finite_bounds lb ub /\ isfinite p_m = true /\ isfinite eta = true.

(** From position k on, the two children have the parents' genes, each pair in either order. *)
Definition exchanged (p1 p2 : list dbl) (k : nat) (c1 c2 : list dbl) : Prop :=
  forall j, k <= j -> (nth_error c1 j = nth_error p1 j /\ nth_error c2 j = nth_error p2 j) \/
                      (nth_error c1 j = nth_error p2 j /\ nth_error c2 j = nth_error p1 j).
(** Continuous genes whose bounds coincide have their old value. *)
Definition kept_where_fixed (p lb ub : list dbl) (nix : nat) (c : list dbl) : Prop :=
  forall i l u, i < length lb - nix -> nth_error lb i = Some l -> nth_error ub i = Some u -> deq l u = true -> nth_error c i = nth_error p i.
