(** Specification vocabulary for the generic utilities. *)
From Coq Require Import List Arith ZArith.
From Verif Require Import Dbl Outcome SpecOrder Problem SpecProblem.
Import ListNotations.

(** A value inside its bounds (false for NaN), and a vector inside its box. *)
Definition within (l u x : dbl) : Prop := dle l x = true /\ dle x u = true.
Definition in_box (lb ub x : list dbl) : Prop :=
  length x = length lb /\ length x = length ub /\
  forall i l u v, nth_error lb i = Some l -> nth_error ub i = Some u -> nth_error x i = Some v -> within l u v.

(** An integer that fits in 64 bits. *)
Definition fits_long_long (x : dbl) : Prop := exists k : Z, x = Fin (k * one_z) /\ (- 2 ^ 63 <= k < 2 ^ 63)%Z.

(** A finite interval whose width does not overflow. *)
Definition ok_real (l u : dbl) : Prop := isfinite l = true /\ isfinite u = true /\ isfinite (dsub u l) = true.

(** A multiple of 2^(a-1074) smaller than 2^b times that unit. *)
Definition gridpt (a k : Z) : dbl := Fin (k * 2 ^ a).
Definition on_grid (a b : Z) (x : dbl) : Prop := exists k, x = gridpt a k /\ (Z.abs k < 2 ^ b)%Z.

(** Bounds between which random values can be generated: continuous variables need
    finite bounds a finite distance apart, integer ones bounds fitting in 64 bits. *)
Definition usable (p : problem) : Prop :=
  forall i l u, nth_error (p_lb p) i = Some l -> nth_error (p_ub p) i = Some u ->
    if i <? (get_nx p - p_nix p) then isfinite l = true /\ isfinite u = true /\ isfinite (dsub u l) = true
    else fits_long_long l /\ fits_long_long u.

(** Euclidean distance, as computed in double precision. *)
Definition euclid (a b : list dbl) : dbl :=
  dsqrt (fold_left (fun s q => dadd s (dmul (dsub (fst q) (snd q)) (dsub (fst q) (snd q)))) (combine a b) dzero).

(** [l] lists [m] nearest neighbours of point number i, nearest first. *)
Definition nearest (points : list (list dbl)) (i m : nat) (l : list nat) : Prop :=
  let dist j := euclid (nth i points []) (nth j points []) in
  length l = m /\ NoDup l /\ (forall j, In j l -> j < length points /\ j <> i) /\
  (forall s t a b, s < t -> nth_error l s = Some a -> nth_error l t = Some b -> not_worse (dist a) (dist b)) /\
  (forall a j, In a l -> j < length points -> j <> i -> ~ In j l -> not_worse (dist a) (dist j)).

(** A problem whose bounds are well formed doubles. *)
Definition bounded_problem (p : problem) : Prop :=
  good_bounds (p_lb p) (p_ub p) (p_nix p) /\ Forall is_double (p_lb p) /\ Forall is_double (p_ub p).
