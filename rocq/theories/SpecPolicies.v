(** Vocabulary for the policies' properties. *)
From Coq Require Import List Arith ZArith Permutation.
From Verif Require Import Dbl Outcome SpecOrder Constrained Policies.
Import ListNotations.

(** An individual: ID, decision vector, fitness vector. *)
Definition indiv := (Z * list dbl * list dbl)%type.
Definition fit (a : indiv) : list dbl := snd a.
Fixpoint zip3 {A B C} (a : list A) (b : list B) (c : list C) : list (A * B * C) :=
  match a, b, c with x :: a', y :: b', z :: c' => (x, y, z) :: zip3 a' b' c' | _, _, _ => [] end.
Definition members (g : group) : list indiv := zip3 (g_id g) (g_x g) (g_f g).

(** All three components have the same length. *)
Definition aligned (g : group) : Prop := length (g_x g) = length (g_id g) /\ length (g_f g) = length (g_id g).

(** Vectors have the right lengths. *)
Definition shaped (nx nf : Z) (g : group) : Prop :=
  aligned g /\ (forall v, In v (g_x g) -> Z.of_nat (length v) = nx) /\ (forall v, In v (g_f g) -> Z.of_nat (length v) = nf).

(** Consistent problem data. *)
Definition consistent (d : pdata) : Prop :=
  (0 < d_nx d /\ 0 <= d_nix d <= d_nx d /\ 0 < d_nobj d <= (2 ^ 64 - 1) / 3 /\
   0 <= d_nec d <= (2 ^ 64 - 1) / 3 /\ 0 <= d_nic d <= (2 ^ 64 - 1) / 3)%Z /\
  Z.of_nat (length (d_tol d)) = (d_nec d + d_nic d)%Z.

(** Unsigned 64-bit arguments. *)
Definition size_args (d : pdata) : Prop :=
  (0 <= d_nx d < 2 ^ 64 /\ 0 <= d_nix d < 2 ^ 64 /\ 0 <= d_nobj d < 2 ^ 64 /\ 0 <= d_nec d < 2 ^ 64 /\ 0 <= d_nic d < 2 ^ 64)%Z.

(** [kept] are [n] of the individuals of [pool], and none of the others beats one of
    them ([beats f g]: fitness f is strictly better than g). *)
Definition best_of (beats : list dbl -> list dbl -> Prop) (pool : list indiv) (n : nat) (kept : list indiv) : Prop :=
  length kept = n /\
  exists others, Permutation pool (kept ++ others) /\
    forall a b, In a kept -> In b others -> ~ beats (fit b) (fit a).

(** Best first. *)
Definition ranked (beats : list dbl -> list dbl -> Prop) (l : list indiv) : Prop :=
  forall i j a b, i < j -> nth_error l i = Some a -> nth_error l j = Some b -> ~ beats (fit b) (fit a).

(** "Strictly better" for the three kinds of problems. *)
Definition beats_objective (f g : list dbl) : Prop := better (nth 0 f NaN) (nth 0 g NaN).
Definition beats_constrained (nec : Z) (tol f g : list dbl) : Prop := compare_fc f g (Z.to_nat nec) tol = Ok true.
Definition beats_pareto (f g : list dbl) : Prop := dominates f g.

(** How many individuals a rate means for a population of n: an absolute rate is
    the number itself; a fraction x is floor of the (IEEE) product x * n. *)
Definition rate_means (rate : migr_rate) (n k : nat) : Prop :=
  match rate with
  | Absolute c => k = c /\ c <= n
  | Fractional x => exists z, dmul x (d_of_Z (Z.of_nat n)) = Fin z /\ (0 <= z)%Z /\
                    k = Z.to_nat (z / one_z) /\ k <= n
  end.

(** What [replace] must do: take the best [k] migrants ([k] is what the rate means,
    or all of them if there are fewer), add them to the population and keep the best
    of everything, as many as there were. *)
Definition fair_outcome (beats : list dbl -> list dbl -> Prop) (rate : migr_rate) (inds mig out : group) : Prop :=
  aligned out /\
  exists k used, rate_means rate (length (g_id inds)) k /\
    best_of beats (members mig) (Nat.min k (length (g_id mig))) used /\
    best_of beats (members inds ++ used) (length (g_id inds)) (members out).

Definition select_outcome (beats : list dbl -> list dbl -> Prop) (rate : migr_rate) (inds out : group) : Prop :=
  aligned out /\
  exists k, rate_means rate (length (g_id inds)) k /\ best_of beats (members inds) k (members out).

(** A rate that can be applied to n individuals. *)
Definition rate_ok (rate : migr_rate) (n : nat) : Prop :=
  match rate with
  | Absolute c => c <= n
  | Fractional x => dle dzero x = true /\ dle x done = true /\ (Z.of_nat n < 2 ^ 53)%Z
  end.

(** The length of a fitness vector. *)
Definition nf_sum (d : pdata) : Z := (d_nobj d + d_nec d + d_nic d)%Z.
