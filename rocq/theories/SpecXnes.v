(** Vocabulary for xnes. *)
From Coq Require Import List Bool Arith ZArith Permutation.
From Verif Require Import Dbl Outcome StdSort Problem SpecProblem Rng SpecGeneric SpecGenetic Population SpecPopulation SpecAlgo SpecNsga2 AlgEigen AlgCmaes SpecCmaes AlgXnes.
Import ListNotations.

(** A parameter in ]0, 1], or -1, or not a number *)
Definition eta_or_auto (c : dbl) : Prop := c = NaN \/ (dlt dzero c = true /\ dle c done = true) \/ c = d_of_Z (-1).
(** The members belong to one dimension *)
Definition xmem_sized (n : nat) (k : xmem) : Prop := length (xe_mean k) = n /\ square n (xe_A k).
Definition xnes_ready (k : xmem) : Prop := exists n, xmem_sized n k.
(** The fitness function never gives NaN, whatever the seed *)
Definition never_nan (reseed : problem -> Z -> problem) (p : problem) : Prop :=
  forall ks, seeds_for p ks -> forall x f, evaluated (fold_left reseed ks p) x f -> obj f <> NaN.
(** A step A z of the present distribution is shorter than xtol *)
Definition xshort_step (K : eigen) (xtol : dbl) (n : nat) (k : xmem) : Prop :=
  exists z st, length z = n /\ mvec K n (xe_A k) z = Ok st /\ dlt (dsqrt (e_dot K st st)) xtol = true.
(** The point that z leads to: mean + A z *)
Definition xpoint (K : eigen) (n : nat) (k : xmem) (z pt : vec) : Prop := length z = n /\ exists st, mvec K n (xe_A k) z = Ok st /\ vplus n (xe_mean k) st = Ok pt.
(** u_0 v_0 + u_1 v_1 + ... *)
Definition utility_sum (u : vec) (vs : list vec) (n : nat) (m : vec) : Prop :=
  length m = n /\ forall j, j < n -> nth_error m j =
    Some (fold_left dadd (map (fun q => dmul (fst q) (nth j (snd q) NaN)) (combine (tl u) (tl vs))) (dmul (hd NaN u) (nth j (hd [] vs) NaN))).
(** The individuals of t are the points of zs (moved to the border if bounds are forced) *)
Definition xdrawn {P} (K : eigen) (force : bool) (p : problem) (k : xmem) (zs : list vec) (t : pop P) : Prop :=
  length zs = length (po_id t) /\ forall i z x, nth_error zs i = Some z -> nth_error (po_x t) i = Some x -> exists pt, xpoint K (get_nx p) k z pt /\ made_of force p pt x.
(** The mean moves by eta A (u_0 z_0 + u_1 z_1 + ...), where the z are sorted by the fitness of
    their points, best first *)
Definition xlearns {P} (K : eigen) (force : bool) (p : problem) (eta : dbl) (u : vec) (k : xmem) (t : pop P) (k' : xmem) : Prop :=
  exists zs idx d st, xdrawn K force p k zs t /\ Permutation idx (seq 0 (length (po_id t))) /\
    (forall i j a b fa fb, i < j -> nth_error idx i = Some a -> nth_error idx j = Some b -> nth_error (po_f t) a = Some fa -> nth_error (po_f t) b = Some fb -> dlt (obj fb) (obj fa) = false) /\
    utility_sum u (map (fun i => nth i zs []) idx) (get_nx p) d /\ mvec K (get_nx p) (mscale eta (xe_A k)) d = Ok st /\ vplus (get_nx p) (xe_mean k) st = Ok (xe_mean k').
