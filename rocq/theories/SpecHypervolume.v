(** Vocabulary for the hypervolume properties.  Points have integer coordinates;
    the volume of a union of boxes with integer corners is the number of unit cells
    in it, a cell being named by its lowest corner. *)
From Coq Require Import List ZArith.
From Verif Require Import Dbl Hypervolume.
Import ListNotations.
Local Open Scope Z_scope.

(** The cells of the region dominated by the points and bounded by [r]. *)
Definition dominated (pts : list (list Z)) (r : list Z) (x : list Z) : Prop :=
  Forall2 Z.lt x r /\ exists p, In p pts /\ Forall2 Z.le p x.

(** The number of cells of a (finite) region. *)
Definition volume (S : list Z -> Prop) (v : Z) : Prop :=
  exists l, NoDup l /\ (forall x, In x l <-> S x) /\ v = Z.of_nat (length l).

(** The points are not worse than the reference point in any coordinate. *)
Definition bounded_by (r : list Z) (pts : list (list Z)) : Prop := forall p, In p pts -> Forall2 Z.le p r.

(** What point number i dominates and no other point does. *)
Definition only_dominated_by (i : nat) (pts : list (list Z)) (r : list Z) (x : list Z) : Prop :=
  dominated pts r x /\ ~ dominated (firstn i pts ++ skipn (S i) pts) r x.

(** All coordinates are greater than the most negative representable number -m. *)
Definition representable (m : Z) (pts : list (list Z)) : Prop := forall p z, In p pts -> In z p -> - m < z.

(** Every point of [pts] is weakly dominated by some point of [pts']. *)
Definition weakly_dominated_by (pts' pts : list (list Z)) : Prop := forall p, In p pts -> exists q, In q pts' /\ Forall2 Z.le q p.

(** No point of the list weakly dominates another one. *)
Definition antichain (pts : list (list Z)) : Prop :=
  forall i j p q, nth_error pts i = Some p -> nth_error pts j = Some q -> Forall2 Z.le p q -> i = j.

(** Position of an extreme element. *)
Definition attains (le : Z -> Z -> Prop) (c : list Z) (k : nat) : Prop :=
  exists v, nth_error c k = Some v /\ forall j w, nth_error c j = Some w -> le v w.

(** Which algorithm can be used in which dimension. *)
Definition suits (a : hvalg) (d : nat) : Prop :=
  match a with HV2D => d = 2%nat | HV3D => d = 3%nat | WFG s => (2 <= s)%nat /\ (2 <= d)%nat end.

(** Point sets and reference points that the hypervolume class accepts. *)
Definition acceptable (r : list Z) (pts : list (list Z)) : Prop :=
  pts <> [] /\ forall p, In p pts -> Forall2 Z.le p r /\ p <> r.

(** A list with the volume that each point dominates alone. *)
Definition exact_contributions (pts : list (list Z)) (r : list Z) (c : list Z) : Prop :=
  length c = length pts /\ forall i v, nth_error c i = Some v -> volume (only_dominated_by i pts r) v.

(** Well-formed sets of points with double coordinates. *)
Definition well_formed (pts : list (list dbl)) : Prop :=
  pts <> [] /\ (exists d, (2 <= d)%nat /\ forall p, In p pts -> length p = d) /\ forall p x, In p pts -> In x p -> x <> NaN.

(** The comparison of a reference point with a point, in doubles: no coordinate of
    the point is greater, and some coordinate differs. *)
Definition strictly_below (r p : list dbl) : Prop :=
  (forall i a b, nth_error r i = Some a -> nth_error p i = Some b -> dlt a b = false) /\
  (exists i a b, nth_error r i = Some a /\ nth_error p i = Some b /\ deq a b = false).

(** The dimension an algorithm requires of the reference point. *)
Definition dimension_ok (a : hvalg) (d : nat) : Prop :=
  match a with HV2D => d = 2%nat | HV3D => d = 3%nat | WFG _ => True end.

(** [m] is the greatest element of the i-th coordinates. *)
Definition column_max (pts : list (list Z)) (i : nat) (m : Z) : Prop :=
  (exists p, In p pts /\ nth_error p i = Some m) /\ forall p z, In p pts -> nth_error p i = Some z -> z <= m.
