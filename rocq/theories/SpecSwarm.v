(** Vocabulary for the swarm algorithms. *)
From Coq Require Import List Bool Arith ZArith.
From Verif Require Import Dbl SpecOrder Problem Population SpecAlgo.
Import ListNotations.

(** A finite number of absolute value at most 2^900 *)
Definition below_2p900 (x : dbl) : Prop := exists z, x = Fin z /\ (Z.abs z <= 2 ^ 1974)%Z.
(** Each number is the one before it, or smaller. *)
Definition descending (l : list dbl) : Prop :=
  forall i j a b, i < j -> nth_error l i = Some a -> nth_error l j = Some b -> b = a \/ dlt b a = true.
(** a is not above the objective value f, unless one of them is NaN. *)
Definition not_above (a f : dbl) : Prop := a = NaN \/ f = NaN \/ dle a f = true.
(** a is the objective value of an individual of s, or of an evaluated point with property Box. *)
Definition found {P} (p : problem) (Box : list dbl -> Prop) (s : pop P) (a : dbl) : Prop :=
  (exists f, In f (po_f s) /\ obj f = a) \/ (exists x f, evaluated p x f /\ Box x /\ obj f = a).
