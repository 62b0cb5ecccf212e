(** Vocabulary for the self-adaptive constraint handling. *)
From Coq Require Import List Bool Arith ZArith.
From Verif Require Import Dbl Outcome StdSort Problem Rng Generic Constrained SpecConstrained Population SpecPopulation SpecAlgo SpecLocal AlgCstrs.
Import ListNotations.

(** An inner algorithm that evaluates points of dimension nx, returns n points, each among
    the points [known] to it at the start or among those it evaluated, and throws only the
    exceptions E. *)
Fixpoint well_behaved (n nx : nat) (E : exn -> Prop) (known : list (list dbl)) (t : itree) : Prop :=
  match t with
  | IRet X => length X = n /\ forall x, In x X -> In x known
  | IThrow e => E e
  | IEval x k => length x = nx /\ forall v, well_behaved n nx E (x :: known) (k [v])
  end.
(** (x, f) is an individual of the population. *)
Definition has {P} (s : pop P) (x f : list dbl) : Prop := exists i, nth_error (po_x s) i = Some x /\ nth_error (po_f s) i = Some f.
(** f belongs to the population and no individual is preferred to it. *)
Definition unbeaten {P} (s : pop P) (f : list dbl) : Prop := In f (po_f s) /\ forall h, In h (po_f s) -> ~ preferred (po_prob s) h f.
(** From s to s' by evaluating the points [new], none of them twice and none of them a point
    of s: the same problem and IDs; every individual of s' is one of s or one of the
    evaluated points; a best individual of s is still there. *)
Definition cstrs_round {P} (new : list (list dbl)) (s s' : pop P) : Prop :=
  po_prob s' = po_prob s /\ po_id s' = po_id s /\
  NoDup new /\ (forall x, In x new -> length x = get_nx (po_prob s) /\ ~ In x (po_x s)) /\ evals (length new) s s' /\
  (forall x f, has s' x f -> has s x f \/ (In x new /\ evaluated (po_prob s) x f)) /\
  (exists x f, has s x f /\ unbeaten s f /\ has s' x f).
(** n such rounds *)
Inductive cstrs_rounds {P} (s : pop P) : nat -> pop P -> Prop :=
| rounds_none : cstrs_rounds s 0 s
| rounds_more n s1 new s2 : cstrs_rounds s n s1 -> valid_pop s1 -> cstrs_round new s1 s2 -> cstrs_rounds s (S n) s2.

(** How much constraint j is violated by the fitness vector f of a problem: for an equality
    the absolute value above the tolerance, for an inequality the value above the tolerance
    (0 when it is satisfied). *)
Definition breach (p : problem) (f : list dbl) (j : nat) : dbl :=
  let c := nth (j + 1) f NaN in dmax dzero (dsub (if j <? p_nec p then dabs c else c) (nth j (p_ctol p) NaN)).
(** No constraint is violated. *)
Definition no_breach (p : problem) (f : list dbl) : Prop := forall j, j < get_nc p -> breach p f j = dzero.
(** The objective value is finite and positive. *)
Definition positive_obj (f : list dbl) : Prop := exists z, obj f = Fin z /\ (0 < z)%Z.
