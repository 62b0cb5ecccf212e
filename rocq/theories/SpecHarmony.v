(** Vocabulary for harmony search. *)
From Coq Require Import List Bool Arith ZArith.
From Verif Require Import Dbl Outcome StdSort Problem SpecProblem Constrained SpecConstrained SpecAlgo.
Import ListNotations.

(** An integer, or not a finite number. *)
Definition whole (v : dbl) : Prop := isfinite v = true -> integral v.
(** The last n components are integers, as far as they are finite. *)
Definition whole_tail (n : nat) (x : list dbl) : Prop := forall i v, length x - n <= i -> nth_error x i = Some v -> whole v.
(** Any individuals with fitness vectors among fs or computed by the problem can be ranked:
    without constraints always, else if compare_fc is a strict weak order on them. *)
Definition rankable (p : problem) (fs : list (list dbl)) : Prop := 0 < get_nc p ->
  forall l, (forall f, In f l -> In f fs \/ exists x, evaluated p x f) -> strict_weak_on (fc_lt (p_nec p) (p_ctol p)) l.
(** The exceptions of harmony search: those of the fitness function; invalid_argument if
    there are integer variables or bounds between which no number can be drawn. *)
Definition ihs_fails (p : problem) (e : exn) : Prop := fitness_throws p e \/ (e = InvalidArgument /\ (0 < p_nix p \/ ~ drawable p)).
