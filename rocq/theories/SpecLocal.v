(** Vocabulary for the algorithms that optimise one individual. *)
From Coq Require Import List Bool Arith ZArith.
From Verif Require Import Dbl Outcome StdSort Problem Rng SpecGeneric Constrained SpecConstrained Population SpecPopulation SpecAlgo NotPop.
Import ListNotations.

(** The individual that a policy designates. *)
Definition chosen {P} (srt : sorter) (pol : policy) (s : pop P) (i : nat) : Prop :=
  i < length (po_id s) /\
  match pol with PBest => best_idx srt s = Ok i | PWorst => worst_idx srt s = Ok i | PRandom => True | PIndex k => i = k end.
(** A policy that designates nothing. *)
Definition bad_index {P} (pol : policy) (s : pop P) : Prop := exists k, pol = PIndex k /\ length (po_id s) <= k.
(** The individuals can be ranked: without constraints always, else if the comparison with
    compare_fc is a strict weak order on them. *)
Definition ranked {P} (srt : sorter) (s : pop P) : Prop := 0 < get_nc (po_prob s) ->
  sort_contract srt /\ strict_weak_on (fc_lt (p_nec (po_prob s)) (p_ctol (po_prob s))) (po_f s).

(** compare_fc prefers f' to f, with the tolerances of the problem. *)
Definition preferred (p : problem) (f' f : list dbl) : Prop := compare_fc f' f (p_nec p) (p_ctol p) = Ok true.
(** From the point (x, f) to the point (x', f') by steps to evaluated points with the
    property Box, each preferred to the one before. *)
Inductive descends (p : problem) (Box : list dbl -> Prop) (a : list dbl * list dbl) : list dbl * list dbl -> Prop :=
| desc_stay : descends p Box a a
| desc_step x f x' f' : descends p Box a (x, f) -> evaluated p x' f' -> Box x' -> preferred p f' f -> descends p Box a (x', f').

(** The compass moves along one axis with bounds l, u, from c: nr times the width of the
    box, cut at the bounds. *)
Definition move_up (l u nr c : dbl) : dbl := let v := dadd c (dmul nr (dsub u l)) in if dgt v u then u else v.
Definition move_down (l u nr c : dbl) : dbl := let v := dsub c (dmul nr (dsub u l)) in if dlt v l then l else v.
(** v is where one of the moves takes component i of x. *)
Definition compass_move (p : problem) (nr : dbl) (x : list dbl) (i : nat) (v : dbl) : Prop :=
  exists l u c, nth_error (p_lb p) i = Some l /\ nth_error (p_ub p) i = Some u /\ nth_error x i = Some c /\ (v = move_up l u nr c \/ v = move_down l u nr c).
(** None of the moves from x leads to a point preferred to f. *)
Definition no_better_move (p : problem) (nr : dbl) (x f : list dbl) : Prop := forall i v, compass_move p nr x i v ->
  exists f', evaluated p (upd x i v) f' /\ ~ preferred p f' f.

(** s' is s with individual j replaced by (x, f). *)
Definition one_replaced {P} (s s' : pop P) (j : nat) (x f : list dbl) : Prop :=
  po_prob s' = po_prob s /\ po_id s' = po_id s /\ po_x s' = upd (po_x s) j x /\ po_f s' = upd (po_f s) j f.
(** No move of some size above stop, but not above it after one more reduction, leads to a
    preferred point. *)
Definition local_optimum (p : problem) (stop red : dbl) (x f : list dbl) : Prop :=
  exists nr, dgt nr stop = true /\ dgt (dmul nr red) stop = false /\ no_better_move p nr x f.

(** The points tried one after the other (the last one first), starting from the point a:
    each is an evaluated point with the property Box, and differs in at most one component
    from a or from one tried before. *)
Inductive tried (p : problem) (Box : list dbl -> Prop) (a : list dbl * list dbl) : list (list dbl * list dbl) -> Prop :=
| tried_none : tried p Box a []
| tried_one T x f i v f' : tried p Box a T -> In (x, f) (a :: T) -> evaluated p (upd x i v) f' -> Box (upd x i v) -> tried p Box a ((upd x i v, f') :: T).
(** b is the best of the starting point a and of the points in T. *)
Definition best_of (a : list dbl * list dbl) (T : list (list dbl * list dbl)) (b : list dbl * list dbl) : Prop :=
  In b (a :: T) /\ dle (obj (snd b)) (obj (snd a)) = true /\ forall q, In q T -> obj (snd q) <> NaN -> dle (obj (snd b)) (obj (snd q)) = true.

(** From the fitness f to the fitness f' in n steps, each preferred to the one before. *)
Inductive improves (p : problem) (f : list dbl) : nat -> list dbl -> Prop :=
| imp_none : improves p f 0 f
| imp_step n g h : improves p f n g -> length h = get_nf p -> preferred p h g -> improves p f (S n) h.
(** f is the fitness of the best individual. *)
Definition best_fitness {P} (srt : sorter) (s : pop P) (f : list dbl) : Prop := exists b, best_idx srt s = Ok b /\ nth_error (po_f s) b = Some f.
(** A population for the problem p, of n individuals, in the box. *)
Definition pop_of {P} (p : problem) (n : nat) (s : pop P) : Prop := valid_pop s /\ po_prob s = p /\ length (po_id s) = n /\ boxed s.
(** An algorithm that keeps the number of individuals and the problem, stays in the box and
    leaves individuals that can be ranked; it may throw the exceptions E. *)
Definition keeps {G P} (srt : sorter) (p : problem) (n : nat) (E : exn -> Prop) (alg : RM (G * pop P) unit) : Prop :=
  forall s, pop_of p n (snd s) -> ends alg s (fun _ s' => pop_of p n (snd s') /\ ranked srt (snd s')) E.
