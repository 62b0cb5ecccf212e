(** Vocabulary for the algorithms. *)
From Coq Require Import List Bool Arith ZArith.
From Verif Require Import Dbl Outcome StdSort Problem Rng SpecGeneric Population SpecPopulation.
Import ListNotations.

(** A population as user code can have it: the vectors match in number and size, the
    champion is absent or has the right sizes. *)
Definition champion_shape {P} (s : pop P) : Prop :=
  (po_cx s = [] /\ po_cf s = []) \/ (length (po_cx s) = get_nx (po_prob s) /\ length (po_cf s) = get_nf (po_prob s)).
Definition valid_pop {P} (s : pop P) : Prop := prob_obj (po_prob s) /\ stored s /\ champion_shape s.

(** The user's fitness function has no undefined behaviour and returns. *)
Definition fitness_defined (p : problem) : Prop :=
  forall x, length x = get_nx p -> u_fitness (p_udp p) x <> UB /\ u_fitness (p_udp p) x <> NoFuel.
(** An exception that an evaluation raises: the user's, or the one for a fitness vector of
    the wrong size. *)
Definition fitness_throws (p : problem) (e : exn) : Prop := exists x, length x = get_nx p /\ fst (fitness p 0 x) = Throw e.
(** A random number can be drawn between every pair of bounds. *)
Definition drawable (p : problem) : Prop :=
  forall i l u, nth_error (p_lb p) i = Some l -> nth_error (p_ub p) i = Some u -> ok_real l u.

(** f is what the user's function gives for x. *)
Definition evaluated (p : problem) (x f : list dbl) : Prop := length x = get_nx p /\ length f = get_nf p /\ u_fitness (p_udp p) x = Ok f.

(** The population s' is s with some individuals replaced, each as R allows: R x f x' f'. *)
Definition replaced {P} (R : list dbl -> list dbl -> list dbl -> list dbl -> Prop) (s s' : pop P) : Prop :=
  po_prob s' = po_prob s /\ po_id s' = po_id s /\ length (po_x s') = length (po_x s) /\ length (po_f s') = length (po_f s) /\
  forall i x f x' f', nth_error (po_x s) i = Some x -> nth_error (po_f s) i = Some f -> nth_error (po_x s') i = Some x' -> nth_error (po_f s') i = Some f' ->
    (x' = x /\ f' = f) \/ R x f x' f'.

(** The objective value of a single-objective fitness vector. *)
Definition obj (f : list dbl) : dbl := nth 0 f NaN.
(** What a run on a state (random engine and population) ends in: normally with Q, or with
    an exception satisfying E; never in undefined behaviour. W says whether it may exhaust
    the fuel that bounds loops waiting for a suitable random draw. *)
Definition ends_w {S A} (W : Prop) (m : RM S A) (s : S) (Q : A -> S -> Prop) (E : exn -> Prop) : Prop :=
  match m s with (Ok a, s') => Q a s' | (Throw e, _) => E e | (NoFuel, _) => W | (UB, _) => False end.
Notation ends := (ends_w False).
Notation ends_if_fuel := (ends_w True).

(** An unconstrained, deterministic, single-objective problem. *)
Definition plain_single (p : problem) : Prop := get_nc p = 0 /\ get_nf p = 1 /\ u_set_seed (p_udp p) = false.
(** (x', f') is an evaluated point with the property Box, not worse than f. *)
Definition better_point (p : problem) (Box : list dbl -> Prop) (x f x' f' : list dbl) : Prop := evaluated p x' f' /\ Box x' /\ dle (obj f') (obj f) = true.
(** The exceptions of an algorithm that draws points in the box and evaluates them. *)
Definition fails (p : problem) (e : exn) : Prop := fitness_throws p e \/ (e = InvalidArgument /\ ~ drawable p).
(** The Manhattan distance of two points, added up from the left. *)
Definition manhattan (x y : list dbl) : dbl := fold_left (fun a c => dadd a (dabs (dsub (fst c) (snd c)))) (combine x y) dzero.
(** The population is flat: its best and worst individuals are closer than a tolerance. *)
Definition flat {P} (srt : sorter) (xtol ftol : dbl) (s : pop P) : Prop :=
  exists b w xb fb xw fw, best_idx srt s = Ok b /\ worst_idx srt s = Ok w /\
    nth_error (po_x s) b = Some xb /\ nth_error (po_f s) b = Some fb /\ nth_error (po_x s) w = Some xw /\ nth_error (po_f s) w = Some fw /\
    (dlt (manhattan xw xb) xtol = true \/ dlt (dabs (dsub (obj fw) (obj fb))) ftol = true).

(** The mutation strategies of differential evolution on one component: [best], [old] (the
    component of the individual being mutated) and five others. The variants 6 to 10 use
    the same formulas as 1 to 5. *)
Definition de_formula (variant : nat) (F best old x0 x1 x2 x3 x4 : dbl) : dbl :=
  match (variant - 1) mod 5 with
  | 0 => dadd best (dmul F (dsub x1 x2))                                        (* best/1 *)
  | 1 => dadd x0 (dmul F (dsub x1 x2))                                          (* rand/1 *)
  | 2 => dadd (dadd old (dmul F (dsub best old))) (dmul F (dsub x0 x1))         (* rand-to-best/1 *)
  | 3 => dadd best (dmul (dsub (dsub (dadd x0 x1) x2) x3) F)                    (* best/2 *)
  | _ => dadd x4 (dmul (dsub (dsub (dadd x0 x1) x2) x3) F)                      (* rand/2 *)
  end.
(** Component n of vector k *)
Definition comp (old : list (list dbl)) (k n : nat) : dbl := nth n (nth k old []) NaN.
Definition de_mutant (variant : nat) (F : dbl) (old : list (list dbl)) (best : list dbl) (ri : list nat) (i n : nat) : dbl :=
  let c k := comp old (nth k ri 0) n in de_formula variant F (nth n best NaN) (comp old i n) (c 0) (c 1) (c 2) (c 3) (c 4).
(** j is one of L cyclically consecutive positions starting at n, among dim. *)
Definition in_run (dim n L j : nat) : Prop := exists k, k < L /\ j = (n + k) mod dim.
(** n evaluations were counted between s and s'; the counter is 64 bits wide. *)
Definition evals {P} (n : nat) (s s' : pop P) : Prop := wrap64 (po_fevals s') = wrap64 (po_fevals s + Z.of_nat n).
(** A finite number of absolute value at most 2^1019 *)
Definition below_2p1019 (x : dbl) : Prop := exists z, x = Fin z /\ (Z.abs z <= 2 ^ 2093)%Z.

(** All individuals are in the box. *)
Definition boxed {P} (s : pop P) : Prop := forall x, In x (po_x s) -> in_box (p_lb (po_prob s)) (p_ub (po_prob s)) x.
(** No individual has a smaller objective value than individual b. *)
Definition best_at {P} (s : pop P) (b : nat) : Prop :=
  exists fb, nth_error (po_f s) b = Some fb /\ forall j fj, nth_error (po_f s) j = Some fj -> dle (obj fb) (obj fj) = true.
(** The next n numbers drawn in [0,1) are all at least thr. *)
Fixpoint draws_large {G} (r : rng G) (thr : dbl) (n : nat) (g : G) : Prop :=
  match n with 0 => True | S n' => dlt (fst (g_real r dzero done g)) thr = false /\ draws_large r thr n' (snd (g_real r dzero done g)) end.
(** A stochastic, unconstrained, single-objective problem that stays one, with the same
    bounds, whatever the seeds given to it. *)
Definition stays_fine (reseed : problem -> Z -> problem) (p : problem) : Prop := forall ks, let q := fold_left reseed ks p in
  prob_obj q /\ p_lb q = p_lb p /\ p_ub q = p_ub p /\ get_nc q = 0 /\ get_nf q = 1 /\ p_nobj q = 1 /\ u_set_seed (p_udp q) = true /\ fitness_defined q.
(** y is x with some components drawn anew between the bounds. *)
Definition mutated (lb ub x y : list dbl) : Prop :=
  length y = length x /\ forall i l u a b, nth_error lb i = Some l -> nth_error ub i = Some u -> nth_error x i = Some a -> nth_error y i = Some b -> b = a \/ within l u b.
