(** Vocabulary for meta-problems. *)
From Coq Require Import List Arith ZArith.
From Verif Require Import Dbl Outcome SpecConstrained Problem SpecProblem MetaProblems MultiObj.
Import ListNotations.

(** y is x op t, componentwise. *)
Definition shifted (op : dbl -> dbl -> dbl) (x t y : list dbl) : Prop :=
  length t = length x /\ length y = length x /\
  forall i a b, nth_error x i = Some a -> nth_error t i = Some b -> nth_error y i = Some (op a b).

(** A problem as a user can hold one: constructed, then possibly given tolerances. *)
Definition real_problem (p : problem) : Prop :=
  exists u p0, construct u = Ok p0 /\ (p = p0 \/ exists t, set_c_tol p0 t = Ok p).

(** The user's batch function agrees with the user's fitness function. *)
Definition batch_consistent (p : problem) (f : list dbl -> outcome (list dbl)) : Prop :=
  forall xs fs, Forall (fun x => length x = get_nx p) xs -> Forall2 (fun x v => u_fitness (p_udp p) x = Ok v) xs fs ->
    f (concat xs) = Ok (concat fs).

(** Constraint i (equalities first) of the fitness vector f of p is satisfied. *)
Definition con_sat (p : problem) (f : list dbl) (i : nat) : Prop :=
  exists c t, nth_error f (p_nobj p + i) = Some c /\ nth_error (p_ctol p) i = Some t /\ SpecConstrained.within (Nat.ltb i (p_nec p)) c t.
Definition feasible_f (p : problem) (f : list dbl) : Prop := forall i, i < get_nc p -> con_sat p f i.
(** By how much constraint i of f is off, in double arithmetic. *)
Definition con_off (p : problem) (f : list dbl) (i : nat) : dbl :=
  let c := nth (p_nobj p + i) f NaN in
  dsub (if Nat.ltb i (p_nec p) then dabs c else c) (nth i (p_ctol p) NaN).

(** The reference point z after a history: componentwise minimum of the initial one and
    of the non-NaN objective values in [seen]. *)
Definition running_min (z0 : list dbl) (seen : list (list dbl)) (z : list dbl) : Prop :=
  length z = length z0 /\
  forall i v0 v, nth_error z0 i = Some v0 -> nth_error z i = Some v ->
    dle v v0 = true /\
    (forall f a, In f seen -> nth_error f i = Some a -> a <> NaN -> dle v a = true) /\
    (v = v0 \/ exists f, In f seen /\ nth_error f i = Some v).
(** The fitness vectors that the calls on xs computed. *)
Definition seen_by (p : problem) (xs : list (list dbl)) (seen : list (list dbl)) : Prop :=
  forall f, In f seen <-> exists x, In x xs /\ fst (fitness p 0 x) = Ok f.

(** Arguments that decompose accepts. *)
Definition decompose_args (p : problem) (w z : list dbl) (m : dmethod) : Prop :=
  2 <= p_nobj p /\ get_nc p = 0 /\ m <> OtherMethod /\ length w = p_nobj p /\ length z = p_nobj p /\
  (forall x, In x w -> isfinite x = true /\ dle dzero x = true) /\ (forall x, In x z -> isfinite x = true) /\
  dle (dabs (dsub (fold_left dadd w dzero) done)) d1em8 = true.
(** Arguments that unconstrain accepts. *)
Definition unconstrain_args (p : problem) (m : umethod) (w : list dbl) : Prop :=
  get_nc p <> 0 /\ m <> UnknownMethod /\ length w = (if umethod_eqb m UWeighted then get_nc p else 0).
(** Sum over the violated constraints of weight times violation, left to right. *)
Definition weighted_violation (p : problem) (w f : list dbl) : dbl :=
  fold_left (fun s i => if dle (con_off p f i) dzero then s else dadd s (dmul (nth i w NaN) (con_off p f i))) (seq 0 (get_nc p)) dzero.
(** (1 - n/nc) * DBL_MAX *)
Definition kuri_penalty (n nc : nat) : dbl :=
  dmul dbl_max (dsub done (ddiv (d_of_Z (Z.of_nat n)) (d_of_Z (Z.of_nat nc)))).
(** The violation norms of the equality and of the inequality block. *)
Definition total_violation (p : problem) (f : list dbl) : dbl :=
  dadd (violation_norm true (firstn (p_nec p) (skipn (p_nobj p) f)) (p_ctol p))
       (violation_norm false (skipn (p_nobj p + p_nec p) f) (skipn (p_nec p) (p_ctol p))).
(** n is the number of satisfied constraints. *)
Definition n_satisfied (p : problem) (f : list dbl) (n : nat) : Prop := exactly n (fun i => i < get_nc p /\ con_sat p f i).
