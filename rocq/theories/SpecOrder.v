(** Specification vocabulary: ordering of doubles and Pareto dominance, written
    without reference to the implementation. *)
From Coq Require Import List ZArith Permutation.
From Verif Require Import Dbl.
Import ListNotations.

(** The mathematical order of the extended reals, NaN excluded. *)
Definition num_lt (a b : dbl) : Prop :=
  match a, b with
  | NaN, _ | _, NaN => False
  | Fin x, Fin y => (x < y)%Z
  | MInf, Fin _ | MInf, PInf | Fin _, PInf => True
  | _, _ => False
  end.

(** "a is strictly better than b": numbers by value, every number better than NaN. *)
Definition better (a b : dbl) : Prop :=
  match a, b with
  | NaN, _ => False
  | _, NaN => True
  | _, _ => num_lt a b
  end.

Definition not_worse (a b : dbl) : Prop := ~ better b a.

(** Pareto dominance of objective vectors (minimisation). *)
Definition dominates (a b : list dbl) : Prop :=
  length a = length b /\
  (forall i x y, nth_error a i = Some x -> nth_error b i = Some y -> not_worse x y) /\
  (exists i x y, nth_error a i = Some x /\ nth_error b i = Some y /\ better x y).

(** Dominance between members of a point set, by index. *)
Definition dom_idx (pts : list (list dbl)) (i j : nat) : Prop :=
  exists a b, nth_error pts i = Some a /\ nth_error pts j = Some b /\ dominates a b.

(** Point [i] is not dominated by any point of the set. *)
Definition nondominated (pts : list (list dbl)) (i : nat) : Prop :=
  i < length pts /\ forall j, ~ dom_idx pts j i.

(** All points have the same number of objectives. *)
Definition uniform (pts : list (list dbl)) (M : nat) : Prop :=
  forall p, In p pts -> length p = M.

(** Decomposition of a point set into successive non-dominated fronts. *)
Record front_decomposition (pts : list (list dbl)) (fronts : list (list nat)) : Prop := {
  (* every index occurs in exactly one front, once *)
  fd_perm : Permutation (seq 0 (length pts)) (concat fronts);
  fd_nonempty : forall f, In f fronts -> f <> [];
  (* the first front is the set of non-dominated points *)
  fd_first : forall i, In i (nth 0 fronts []) <-> nondominated pts i;
  (* whatever dominates a point lies in an earlier front *)
  fd_earlier : forall k i j, In i (nth k fronts []) -> dom_idx pts j i ->
                 exists m, m < k /\ In j (nth m fronts []);
  (* every point of a later front is dominated from the front just before *)
  fd_later : forall k i, In i (nth (S k) fronts []) ->
                 exists j, In j (nth k fronts []) /\ dom_idx pts j i
}.

(** Crowding distance, as NSGA-II defines it: start from zero; for each objective
    in turn, order the points; the two ends get +infinity, every other point adds
    the normalised gap between its neighbours. [crowding_spec pts m r]: [r] is the
    result of treating the first [m] objectives. *)
Definition val (pts : list (list dbl)) (p j : nat) : dbl := nth j (nth p pts []) NaN.
Definition ascending (pts : list (list dbl)) (j : nat) (idx : list nat) : Prop :=
  forall a b p q, a < b -> nth_error idx a = Some p -> nth_error idx b = Some q ->
    not_worse (val pts p j) (val pts q j).
Inductive crowding_spec (pts : list (list dbl)) : nat -> list dbl -> Prop :=
| crowding_none : crowding_spec pts 0 (repeat (Fin 0) (length pts))
| crowding_next j old new idx :
    crowding_spec pts j old ->
    Permutation (seq 0 (length pts)) idx -> ascending pts j idx ->
    length new = length pts ->
    (forall p, nth_error idx 0 = Some p -> nth_error new p = Some PInf) ->
    (forall p, nth_error idx (length pts - 1) = Some p -> nth_error new p = Some PInf) ->
    (forall k lo prv p nxt hi o,
        k + 2 < length pts ->
        nth_error idx 0 = Some lo -> nth_error idx (length pts - 1) = Some hi ->
        nth_error idx k = Some prv -> nth_error idx (k + 1) = Some p -> nth_error idx (k + 2) = Some nxt ->
        nth_error old p = Some o ->
        nth_error new p = Some (dadd o (ddiv (dsub (val pts nxt j) (val pts prv j))
                                             (dsub (val pts hi j) (val pts lo j))))) ->
    crowding_spec pts (S j) new.
