(** Specification vocabulary for the multi-objective utilities, independent of the
    implementation. *)
From Coq Require Import List ZArith Permutation.
From Verif Require Import Dbl SpecOrder.
Import ListNotations.

Definition dom_list_ok (pts : list (list dbl)) (dls : list (list nat)) : Prop :=
  length dls = length pts /\
  forall i l, nth_error dls i = Some l -> NoDup l /\ forall j, In j l <-> dom_idx pts i j.
Definition dom_count_ok (pts : list (list dbl)) (dcs : list Z) : Prop :=
  length dcs = length pts /\
  forall i c, nth_error dcs i = Some c ->
    exists ds, NoDup ds /\ (forall j, In j ds <-> dom_idx pts j i) /\ c = Z.of_nat (length ds).
Definition rank_ok (pts : list (list dbl)) (fronts : list (list nat)) (rank : list nat) : Prop :=
  length rank = length pts /\
  forall i k, nth_error rank i = Some k <-> In i (nth k fronts []).

(** Regular fronts: finite values far from overflow and no constant objective. *)
Definition regular_front (pts : list (list dbl)) (M : nat) : Prop :=
  forall j, j < M ->
    (forall p, p < length pts -> exists z, val pts p j = Fin z /\ (Z.abs z <= 2 ^ 2096)%Z) /\
    (exists p q, p < length pts /\ q < length pts /\ val pts p j <> val pts q j).

(** What a correct best-N selection is: [sel] are distinct indices, as many as
    requested and available; nothing left out is in a better front than something
    selected; of two members of the same front of which only one is selected, the
    one left out does not have the larger crowding distance within that front. *)
Definition best_N_selection (M : nat) (pts : list (list dbl)) (N : nat) (sel : list nat) : Prop :=
  NoDup sel /\ (forall i, In i sel -> i < length pts) /\ length sel = Nat.min N (length pts) /\
  (forall fronts ki kj i j, front_decomposition pts fronts ->
     In i sel -> j < length pts -> ~ In j sel ->
     In i (nth ki fronts []) -> In j (nth kj fronts []) -> ki <= kj) /\
  (forall fronts k i j, front_decomposition pts fronts ->
     In i sel -> j < length pts -> ~ In j sel -> In i (nth k fronts []) -> In j (nth k fronts []) ->
     exists front cds a b ca cb, Permutation front (nth k fronts []) /\
       crowding_spec (map (fun i => nth i pts []) front) M cds /\
       nth_error front a = Some i /\ nth_error front b = Some j /\
       nth_error cds a = Some ca /\ nth_error cds b = Some cb /\ not_worse cb ca).

(** [crowd] gives every member of [front] its crowding distance within the front
    (zero if it is alone). *)
Definition front_crowding (M : nat) (pts : list (list dbl)) (front : list nat) (crowd : list dbl) : Prop :=
  match front with
  | [i] => nth_error crowd i = Some (Fin 0)
  | _ => exists cds, crowding_spec (map (fun i => nth i pts []) front) M cds /\
         forall k i, nth_error front k = Some i -> nth_error crowd i = nth_error cds k
  end.

(** The order [sort_population_mo] must produce. *)
Definition mo_sorted (M : nat) (pts : list (list dbl)) (idx : list nat) : Prop :=
  Permutation (seq 0 (length pts)) idx /\
  exists fronts crowd, front_decomposition pts fronts /\
    (forall f, In f fronts -> front_crowding M pts f crowd) /\
    (forall a b p q kp kq, a < b -> nth_error idx a = Some p -> nth_error idx b = Some q ->
       In p (nth kp fronts []) -> In q (nth kq fronts []) ->
       kp <= kq /\
       (kp = kq -> exists cp cq, nth_error crowd p = Some cp /\ nth_error crowd q = Some cq /\ not_worse cq cp)).

(** [best] is the smallest (resp. largest) value that objective [j] takes over
    the listed points. *)
Definition is_min_of (pts : list (list dbl)) (S : nat -> Prop) (j : nat) (v : dbl) : Prop :=
  (exists i, S i /\ i < length pts /\ val pts i j = v) /\ (forall i, S i -> i < length pts -> not_worse v (val pts i j)).
Definition is_max_of (pts : list (list dbl)) (S : nat -> Prop) (j : nat) (v : dbl) : Prop :=
  (exists i, S i /\ i < length pts /\ val pts i j = v) /\ (forall i, S i -> i < length pts -> not_worse (val pts i j) v).

