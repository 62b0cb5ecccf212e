(** std::sort.  The C++ standard ([alg.sorting]) requires the comparator to be a
    strict weak ordering on the elements; if it is not, the behaviour is
    undefined.  If it is, the result is a permutation of the input in which no
    element compares less than an earlier one; which permutation is unspecified.

    [std_sort] takes the actual sorting routine as a parameter [srt] constrained
    by [sort_contract] and makes the undefined case explicit. *)
From Coq Require Import List Bool Permutation Sorting.Sorted.
From Verif Require Import Outcome.
Import ListNotations.

(** Strict weak ordering on the elements of a list. *)
Record strict_weak_on {A} (cmp : A -> A -> bool) (l : list A) : Prop := {
  swo_irrefl : forall a, In a l -> cmp a a = false;
  swo_trans : forall a b c, In a l -> In b l -> In c l ->
      cmp a b = true -> cmp b c = true -> cmp a c = true;
  swo_incomp : forall a b c, In a l -> In b l -> In c l ->
      cmp a b = false -> cmp b a = false -> cmp b c = false -> cmp c b = false ->
      cmp a c = false /\ cmp c a = false
}.

(** Its boolean decision (used only to tell the undefined case apart). *)
Definition swo_b {A} (cmp : A -> A -> bool) (l : list A) : bool :=
  forallb (fun a => negb (cmp a a)) l &&
  forallb (fun a => forallb (fun b => forallb (fun c =>
    implb (cmp a b && cmp b c) (cmp a c) &&
    implb (negb (cmp a b) && negb (cmp b a) && negb (cmp b c) && negb (cmp c b))
          (negb (cmp a c) && negb (cmp c a))) l) l) l.

(** No element compares less than an earlier one. *)
Definition sorted_by {A} (cmp : A -> A -> bool) (l : list A) : Prop :=
  StronglySorted (fun a b => cmp b a = false) l.

Definition sorter := forall A : Type, (A -> A -> bool) -> list A -> list A.

Definition sort_contract (srt : sorter) : Prop :=
  forall (A : Type) (cmp : A -> A -> bool) (l : list A),
    strict_weak_on cmp l ->
    Permutation l (srt A cmp l) /\ sorted_by cmp (srt A cmp l).

Definition std_sort (srt : sorter) {A} (cmp : A -> A -> bool) (l : list A) : outcome (list A) :=
  if swo_b cmp l then Ok (srt A cmp l) else UB.

(** std::iota(v.begin(), v.end(), 0) on a vector of length n. *)
Definition iota (n : nat) : list nat := seq 0 n.

(** A concrete sorting routine that meets the contract (non-vacuity). *)
Fixpoint insert {A} (cmp : A -> A -> bool) (x : A) (l : list A) : list A :=
  match l with
  | [] => [x]
  | y :: t => if cmp y x then y :: insert cmp x t else x :: y :: t
  end.
Definition isort : sorter :=
  fun A cmp l => fold_right (insert cmp) [] l.

(** std::min_element / std::max_element with comparator: position of the first
    smallest / first largest element; None on an empty range. *)
Fixpoint min_elt_from {A} (cmp : A -> A -> bool) (best : A) (bi i : nat) (l : list A) : nat :=
  match l with
  | [] => bi
  | x :: t => if cmp x best then min_elt_from cmp x i (S i) t
              else min_elt_from cmp best bi (S i) t
  end.
Definition min_element {A} (cmp : A -> A -> bool) (l : list A) : option nat :=
  match l with [] => None | x :: t => Some (min_elt_from cmp x 0 1 t) end.
Fixpoint max_elt_from {A} (cmp : A -> A -> bool) (best : A) (bi i : nat) (l : list A) : nat :=
  match l with
  | [] => bi
  | x :: t => if cmp best x then max_elt_from cmp x i (S i) t
              else max_elt_from cmp best bi (S i) t
  end.
Definition max_element {A} (cmp : A -> A -> bool) (l : list A) : option nat :=
  match l with [] => None | x :: t => Some (max_elt_from cmp x 0 1 t) end.
