(** Results of C++ calls: a value, an exception, undefined behaviour, or (for
    loops written with fuel) no result within the fuel. *)
From Coq Require Import List.
Import ListNotations.

Inductive exn : Set :=
| InvalidArgument
| OutOfRange
| OverflowError
| DomainError
| RuntimeError
| NotImplemented
| UserExn (code : nat).   (* whatever user code throws *)

Inductive outcome (A : Type) : Type :=
| Ok (a : A)
| Throw (e : exn)
| UB
| NoFuel.
Arguments Ok {A} a.
Arguments Throw {A} e.
Arguments UB {A}.
Arguments NoFuel {A}.

Definition bind {A B} (x : outcome A) (f : A -> outcome B) : outcome B :=
  match x with
  | Ok a => f a
  | Throw e => Throw e
  | UB => UB
  | NoFuel => NoFuel
  end.

Declare Scope outcome_scope.
Delimit Scope outcome_scope with outcome.
Notation "x <- e ;; f" := (bind e (fun x => f))
  (at level 61, e at next level, right associativity) : outcome_scope.
Notation "' pat <- e ;; f" := (bind e (fun x => match x with pat => f end))
  (at level 61, pat pattern, e at next level, right associativity) : outcome_scope.
Notation "e ;;; f" := (bind e (fun _ => f))
  (at level 61, right associativity) : outcome_scope.

(** [if (cond) pagmo_throw(e)] *)
Definition throw_if (c : bool) (e : exn) : outcome unit := if c then Throw e else Ok tt.

(** Sequential loop over a list of indices with early exit on exception. *)
Fixpoint mfold {S A} (f : S -> A -> outcome S) (s : S) (l : list A) : outcome S :=
  match l with
  | [] => Ok s
  | a :: l' => bind (f s a) (fun s' => mfold f s' l')
  end.

Fixpoint mmap {A B} (f : A -> outcome B) (l : list A) : outcome (list B) :=
  match l with
  | [] => Ok []
  | a :: l' => bind (f a) (fun b => bind (mmap f l') (fun bs => Ok (b :: bs)))
  end.

(** Vector element access; out of bounds is undefined behaviour. *)
Definition vget {A} (l : list A) (i : nat) : outcome A :=
  match nth_error l i with Some a => Ok a | None => UB end.

(** Vector element write. *)
Fixpoint upd {A} (l : list A) (i : nat) (a : A) : list A :=
  match l, i with
  | [], _ => []
  | _ :: t, O => a :: t
  | h :: t, S i' => h :: upd t i' a
  end.

Definition vset {A} (l : list A) (i : nat) (a : A) : outcome (list A) :=
  if Nat.ltb i (length l) then Ok (upd l i a) else UB.

(** In-place update of one element by a function (out of range: unchanged; used
    only in loops whose indices are shown to be in range). *)
Fixpoint upd_at {A} (f : A -> A) (l : list A) (i : nat) : list A :=
  match l, i with
  | [], _ => []
  | h :: t, O => f h :: t
  | h :: t, S i' => h :: upd_at f t i'
  end.

Definition is_ok {A} (x : outcome A) : bool := match x with Ok _ => true | _ => false end.
