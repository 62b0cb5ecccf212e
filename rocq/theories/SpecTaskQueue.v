(** Vocabulary for what a run of the task queue looks like from outside. *)
From Coq Require Import List Arith.
Import ListNotations.
From Verif Require Import TaskQueue.

(** Tasks handed to [enqueue], in call order. *)
Fixpoint called (tr : list event) : list task :=
  match tr with
  | [] => []
  | EnqCall _ t :: tr' => t :: called tr'
  | _ :: tr' => called tr'
  end.

(** Tasks that were started / that finished, in order. *)
Fixpoint started (tr : list event) : list task :=
  match tr with
  | [] => []
  | Start t :: tr' => t :: started tr'
  | _ :: tr' => started tr'
  end.
Fixpoint finished (tr : list event) : list task :=
  match tr with
  | [] => []
  | End t :: tr' => t :: finished tr'
  | _ :: tr' => finished tr'
  end.

Definition enq_returned (t : task) (tr : list event) : Prop := exists i, In (EnqRet i t) tr.

(** At this moment, at most one task has started and not finished, and the
    finished ones are all the others in the order they started. *)
Definition one_at_a_time (tr : list event) : Prop :=
  started tr = finished tr \/ exists t, started tr = finished tr ++ [t].

(** What client [i] is inside of, judging by the calls and returns it made. *)
Inductive activity := InEnqueue | InWaitAll | InDestructor.
Fixpoint doing_from (a : option activity) (i : nat) (tr : list event) : option activity :=
  match tr with
  | [] => a
  | e :: tr' =>
      doing_from
        (match e with
         | EnqCall j _ => if Nat.eqb j i then Some InEnqueue else a
         | WaitCall j => if Nat.eqb j i then Some InWaitAll else a
         | DtorCall j => if Nat.eqb j i then Some InDestructor else a
         | EnqRet j _ | WaitRet j | DtorRet j => if Nat.eqb j i then None else a
         | Start _ | End _ => a
         end) i tr'
  end.
Definition doing (i : nat) (tr : list event) : option activity := doing_from None i tr.

Definition no_wait (tr : list event) : Prop := forall i, ~ In (WaitCall i) tr.
Definition no_dtor (tr : list event) : Prop := forall i, ~ In (DtorCall i) tr.

(** How often a task was submitted / was started. *)
Definition times (t : task) (l : list task) : nat := count_occ Nat.eq_dec l t.

(** [a] comes before [b] in [l]. *)
Definition before {A} (a b : A) (l : list A) : Prop := exists l1 l2 l3, l = l1 ++ a :: l2 ++ b :: l3.
