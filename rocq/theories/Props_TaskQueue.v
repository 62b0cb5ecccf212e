(** Properties C51-C53: the task queue.  [run_of n tr s] is a run of the code
    with [n] client threads and one consumer thread, under any schedule and with
    any spurious wake-ups; [tr] is what an observer sees. *)
From Coq Require Import List Arith Bool.
Import ListNotations.
From Verif Require Import TaskQueue SpecTaskQueue TaskQueueFacts2 TaskQueueFacts3 TaskQueueFacts4.

(** Never two tasks at once, and they finish in the order they started. *)
Theorem C51_one_at_a_time : forall n tr s, run_of n tr s -> one_at_a_time tr.
Proof. exact (exec_one_at_a_time false false). Qed.
Print Assumptions C51_one_at_a_time.

(** No task runs more often than it was submitted. *)
Theorem C51_at_most_once : forall n tr s t,
  run_of n tr s -> times t (started tr) <= times t (called tr).
Proof. exact (exec_times false false). Qed.
Print Assumptions C51_at_most_once.

(** If [enqueue(a)] had returned before [enqueue(b)] was called and [b] has
    started, then [a] started before it. *)
Theorem C51_order : forall n tr s tr1 tr2 i j a b,
  run_of n tr s -> NoDup (called tr) ->
  tr = tr1 ++ EnqCall j b :: tr2 -> In (EnqRet i a) tr1 -> In b (started tr) ->
  before a b (started tr).
Proof. exact (exec_order false false). Qed.
Print Assumptions C51_order.

(** With a single client thread, or when nobody calls [wait_all]: once nothing
    can move any more, every task whose [enqueue] returned before the destructor
    was called has run to completion, and every call except possibly a
    [wait_all] has returned. *)
Theorem C51_all_run : forall n tr s,
  run_of n tr s -> n = 1 \/ no_wait tr -> stuck false false s ->
  (forall tr1 tr2 t, tr = tr1 ++ tr2 -> no_dtor tr1 -> enq_returned t tr1 -> In t (finished tr)) /\
  (forall i, doing i tr = None \/ doing i tr = Some InWaitAll).
Proof.
  exact (fun n tr s X Q ST => conj
    (fun tr1 tr2 t => exec_all_run false false n tr s tr1 tr2 t X (or_intror Q) ST)
    (fun i => match proj2 (stuck_done false false n tr s X (or_intror Q) ST) i with
              | or_introl a => or_introl a | or_intror b => or_intror (proj1 b) end)).
Qed.
Print Assumptions C51_all_run.

(** And that point is always reached: without new calls and spurious wake-ups no
    run goes on forever. *)
Theorem C51_terminates : forall s, Acc (fun s2 s1 => progress false false s1 s2) s.
Proof. exact (progress_wf false false). Qed.
Print Assumptions C51_terminates.

(** Without the restriction of [C51_all_run] a submitted task may never run:
    a thread inside [wait_all] can swallow the notification meant for the
    consumer. *)
Theorem C51_task_may_never_run_refuted : exists tr s,
  run_of 2 tr s /\ stuck false false s /\ enq_returned 7 tr /\ ~ In 7 (started tr) /\ no_dtor tr.
Proof. exact stolen_refutes. Qed.
Print Assumptions C51_task_may_never_run_refuted.

Example C51_nonvacuous : run_of 2 good_trace good_state /\ stuck false false good_state /\
  started good_trace = [7; 8] /\ NoDup (called good_trace).
Proof.
  split; [exact good_run|]. split; [exact good_stuck|]. split; [reflexivity|].
  repeat constructor; cbn; intuition discriminate.
Qed.

(** A returned [wait_all] means that everything enqueued before it was called is
    finished. *)
Theorem C52_wait_all : forall n tr s tr1 tr2 tr3 i t,
  run_of n tr s -> tr = tr1 ++ WaitCall i :: tr2 ++ WaitRet i :: tr3 -> enq_returned t tr1 ->
  In t (finished (tr1 ++ WaitCall i :: tr2)).
Proof. exact (exec_wait_all false false). Qed.
Print Assumptions C52_wait_all.

(** So does a returned destructor ... *)
Theorem C52_destructor : forall n tr s tr1 tr2 tr3 i t,
  run_of n tr s -> tr = tr1 ++ DtorCall i :: tr2 ++ DtorRet i :: tr3 -> no_dtor tr1 -> enq_returned t tr1 ->
  In t (finished (tr1 ++ DtorCall i :: tr2)).
Proof. exact (exec_dtor false false). Qed.
Print Assumptions C52_destructor.

(** ... and no task is running then or starts later. *)
Theorem C52_after_destructor : forall n tr s tr1 tr2 i,
  run_of n tr s -> tr = tr1 ++ DtorRet i :: tr2 ->
  started tr = started tr1 /\ started tr1 = finished tr1.
Proof. exact (exec_after_dtor false false). Qed.
Print Assumptions C52_after_destructor.

Example C52_nonvacuous :
  good_trace = ([EnqCall 0 7; EnqRet 0 7; EnqCall 1 8; EnqRet 1 8; Start 7; End 7] ++ WaitCall 0 :: [Start 8; End 8] ++ WaitRet 0 :: [DtorCall 0; DtorRet 0]) /\
  enq_returned 8 [EnqCall 0 7; EnqRet 0 7; EnqCall 1 8; EnqRet 1 8; Start 7; End 7] /\ run_of 2 good_trace good_state.
Proof. split; [reflexivity|]. split; [exists 1; cbn; auto 10|exact good_run]. Qed.

(** "[wait_all] returns once the queue is idle" is false, already with a single
    client thread: all tasks are done, nothing can move, and the client is still
    inside [wait_all]. *)
Theorem C53_wait_all_returns_refuted : exists tr s,
  run_of 1 tr s /\ stuck false false s /\ no_dtor tr /\
  called tr = [7] /\ finished tr = [7] /\ doing 0 tr = Some InWaitAll.
Proof. exact lost_refutes. Qed.
Print Assumptions C53_wait_all_returns_refuted.

(** In the variant that clears the running flag with the mutex held and uses
    [notify_all], nobody is left waiting, for any number of clients. *)
Theorem C53_repaired_variant : forall n tr s,
  exec true true n tr s -> no_dtor tr -> stuck true true s ->
  (forall i, doing i tr = None) /\ (forall t, enq_returned t tr -> In t (finished tr)).
Proof.
  exact (fun n tr s X ND ST => conj (fixed_no_deadlock n tr s X ND ST)
    (fun t R => exec_all_run true true n tr s tr [] t X (or_introl eq_refl) ST (eq_sym (app_nil_r tr)) ND R)).
Qed.
Print Assumptions C53_repaired_variant.

Example C53_nonvacuous : exec true true 1 fixed_trace fixed_state /\ stuck true true fixed_state /\ no_dtor fixed_trace.
Proof.
  split; [exact fixed_run|]. split; [exact fixed_stuck|].
  intros i H. cbn in H. intuition discriminate.
Qed.
