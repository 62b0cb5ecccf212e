(** The task queue behind each island (src/detail/task_queue.cpp and
    include/pagmo/detail/task_queue.hpp): one consumer thread and any number of
    client threads, interleaved step by step.

    Memory is sequentially consistent: the C++ code uses a mutex and a
    [std::atomic<bool>] with the default (seq_cst) order, so this is its
    semantics, not a simplification.  Every access to shared state is a
    separate step, except that unlocking and returning, or notifying and
    returning, are merged (nothing is visible in between).  Allocation failure
    and failures of the threading primitives, on which the C++ code aborts
    (lines 79-92 and 145-148), are left out. *)
From Coq Require Import List Arith Bool.
Import ListNotations.
From Verif Require Import Outcome.

(** Tasks are named by a number: a task is a [std::packaged_task<void()>]
    (task_queue.hpp:55), whose call never throws (an exception of the wrapped
    function goes to the future). *)
Definition task := nat.

(** What can be observed from outside. *)
Inductive event :=
| EnqCall (i : nat) (t : task)   (* client i calls enqueue(t) *)
| EnqRet (i : nat) (t : task)    (* that call returns *)
| Start (t : task)               (* the consumer starts running t *)
| End (t : task)                 (* t has finished *)
| WaitCall (i : nat)             (* client i calls wait_all() *)
| WaitRet (i : nat)
| DtorCall (i : nat)             (* client i starts ~task_queue() *)
| DtorRet (i : nat).

(** Program points of the consumer thread, task_queue.cpp:41-93. *)
Inductive cpc :=
| CLock              (* :44 and inside wait(): about to (re)acquire the mutex *)
| CCheck             (* :49 evaluating the wait predicate, mutex held *)
| CBlock             (* :49 predicate false, mutex still held *)
| CSleep             (* :49 blocked in wait(), mutex released *)
| CPop (t : task)    (* :58-59 t taken off the queue, mutex held *)
| CPopped (t : task) (* :65 running flag set, mutex held *)
| CStart (t : task)  (* :69 mutex released *)
| CRun (t : task)    (* :72 t is running *)
| CEnd (t : task)    (* :75 t finished, flag not yet cleared *)
| CNotify            (* :80 flag cleared *)
| CExit.             (* :54 loop left, thread finished *)

(** Program points of a client thread. *)
Inductive kpc :=
| Idle
| ELock (t : task)   (* task_queue.cpp:101 *)
| EHold (t : task)   (* :102 *)
| EPushed (t : task) (* :103 task pushed, mutex held *)
| ENotify (t : task) (* :105 *)
| WLock              (* :116 and inside wait() *)
| WCheck             (* :126 about to load m_task_maybe_running, mutex held *)
| WCheck2            (* :126 it was false; about to test m_tasks.empty() *)
| WBlock             (* :118 predicate false, mutex still held *)
| WSleep             (* :118 blocked in wait() *)
| WRet               (* :118 predicate true, mutex held *)
| DLock              (* :136 *)
| DHold              (* :137 *)
| DSet               (* :138 m_stop set, mutex held *)
| DNotify            (* :142 *)
| DJoin.             (* :143 *)

Inductive owner := Consumer | Client (i : nat).

(** The data members, task_queue.hpp:66-80, with the threads' program points.
    The condition variable's state is the set of threads asleep on it. *)
Record tq := mktq {
  q_tasks : list task;      (* m_tasks *)
  q_run : bool;             (* m_task_maybe_running *)
  q_stop : bool;            (* m_stop *)
  q_mtx : option owner;     (* m_mutex *)
  q_c : cpc;                (* m_thread *)
  q_k : list kpc            (* the client threads *)
}.

(** task_queue.hpp:66-80 and the constructor, task_queue.cpp:40-95. *)
Definition tq_init (n : nat) : tq := mktq [] false false None CLock (repeat Idle n).

Definition set_c (s : tq) (c : cpc) : tq := mktq (q_tasks s) (q_run s) (q_stop s) (q_mtx s) c (q_k s).
Definition set_k (s : tq) (i : nat) (k : kpc) : tq :=
  mktq (q_tasks s) (q_run s) (q_stop s) (q_mtx s) (q_c s) (upd (q_k s) i k).
Definition set_m (s : tq) (m : option owner) : tq := mktq (q_tasks s) (q_run s) (q_stop s) m (q_c s) (q_k s).
Definition set_q (s : tq) (q : list task) : tq := mktq q (q_run s) (q_stop s) (q_mtx s) (q_c s) (q_k s).
Definition set_run (s : tq) (b : bool) : tq := mktq (q_tasks s) b (q_stop s) (q_mtx s) (q_c s) (q_k s).
Definition set_stop (s : tq) : tq := mktq (q_tasks s) (q_run s) true (q_mtx s) (q_c s) (q_k s).

(** A thread leaving [condition_variable::wait] has to reacquire the mutex and
    evaluate its predicate again. *)
Definition wake_c (c : cpc) : cpc := match c with CSleep => CLock | _ => c end.
Definition wake_k (k : kpc) : kpc := match k with WSleep => WLock | _ => k end.
Definition wake_all (s : tq) : tq :=
  mktq (q_tasks s) (q_run s) (q_stop s) (q_mtx s) (wake_c (q_c s)) (map wake_k (q_k s)).

(** [m_cond.notify_one()] (task_queue.cpp:80, :105, :142): wakes one of the
    sleeping threads, whichever, and does nothing when none sleeps.  [na] is
    false for the code; true models a variant with [notify_all]. *)
Inductive notify (na : bool) (s : tq) : tq -> Prop :=
| ntf_none : na = false -> q_c s <> CSleep -> ~ In WSleep (q_k s) -> notify na s s
| ntf_c : na = false -> q_c s = CSleep -> notify na s (set_c s CLock)
| ntf_k i : na = false -> nth_error (q_k s) i = Some WSleep -> notify na s (set_k s i WLock)
| ntf_all : na = true -> notify na s (wake_all s).

(** A step is an observable event, a silent step, or a spurious wake-up. *)
Inductive label := Ev (e : event) | Tau | Spur.

(** One step of one thread.  [lk] is false for the code; true models a variant
    whose consumer clears the running flag with the mutex held. *)
Inductive step (lk na : bool) (s : tq) : label -> tq -> Prop :=
(* consumer, task_queue.cpp:44-80 *)
| c_lock : q_c s = CLock -> q_mtx s = None ->
    step lk na s Tau (set_c (set_m s (Some Consumer)) CCheck)
| c_wait : q_c s = CCheck -> q_stop s = false -> q_tasks s = [] ->
    step lk na s Tau (set_c s CBlock)
| c_block : q_c s = CBlock -> step lk na s Tau (set_c (set_m s None) CSleep)
| c_spurious : q_c s = CSleep -> step lk na s Spur (set_c s CLock)
| c_exit : q_c s = CCheck -> q_stop s = true -> q_tasks s = [] ->
    step lk na s Tau (set_c (set_m s None) CExit)
| c_pop t q : q_c s = CCheck -> q_tasks s = t :: q ->
    step lk na s Tau (set_c (set_q s q) (CPop t))
| c_flag t : q_c s = CPop t -> step lk na s Tau (set_c (set_run s true) (CPopped t))
| c_unlock t : q_c s = CPopped t -> step lk na s Tau (set_c (set_m s None) (CStart t))
| c_start t : q_c s = CStart t -> step lk na s (Ev (Start t)) (set_c s (CRun t))
| c_end t : q_c s = CRun t -> step lk na s (Ev (End t)) (set_c s (CEnd t))
| c_clear t : q_c s = CEnd t -> (lk = true -> q_mtx s = None) ->
    step lk na s Tau (set_c (set_run s false) CNotify)
| c_notify s' : q_c s = CNotify -> notify na (set_c s CLock) s' -> step lk na s Tau s'
(* enqueue_impl, task_queue.cpp:97-107 *)
| k_enq i t : nth_error (q_k s) i = Some Idle ->
    step lk na s (Ev (EnqCall i t)) (set_k s i (ELock t))
| k_elock i t : nth_error (q_k s) i = Some (ELock t) -> q_mtx s = None ->
    step lk na s Tau (set_k (set_m s (Some (Client i))) i (EHold t))
| k_push i t : nth_error (q_k s) i = Some (EHold t) ->
    step lk na s Tau (set_k (set_q s (q_tasks s ++ [t])) i (EPushed t))
| k_eunlock i t : nth_error (q_k s) i = Some (EPushed t) ->
    step lk na s Tau (set_k (set_m s None) i (ENotify t))
| k_enotify i t s' : nth_error (q_k s) i = Some (ENotify t) -> notify na (set_k s i Idle) s' ->
    step lk na s (Ev (EnqRet i t)) s'
(* wait_all, task_queue.cpp:114-128 *)
| k_wcall i : nth_error (q_k s) i = Some Idle ->
    step lk na s (Ev (WaitCall i)) (set_k s i WLock)
| k_wlock i : nth_error (q_k s) i = Some WLock -> q_mtx s = None ->
    step lk na s Tau (set_k (set_m s (Some (Client i))) i WCheck)
| k_wflag_true i : nth_error (q_k s) i = Some WCheck -> q_run s = true ->
    step lk na s Tau (set_k s i WBlock)
| k_wflag_false i : nth_error (q_k s) i = Some WCheck -> q_run s = false ->
    step lk na s Tau (set_k s i WCheck2)
| k_wnonempty i : nth_error (q_k s) i = Some WCheck2 -> q_tasks s <> [] ->
    step lk na s Tau (set_k s i WBlock)
| k_wempty i : nth_error (q_k s) i = Some WCheck2 -> q_tasks s = [] ->
    step lk na s Tau (set_k s i WRet)
| k_wblock i : nth_error (q_k s) i = Some WBlock ->
    step lk na s Tau (set_k (set_m s None) i WSleep)
| k_wspurious i : nth_error (q_k s) i = Some WSleep ->
    step lk na s Spur (set_k s i WLock)
| k_wret i : nth_error (q_k s) i = Some WRet ->
    step lk na s (Ev (WaitRet i)) (set_k (set_m s None) i Idle)
(* ~task_queue, task_queue.cpp:130-149 *)
| k_dcall i : nth_error (q_k s) i = Some Idle ->
    step lk na s (Ev (DtorCall i)) (set_k s i DLock)
| k_dlock i : nth_error (q_k s) i = Some DLock -> q_mtx s = None ->
    step lk na s Tau (set_k (set_m s (Some (Client i))) i DHold)
| k_dset i : nth_error (q_k s) i = Some DHold ->
    step lk na s Tau (set_k (set_stop s) i DSet)
| k_dunlock i : nth_error (q_k s) i = Some DSet ->
    step lk na s Tau (set_k (set_m s None) i DNotify)
| k_dnotify i s' : nth_error (q_k s) i = Some DNotify -> notify na (set_k s i DJoin) s' ->
    step lk na s Tau s'
| k_djoin i : nth_error (q_k s) i = Some DJoin -> q_c s = CExit ->
    step lk na s (Ev (DtorRet i)) (set_k s i Idle).

Definition ev_of (l : label) : list event := match l with Ev e => [e] | _ => [] end.

(** [exec lk na n tr s]: a run of a fresh queue with [n] client threads that has
    produced the events [tr] and reached [s]. *)
Inductive exec (lk na : bool) (n : nat) : list event -> tq -> Prop :=
| exec_init : exec lk na n [] (tq_init n)
| exec_step tr s l s' : exec lk na n tr s -> step lk na s l s' -> exec lk na n (tr ++ ev_of l) s'.

(** The code: [enqueue]/[wait_all]/destructor exactly as written. *)
Definition run_of (n : nat) := exec false false n.

(** Labels that begin a new call (chosen by the clients, not by the queue). *)
Definition is_call (l : label) : bool :=
  match l with
  | Ev (EnqCall _ _) | Ev (WaitCall _) | Ev (DtorCall _) => true
  | _ => false
  end.

(** Progress steps: everything but new calls and spurious wake-ups. *)
Definition progress (lk na : bool) (s s' : tq) : Prop :=
  exists l, step lk na s l s' /\ is_call l = false /\ l <> Spur.

(** Nothing more happens unless a client makes a new call or a spurious wake-up
    comes to the rescue. *)
Definition stuck (lk na : bool) (s : tq) : Prop := forall s', ~ progress lk na s s'.
