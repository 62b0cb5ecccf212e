(** Submitting evolutions to an island and asking for their state: evolve, status, wait
    and wait_check (src/island.cpp:428-438 and 668-775), and their counterparts over an
    archipelago (src/archipelago.cpp:325-433).

    Two threads touch an island here: the client that calls these methods (they are not
    documented as safe to call from several threads at once) and the consumer thread of
    the island's task queue, which makes futures ready. The queue runs the tasks in the
    order in which they were submitted (C51), so at any moment the consumer can only
    complete the first unfinished one, and it can do so between any two accesses to the
    futures. Failures of enqueue, on which evolve leaves the object as it was (lines
    646-652), memory exhaustion and the Python hooks (wait_raii_getter) are left out. *)
From Coq Require Import List Bool Arith.
From Verif Require Import Outcome.
Import ListNotations.

(** std::future<void>: not ready, ready with a value or an exception, or without shared
    state (after get() or a move); using the last kind is undefined. *)
Inductive fut := Pending | Ready (e : option exn) | Invalid.

(** island.hpp: enum class evolve_status *)
Inductive evolve_status := SIdle | SBusy | SIdleError | SBusyError.

(** Where the client is. The argument i is the position of the iterator in m_futures. *)
Inductive kpos :=
| KIdle                                   (* not in a call *)
| KStatus (i : nat) (error : bool)        (* status, island.cpp:755-768 *)
| KWait (i : nat) (first_exc : option nat)(* wait, 711-718 *)
| KCheck (i : nat)                        (* wait_check, 672-675 *)
| KCheckRest (i : nat) (e : exn)          (* its exception handler, 681-683 *)
| KUndef.                                 (* undefined behaviour has occurred *)

Record istate := mkis { is_futs : list fut; is_pos : kpos }.

(** What is seen from outside. *)
Inductive ievent :=
| Submit                        (* evolve() returned *)
| Finish (e : option exn)       (* the first unfinished evolution ended, with an exception or not *)
| StatusRet (s : evolve_status)
| WaitRet
| CheckRet (e : option exn).    (* wait_check() returned, or threw e *)

Inductive icall := CallEvolve | CallStatus | CallWait | CallCheck.

(** A call begins. evolve appends its future in one step (lines 433-438): nobody else
    looks at m_futures. *)
Definition begin_call (s : istate) (c : icall) : option (list ievent * istate) :=
  match is_pos s with
  | KIdle => Some (match c with
      | CallEvolve => ([Submit], mkis (is_futs s ++ [Pending]) KIdle)
      | CallStatus => ([], mkis (is_futs s) (KStatus 0 false))
      | CallWait => ([], mkis (is_futs s) (KWait 0 None))
      | CallCheck => ([], mkis (is_futs s) (KCheck 0))
      end)
  | _ => None
  end.

Definition has_exc (e : option exn) : bool := match e with Some _ => true | None => false end.
(** future_has_exception on a ready future, island.cpp:104-124: the answer, and the future
    made anew. *)
Definition future_has_exception (e : option exn) : bool * fut :=
  match e with Some x => (true, Ready (Some x)) | None => (false, Ready None) end.

(** One step of the client inside a call; None when it has to wait for a future. Testing
    a ready future and reading it are one step: nothing changes a ready future. *)
Definition client_step (s : istate) : option (list ievent * istate) :=
  let fs := is_futs s in
  match is_pos s with
  | KIdle | KUndef => None
  | KStatus i err =>
      match nth_error fs i with
      | None => Some ([StatusRet (if err then SIdleError else SIdle)], mkis fs KIdle)            (* 769-774 *)
      | Some Pending => Some ([StatusRet (if err then SBusyError else SBusy)], mkis fs KIdle)    (* 756-764 *)
      | Some (Ready e) =>                                                                        (* 767 *)
          if err then Some ([], mkis fs (KStatus (S i) true))
          else let (b, f) := future_has_exception e in Some ([], mkis (upd fs i f) (KStatus (S i) b))
      | Some Invalid => Some ([], mkis fs KUndef)
      end
  | KWait i fe =>
      match nth_error fs i with
      | None => match fe with                                                                    (* 719-727 *)
                | None => Some ([WaitRet], mkis [] KIdle)
                | Some k => match nth_error fs k with Some f => Some ([WaitRet], mkis [f] KIdle) | None => Some ([], mkis fs KUndef) end
                end
      | Some Pending => None                                                                     (* 713 *)
      | Some (Ready e) =>                                                                        (* 714-717 *)
          match fe with
          | Some k => Some ([], mkis fs (KWait (S i) (Some k)))
          | None => let (b, f) := future_has_exception e in Some ([], mkis (upd fs i f) (KWait (S i) (if b then Some i else None)))
          end
      | Some Invalid => Some ([], mkis fs KUndef)
      end
  | KCheck i =>
      match nth_error fs i with
      | None => Some ([CheckRet None], mkis [] KIdle)                                            (* 688 *)
      | Some Pending => None
      | Some (Ready None) => Some ([], mkis (upd fs i Invalid) (KCheck (S i)))                   (* 675: get() *)
      | Some (Ready (Some e)) => Some ([], mkis (upd fs i Invalid) (KCheckRest (S i) e))         (* 676-681 *)
      | Some Invalid => Some ([], mkis fs KUndef)
      end
  | KCheckRest i e =>
      match nth_error fs i with
      | None => Some ([CheckRet (Some e)], mkis [] KIdle)                                        (* 684-685 *)
      | Some Pending => None                                                                     (* 682 *)
      | Some (Ready _) => Some ([], mkis fs (KCheckRest (S i) e))
      | Some Invalid => Some ([], mkis fs KUndef)
      end
  end.

(** The consumer thread makes the first unfinished future ready. *)
Fixpoint finish_first (e : option exn) (fs : list fut) : option (list fut) :=
  match fs with
  | [] => None
  | Pending :: t => Some (Ready e :: t)
  | f :: t => option_map (cons f) (finish_first e t)
  end.

(** All runs of a new island with the events seen. *)
Inductive irun : list ievent -> istate -> Prop :=
| ir_init : irun [] (mkis [] KIdle)
| ir_call tr s c ev s' : irun tr s -> begin_call s c = Some (ev, s') -> irun (tr ++ ev) s'
| ir_client tr s ev s' : irun tr s -> client_step s = Some (ev, s') -> irun (tr ++ ev) s'
| ir_finish tr s e fs : irun tr s -> finish_first e (is_futs s) = Some fs -> irun (tr ++ [Finish e]) (mkis fs (is_pos s)).

(** ** Archipelago

    The islands are represented by what C54 shows an island to be: the number of its
    unfinished evolutions and its first unreported error. Status reads one island after
    the other; evolutions can finish in between. *)
Record aisl := mkai { ai_left : nat; ai_err : option exn }.

Inductive apos :=
| AIdle
| AStatus (i n_idle n_busy n_idle_error n_busy_error : nat)  (* status, archipelago.cpp:395-411 *)
| AWait (i : nat)                                            (* wait, 341-343 *)
| ACheck (i : nat)                                           (* wait_check, 361-363 *)
| ACheckRest (i : nat) (e : exn).                            (* 364-368 *)
Record astate := mkas { as_isl : list aisl; as_pos : apos }.

Inductive aevent :=
| ASubmit (j : nat)                   (* evolve() of island j returned *)
| AFinish (j : nat) (e : option exn)
| AStatusCall | AStatusRet (s : evolve_status)
| AWaitRet
| ACheckRet (e : option exn).

Definition isl_status (s : aisl) : evolve_status :=
  match ai_left s, ai_err s with
  | 0, None => SIdle | 0, Some _ => SIdleError | S _, None => SBusy | S _, Some _ => SBusyError
  end.
(** archipelago.cpp:413-432 *)
Definition combine_status (size n_idle n_busy n_idle_error n_busy_error : nat) : evolve_status :=
  if negb (Nat.eqb n_busy_error 0) then SBusyError
  else if negb (Nat.eqb n_idle_error 0) then (if negb (Nat.eqb n_busy 0) then SBusyError else SIdleError)
  else if Nat.eqb n_idle size then SIdle else SBusy.

(** One step of the client inside a call on the archipelago. *)
Definition aclient_step (s : astate) : option (list aevent * astate) :=
  let is := as_isl s in
  match as_pos s with
  | AIdle => None
  | AStatus i a b c d =>
      match nth_error is i with
      | None => Some ([AStatusRet (combine_status (length is) a b c d)], mkas is AIdle)
      | Some k => Some ([], mkas is (match isl_status k with
          | SIdle => AStatus (S i) (S a) b c d
          | SBusy => AStatus (S i) a (S b) c d
          | SIdleError => AStatus (S i) a b (S c) d
          | SBusyError => AStatus (S i) a b c (S d)
          end))
      end
  | AWait i =>
      match nth_error is i with
      | None => Some ([AWaitRet], mkas is AIdle)
      | Some k => match ai_left k with 0 => Some ([], mkas is (AWait (S i))) | S _ => None end
      end
  | ACheck i =>
      match nth_error is i with
      | None => Some ([ACheckRet None], mkas is AIdle)
      | Some k => match ai_left k with
                  | 0 => Some ([], mkas (upd is i (mkai 0 None)) (match ai_err k with None => ACheck (S i) | Some e => ACheckRest (S i) e end))
                  | S _ => None
                  end
      end
  | ACheckRest i e =>
      match nth_error is i with
      | None => Some ([ACheckRet (Some e)], mkas is AIdle)
      | Some k => match ai_left k with 0 => Some ([], mkas (upd is i (mkai 0 None)) (ACheckRest (S i) e)) | S _ => None end
      end
  end.
Definition afinish (j : nat) (e : option exn) (is : list aisl) : option (list aisl) :=
  match nth_error is j with
  | Some (mkai (S u) er) => Some (upd is j (mkai u (match er with None => e | Some _ => er end)))
  | _ => None
  end.
(** archipelago::evolve (lines 325-330) is a sequence of evolve() calls on the islands, and
    the client can also call them one by one. *)
Inductive arun (n : nat) : list aevent -> astate -> Prop :=
| ar_init : arun n [] (mkas (repeat (mkai 0 None) n) AIdle)
| ar_submit tr is j u er : arun n tr (mkas is AIdle) -> nth_error is j = Some (mkai u er) -> arun n (tr ++ [ASubmit j]) (mkas (upd is j (mkai (S u) er)) AIdle)
| ar_status tr is : arun n tr (mkas is AIdle) -> arun n (tr ++ [AStatusCall]) (mkas is (AStatus 0 0 0 0 0))
| ar_wait tr is : arun n tr (mkas is AIdle) -> arun n tr (mkas is (AWait 0))
| ar_check tr is : arun n tr (mkas is AIdle) -> arun n tr (mkas is (ACheck 0))
| ar_client tr s ev s' : arun n tr s -> aclient_step s = Some (ev, s') -> arun n (tr ++ ev) s'
| ar_finish tr s j e is : arun n tr s -> afinish j e (as_isl s) = Some is -> arun n (tr ++ [AFinish j e]) (mkas is (as_pos s)).
