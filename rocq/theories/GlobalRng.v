(** pagmo::random_device: the global engine behind next() and set_seed(), shared by all threads
    (src/rng.cpp:42-79, include/pagmo/rng.hpp:58-63). The threads are interleaved step by step;
    reading the state of the engine and writing the new one are separate steps, as a standard
    engine is not atomic. *)
From Coq Require Import List Bool Arith ZArith.
Import ListNotations.

(** A call: random_device::next(), random_device::set_seed(seed) *)
Inductive rcall := Next | SetSeed (seed : Z).
(** What can be observed: thread i calls, and the call returns (a number, in the case of next) *)
Inductive revent := RCall (i : nat) (c : rcall) | RRet (i : nat) (c : rcall) (v : option Z).

Section M.
(** The standard engine: drawing a number, and the state for a seed *)
Context {G : Type} (eng_next : G -> Z * G) (eng_seed : Z -> G).

(** Where a thread is, with the call it is in; rng.cpp:60-61 and 76-77 *)
Inductive rpc :=
| Idle
| AtLock (c : rcall)                              (* std::lock_guard's constructor *)
| Held (c : rcall)                                (* mutex taken *)
| Computed (c : rcall) (v : option Z) (g : G)     (* the engine has been read, its new state is computed *)
| Written (c : rcall) (v : option Z)              (* the new state is stored *)
| Unlocked (c : rcall) (v : option Z).            (* std::lock_guard's destructor has run *)
(** [owner]: who has global_rng_mutex; [threads]: where each thread is and its further calls *)
Record rstate := mkrs { eng_st : G; owner : option nat; threads : list (rpc * list rcall); seen : list revent }.

Fixpoint put {A} (l : list A) (i : nat) (x : A) : list A :=
  match l, i with [], _ => [] | _ :: t, 0 => x :: t | y :: t, S j => y :: put t j x end.
(** the call's effect on a private copy: static_cast<unsigned>(global_rng()), global_rng.seed(seed) *)
Definition effect (c : rcall) (g : G) : option Z * G :=
  match c with Next => let (v, g') := eng_next g in (Some (v mod 2 ^ 32)%Z, g') | SetSeed s => (None, eng_seed s) end.
(** One step of thread i; None where it cannot go on *)
Definition rstep (s : rstate) (i : nat) : option rstate :=
  match nth_error (threads s) i with
  | None => None
  | Some (pc, todo) =>
      let go pc' todo' g o ev := Some (mkrs g o (put (threads s) i (pc', todo')) ev) in
      match pc with
      | Idle => match todo with [] => None | c :: rest => go (AtLock c) rest (eng_st s) (owner s) (seen s ++ [RCall i c]) end
      | AtLock c => match owner s with None => go (Held c) todo (eng_st s) (Some i) (seen s) | Some _ => None end
      | Held c => let (v, g') := effect c (eng_st s) in go (Computed c v g') todo (eng_st s) (owner s) (seen s)
      | Computed c v g' => go (Written c v) todo g' (owner s) (seen s)
      | Written c v => go (Unlocked c v) todo (eng_st s) None (seen s)
      | Unlocked c v => go Idle todo (eng_st s) (owner s) (seen s ++ [RRet i c v])
      end
  end.
(** The threads run under a schedule; the steps of blocked threads are skipped *)
Fixpoint rrun (s : rstate) (sched : list nat) : rstate :=
  match sched with [] => s | i :: t => rrun (match rstep s i with Some s' => s' | None => s end) t end.
(** Before the threads start: the engine has some state (rng.cpp:44 seeds it with a random number) *)
Definition rstart (g0 : G) (progs : list (list rcall)) : rstate := mkrs g0 None (map (fun p => (Idle, p)) progs) [].
End M.
