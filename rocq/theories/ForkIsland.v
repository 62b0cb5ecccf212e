(** fork_island, src/islands/fork_island.cpp: the calling process (parent), the forked one
    (child), the pipe between them and a thread of the parent that uses the same island.
    One process step is one system call or one call of user code; steps of the processes
    interleave in any order, and the child may die at any of them. *)
From Coq Require Import String List ZArith Bool.
Import ListNotations.
Local Open Scope nat_scope.

(** message_t, fork_island.cpp:171: status flag, error message, algorithm, population *)
Record message (A P : Type) := Msg { m_status : Z; m_text : string; m_algo : A; m_pop : P }.
Arguments Msg {A P}.
Arguments m_status {A P}.
Arguments m_text {A P}.
Arguments m_algo {A P}.
Arguments m_pop {A P}.
(** What algorithm::evolve does in the child *)
Inductive evolved (A P : Type) := Evolved (a : A) (p : P) | StdError (what : string) | OtherError | Endless.
Arguments Evolved {A P}.
Arguments StdError {A P}.
Arguments OtherError {A P}.
Arguments Endless {A P}.
(** What serialize_message does, fork_island.cpp:273-276 *)
Inductive saved (B : Type) := Bytes (b : list B) | SaveStdError (what : string) | SaveOtherError.
Arguments Bytes {B}.
Arguments SaveStdError {B}.
Arguments SaveOtherError {B}.
(** Reading an archive: the loader asks for the next n bytes and goes on with them; an archive
    with fewer bytes left throws. *)
Inductive loader (B M : Type) := Loaded (m : M) | LoadError | ReadBytes (n : nat) (k : list B -> loader B M).
Arguments Loaded {B M}.
Arguments LoadError {B M}.
Arguments ReadBytes {B M}.
Fixpoint run_loader {B M} (l : loader B M) (s : list B) : option (M * list B) :=
  match l with
  | Loaded m => Some (m, s)
  | LoadError => None
  | ReadBytes n k => if length s <? n then None else run_loader (k (firstn n s)) (skipn n s)
  end.

(** Errors run_evolve throws *)
Inductive fork_error :=
| ForkFailed                     (* fork_island.cpp:179-185 *)
| ReadFailed                     (* 129-140 *)
| ArchiveFailed                  (* 217-218 *)
| ChildError (what : string).    (* 255-259 *)
Section Fork.
Context {A P B : Type}.
(** The world of a run: the algorithm's evolve, the archive, default-constructed algorithm and
    population, the capacity of the pipe *)
Record world := World {
  w_evolve : A -> P -> evolved A P;
  w_save : message A P -> saved B;
  w_load : loader B (message A P);
  w_algo0 : A; w_pop0 : P;
  w_capacity : nat }.
(** Where the parent is, fork_island.cpp:172-261 *)
Inductive parent :=
| PStart                            (* before fork(), 177 *)
| PCloseW                           (* p.close_w(), 204 *)
| PRead (acc : list B)              (* the loop of read(), 209-216, with the stringstream *)
| PLoad (acc : list B)              (* iarchive >> m, 217-218 *)
| PCloseR (m : message A P)         (* p.close_r(), 221 *)
| PWait (m : message A P)           (* waitpid, 247 *)
| PCheck (m : message A P)          (* if (get<0>(m)), 255 *)
| PSetAlgo (m : message A P)        (* isl.set_algorithm, 260 *)
| PSetPop (m : message A P)         (* isl.set_population, 261 *)
| PKill (e : fork_error)            (* kill(child_pid, SIGTERM), 225 *)
| PReap (e : fork_error)            (* waitpid, 238 *)
| PReturned
| PThrew (e : fork_error).
(** Where the child is, 262-358 *)
Inductive child :=
| CNone                             (* not forked *)
| CLocks                            (* isl.get_algorithm(), isl.get_population(): 300-301, island.cpp:804, 867 *)
| CRun                              (* evolve and serialize_message, 301-309 *)
| CSend (rest : list B)             (* the loop of send_ss, 277-290 *)
| CCloseW                           (* p.close_w(), 317, 351 *)
| CExit                             (* std::exit, 319, 324, 333, 353, 356 *)
| CGone.                            (* ended *)
Record state := State {
  st_parent : parent;
  st_child : child;
  st_pipe : list B;                 (* bytes in the pipe *)
  st_wpar : bool; st_rpar : bool;   (* the ends of the pipe the parent has open *)
  st_inherited : nat;               (* other running processes with a copy of the write end *)
  st_calls : nat;                   (* get_algorithm/get_population calls another thread will make *)
  st_inside : bool;                 (* that thread holds the mutex of the island *)
  st_clocked : bool;                (* the child's copy of the mutex is locked *)
  st_pid : bool;                    (* get_child_pid() is not zero *)
  st_reaped : bool;                 (* waitpid has returned for the child *)
  st_algo : A; st_pop : P;          (* the island *)
  st_faults : nat }.                (* how often the child was killed or a system call failed *)
(** What the child sends, 299-349: None where it exits without sending anything *)
Definition child_error (w : world) (what : string) : option (list B) :=
  match w_save w (Msg 1 what (w_algo0 w) (w_pop0 w)) with Bytes b => Some b | _ => None end.
Definition child_data (w : world) (a : A) (p : P) : option (list B) :=
  match w_evolve w a p with
  | Evolved a' p' =>
      match w_save w (Msg 0 "" a' p') with
      | Bytes b => Some b
      | SaveStdError what => child_error w what
      | SaveOtherError => child_error w ""
      end
  | StdError what => child_error w what
  | OtherError => child_error w ""
  | Endless => None
  end.
(** The child holds the write end until it closes it or ends. *)
Definition child_writes (c : child) : bool := match c with CLocks | CRun | CSend _ | CCloseW => true | _ => false end.
Definition child_alive (c : child) : bool := match c with CNone | CGone => false | _ => true end.
(** Nobody has the write end open: read() then returns 0 on an empty pipe. *)
Definition write_end_closed (s : state) : bool := negb (st_wpar s) && negb (child_writes (st_child s)) && Nat.eqb (st_inherited s) 0.
(** run_evolve has been called and pipe() has succeeded (where it fails, 71-78, it throws before
    anything else happens); inh processes forked by other islands
    have a copy of the write end *)
Definition init (a : A) (p : P) (inh calls : nat) : state := State PStart CNone [] true true inh calls false false false false a p 0.
Definition set_parent (s : state) (x : parent) : state :=
  State x (st_child s) (st_pipe s) (st_wpar s) (st_rpar s) (st_inherited s) (st_calls s) (st_inside s) (st_clocked s) (st_pid s) (st_reaped s) (st_algo s) (st_pop s) (st_faults s).
Definition set_child (s : state) (x : child) : state :=
  State (st_parent s) x (st_pipe s) (st_wpar s) (st_rpar s) (st_inherited s) (st_calls s) (st_inside s) (st_clocked s) (st_pid s) (st_reaped s) (st_algo s) (st_pop s) (st_faults s).
Definition set_pipe (s : state) (x : list B) : state :=
  State (st_parent s) (st_child s) x (st_wpar s) (st_rpar s) (st_inherited s) (st_calls s) (st_inside s) (st_clocked s) (st_pid s) (st_reaped s) (st_algo s) (st_pop s) (st_faults s).
Definition set_ends (s : state) (wr rd : bool) : state :=
  State (st_parent s) (st_child s) (st_pipe s) wr rd (st_inherited s) (st_calls s) (st_inside s) (st_clocked s) (st_pid s) (st_reaped s) (st_algo s) (st_pop s) (st_faults s).
Definition set_inherited (s : state) (x : nat) : state :=
  State (st_parent s) (st_child s) (st_pipe s) (st_wpar s) (st_rpar s) x (st_calls s) (st_inside s) (st_clocked s) (st_pid s) (st_reaped s) (st_algo s) (st_pop s) (st_faults s).
Definition set_user (s : state) (calls : nat) (inside : bool) : state :=
  State (st_parent s) (st_child s) (st_pipe s) (st_wpar s) (st_rpar s) (st_inherited s) calls inside (st_clocked s) (st_pid s) (st_reaped s) (st_algo s) (st_pop s) (st_faults s).
Definition set_clocked (s : state) (x : bool) : state :=
  State (st_parent s) (st_child s) (st_pipe s) (st_wpar s) (st_rpar s) (st_inherited s) (st_calls s) (st_inside s) x (st_pid s) (st_reaped s) (st_algo s) (st_pop s) (st_faults s).
Definition set_pid (s : state) (x : bool) : state :=
  State (st_parent s) (st_child s) (st_pipe s) (st_wpar s) (st_rpar s) (st_inherited s) (st_calls s) (st_inside s) (st_clocked s) x (st_reaped s) (st_algo s) (st_pop s) (st_faults s).
Definition set_reaped (s : state) : state :=
  State (st_parent s) (st_child s) (st_pipe s) (st_wpar s) (st_rpar s) (st_inherited s) (st_calls s) (st_inside s) (st_clocked s) (st_pid s) true (st_algo s) (st_pop s) (st_faults s).
Definition set_isl (s : state) (a : A) (p : P) : state :=
  State (st_parent s) (st_child s) (st_pipe s) (st_wpar s) (st_rpar s) (st_inherited s) (st_calls s) (st_inside s) (st_clocked s) (st_pid s) (st_reaped s) a p (st_faults s).
Definition set_fault (s : state) : state :=
  State (st_parent s) (st_child s) (st_pipe s) (st_wpar s) (st_rpar s) (st_inherited s) (st_calls s) (st_inside s) (st_clocked s) (st_pid s) (st_reaped s) (st_algo s) (st_pop s) (S (st_faults s)).
(** Leaving run_evolve: ~pid_setter (195-198) and ~pipe_t (111-126) *)
Definition leave (s : state) (x : parent) : state := set_parent (set_pid (set_ends s false false) false) x.

Inductive step (w : world) (s : state) : state -> Prop :=
(** fork(), 177; it copies the mutexes of the island as they are. pid_setter, 190-201 *)
| s_fork : st_parent s = PStart -> step w s (set_pid (set_clocked (set_child (set_parent s PCloseW) CLocks) (st_inside s)) true)
| s_fork_fails : st_parent s = PStart -> step w s (set_fault (leave s (PThrew ForkFailed)))
| s_close_w : st_parent s = PCloseW -> step w s (set_ends (set_parent s (PRead [])) false (st_rpar s))
(** read() of at most 100 bytes returns some of those there are, 211 *)
| s_read : forall acc n, st_parent s = PRead acc -> 0 < n -> n <= 100 -> n <= length (st_pipe s) ->
    step w s (set_pipe (set_parent s (PRead (acc ++ firstn n (st_pipe s)))) (skipn n (st_pipe s)))
| s_eof : forall acc, st_parent s = PRead acc -> st_pipe s = [] -> write_end_closed s = true -> step w s (set_parent s (PLoad acc))
| s_read_fails : forall acc, st_parent s = PRead acc -> step w s (set_fault (set_parent s (PKill ReadFailed)))
| s_load : forall acc m rest, st_parent s = PLoad acc -> run_loader (w_load w) acc = Some (m, rest) -> step w s (set_parent s (PCloseR m))
| s_load_fails : forall acc, st_parent s = PLoad acc -> run_loader (w_load w) acc = None -> step w s (set_parent s (PKill ArchiveFailed))
| s_close_r : forall m, st_parent s = PCloseR m -> step w s (set_ends (set_parent s (PWait m)) (st_wpar s) false)
| s_wait : forall m, st_parent s = PWait m -> st_child s = CGone -> step w s (set_reaped (set_parent s (PCheck m)))
| s_check_fails : forall m, st_parent s = PCheck m -> m_status m <> 0%Z -> step w s (leave s (PThrew (ChildError (m_text m))))
| s_check : forall m, st_parent s = PCheck m -> m_status m = 0%Z -> step w s (set_parent s (PSetAlgo m))
(** set_algorithm and set_population take the mutex, island.cpp:839, 891 *)
| s_set_algo : forall m, st_parent s = PSetAlgo m -> st_inside s = false -> step w s (set_isl (set_parent s (PSetPop m)) (m_algo m) (st_pop s))
| s_set_pop : forall m, st_parent s = PSetPop m -> st_inside s = false -> step w s (set_isl (leave s PReturned) (st_algo s) (m_pop m))
(** the cleanup of 222-241; SIGTERM ends a child that runs *)
| s_kill : forall e, st_parent s = PKill e -> step w s (set_child (set_parent s (PReap e)) CGone)
| s_reap : forall e, st_parent s = PReap e -> st_child s = CGone -> step w s (set_reaped (leave s (PThrew e)))
(** the child *)
| s_locks : st_child s = CLocks -> st_clocked s = false -> step w s (set_child s CRun)
| s_run : forall b, st_child s = CRun -> child_data w (st_algo s) (st_pop s) = Some b -> step w s (set_child s (CSend b))
| s_run_fatal : st_child s = CRun -> w_evolve w (st_algo s) (st_pop s) <> Endless -> child_data w (st_algo s) (st_pop s) = None -> step w s (set_child s CExit)
(** write() of at most PIPE_BUF bytes to a pipe writes them all, when there is room; the loop
    ends with the chunk that is not full *)
| s_write : forall rest, st_child s = CSend rest -> 100 <= length rest -> length (st_pipe s) + 100 <= w_capacity w ->
    step w s (set_pipe (set_child s (CSend (skipn 100 rest))) (st_pipe s ++ firstn 100 rest))
| s_write_last : forall rest, st_child s = CSend rest -> length rest < 100 -> length (st_pipe s) + length rest <= w_capacity w ->
    step w s (set_pipe (set_child s CCloseW) (st_pipe s ++ rest))
| s_child_close : st_child s = CCloseW -> step w s (set_child s CExit)
| s_child_exit : st_child s = CExit -> step w s (set_child s CGone)
(** a crash, a signal, exit() in user code, a failing write() *)
| s_dies : child_alive (st_child s) = true -> step w s (set_fault (set_child s CGone))
(** other processes and the other thread *)
| s_other_ends : forall n, st_inherited s = S n -> step w s (set_inherited s n)
| s_enter : forall n, st_calls s = S n -> st_inside s = false -> step w s (set_user s n true)
| s_exit : st_inside s = true -> step w s (set_user s (st_calls s) false).
Inductive reachable (w : world) (s0 : state) : state -> Prop :=
| r_here : reachable w s0 s0
| r_step : forall s s', reachable w s0 s -> step w s s' -> reachable w s0 s'.
End Fork.
