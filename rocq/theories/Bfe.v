(** Concurrent fitness evaluation: interleavings of calls on one problem object, and
    thread_bfe (src/batch_evaluators/thread_bfe.cpp), default_bfe, member_bfe. *)
From Coq Require Import List Bool Arith ZArith.
From Verif Require Import Dbl Outcome Problem.
Import ListNotations.

(** ** Concurrent calls on a shared problem

    One call to problem::fitness (problem.cpp:353-379) or problem::batch_fitness
    (problem.cpp:413-426) is a sequence of steps; other threads may run between any
    two. The only shared mutable datum is the atomic counter m_fevals; fetch_add is one
    step. *)
Inductive callst : Type :=
| FStart (x : list dbl)                                  (* fitness called *)
| FUser (x : list dbl) (r : outcome (list dbl))          (* user function returned *)
| FCheck (x f : list dbl)                                (* output checked, counter not yet incremented *)
| FDone (x : list dbl) (r : outcome (list dbl))
| BStart (xs : list dbl)                                 (* batch_fitness called *)
| BUser (xs : list dbl) (r : outcome (list dbl))         (* user batch function returned *)
| BCount (xs fs : list dbl)                              (* counter incremented *)
| BDone (xs : list dbl) (counted : bool) (r : outcome (list dbl)). (* counted: ghost, the increment was reached *)

(** One step of one call; the second component is what is added to the counter. *)
Definition call_step (p : problem) (s : callst) : option (callst * Z) :=
  match s with
  | FStart x =>
      match prob_check_dv p (length x) with
      | Ok _ => Some (FUser x (u_fitness (p_udp p) x), 0%Z)
      | Throw e => Some (FDone x (Throw e), 0%Z)
      | _ => None
      end
  | FUser x (Ok f) =>
      match prob_check_fv p (length f) with
      | Ok _ => Some (FCheck x f, 0%Z)
      | Throw e => Some (FDone x (Throw e), 0%Z)
      | _ => None
      end
  | FUser x r => Some (FDone x r, 0%Z)
  | FCheck x f => Some (FDone x (Ok f), 1%Z)
  | FDone _ _ => None
  | BStart xs =>
      match bfe_check_input_dvs p xs with
      | Ok _ => Some (BUser xs (udp_batch p xs), 0%Z)
      | Throw e => Some (BDone xs false (Throw e), 0%Z)
      | _ => None
      end
  | BUser xs (Ok fs) => Some (BCount xs fs, Z.of_nat (length xs / get_nx p))
  | BUser xs r => Some (BDone xs false r, 0%Z)
  | BCount xs fs => Some (BDone xs true (bind (bfe_check_output_fvs p xs fs) (fun _ => Ok fs)), 0%Z)
  | BDone _ _ _ => None
  end.

(** System: the counter and the calls made so far (finished or in flight). A step
    starts a new call or advances one of them. *)
Record sys := { s_fevals : Z; s_calls : list callst }.
Inductive sys_step (p : problem) : sys -> sys -> Prop :=
| step_fitness c l x : sys_step p {| s_fevals := c; s_calls := l |} {| s_fevals := c; s_calls := l ++ [FStart x] |}
| step_batch c l xs : sys_step p {| s_fevals := c; s_calls := l |} {| s_fevals := c; s_calls := l ++ [BStart xs] |}
| step_call c l1 s l2 s' k : call_step p s = Some (s', k) ->
    sys_step p {| s_fevals := c; s_calls := l1 ++ s :: l2 |} {| s_fevals := wrap64 (c + k); s_calls := l1 ++ s' :: l2 |}.
Inductive sys_reach (p : problem) (c0 : Z) : sys -> Prop :=
| reach_init : sys_reach p c0 {| s_fevals := c0; s_calls := [] |}
| reach_step s s' : sys_reach p c0 s -> sys_step p s s' -> sys_reach p c0 s'.

(** ** thread_bfe

    tbb::parallel_for splits [0,n) into disjoint ranges and runs the functor of
    thread_bfe.cpp:80-111 on each, concurrently. The output vector starts as n*f_dim
    zeros (line 74). The split and the interleaving are arbitrary; one step evaluates
    one decision vector and writes its slot. The problem is a copy (parameter passed
    by value, line 49) and for thread_safety::basic each task has its own copy; the
    user function being pure, copies behave alike. An exception in a task cancels the
    others and is rethrown. *)
Definition slice {A} (l : list A) (start len : nat) : list A := firstn len (skipn start l).
(** std::copy(v.begin(), v.end(), l.begin() + start) *)
Definition write_at {A} (l : list A) (start : nat) (v : list A) : list A :=
  firstn start l ++ v ++ skipn (start + length v) l.

(** The fitness of one decision vector, as seen by a task (the counter of the copy is
    not observable). *)
Definition eval1 (p : problem) (x : list dbl) : outcome (list dbl) := fst (fitness p 0 x).

Record tstate := { t_out : list dbl; t_ranges : list (nat * nat); t_exn : option (outcome unit) }.
Inductive thread_step (p : problem) (dvs : list dbl) : tstate -> tstate -> Prop :=
| t_eval out r1 b e r2 f : b <> e -> eval1 p (slice dvs (b * get_nx p) (get_nx p)) = Ok f ->
    thread_step p dvs {| t_out := out; t_ranges := r1 ++ (b, e) :: r2; t_exn := None |}
                      {| t_out := write_at out (b * get_nf p) f; t_ranges := r1 ++ (S b, e) :: r2; t_exn := None |}
| t_throw out r1 b e r2 ex : b <> e -> eval1 p (slice dvs (b * get_nx p) (get_nx p)) = Throw ex ->
    thread_step p dvs {| t_out := out; t_ranges := r1 ++ (b, e) :: r2; t_exn := None |}
                      {| t_out := out; t_ranges := r1 ++ (b, e) :: r2; t_exn := Some (Throw ex) |}.
Inductive thread_steps (p : problem) (dvs : list dbl) : tstate -> tstate -> Prop :=
| ts_refl s : thread_steps p dvs s s
| ts_step s s' s'' : thread_steps p dvs s s' -> thread_step p dvs s' s'' -> thread_steps p dvs s s''.

(** A split of [0,n): every index in exactly one range. *)
Definition split_of (n : nat) (ranges : list (nat * nat)) : Prop :=
  (forall b e, In (b, e) ranges -> b <= e) /\
  Permutation.Permutation (seq 0 n) (flat_map (fun r => seq (fst r) (snd r - fst r)) ranges).

(** Results thread_bfe::operator() may return on a problem whose declared safety is at
    least basic, thread_bfe.cpp:49-130. *)
Inductive thread_bfe_result (p : problem) (dvs : list dbl) : outcome (list dbl) -> Prop :=
| tb_unsafe : u_ts (p_udp p) = TSnone -> thread_bfe_result p dvs (Throw InvalidArgument)
| tb_ok ranges s : u_ts (p_udp p) <> TSnone -> split_of (length dvs / get_nx p) ranges ->
    thread_steps p dvs {| t_out := repeat dzero (length dvs / get_nx p * get_nf p); t_ranges := ranges; t_exn := None |} s ->
    t_exn s = None -> (forall b e, In (b, e) (t_ranges s) -> b = e) ->
    thread_bfe_result p dvs (Ok (t_out s))
| tb_throw ranges s ex : u_ts (p_udp p) <> TSnone -> split_of (length dvs / get_nx p) ranges ->
    thread_steps p dvs {| t_out := repeat dzero (length dvs / get_nx p * get_nf p); t_ranges := ranges; t_exn := None |} s ->
    t_exn s = Some (Throw ex) ->
    thread_bfe_result p dvs (Throw ex).

(** default_bfe_cpp_impl, default_bfe.cpp: member function first, then threads. *)
Inductive default_bfe_result (p : problem) (dvs : list dbl) : outcome (list dbl) -> Prop :=
| db_member f : u_batch (p_udp p) = Some f -> default_bfe_result p dvs (f dvs)
| db_thread r : u_batch (p_udp p) = None -> u_ts (p_udp p) <> TSnone -> thread_bfe_result p dvs r -> default_bfe_result p dvs r
| db_none : u_batch (p_udp p) = None -> u_ts (p_udp p) = TSnone -> default_bfe_result p dvs (Throw InvalidArgument).
