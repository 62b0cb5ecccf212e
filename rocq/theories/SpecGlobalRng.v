(** What it means that random_device is a thread-safe pseudo random sequence. *)
From Coq Require Import List Bool Arith ZArith.
From Verif Require Import GlobalRng.
Import ListNotations.

(** A history in which each call also has a moment at which it takes effect *)
Inductive hevent := HCall (i : nat) (c : rcall) | HEffect (i : nat) (c : rcall) (v : option Z) | HRet (i : nat) (c : rcall) (v : option Z).
(** What can be seen of it *)
Definition visible (h : list hevent) : list revent :=
  flat_map (fun e => match e with HCall i c => [RCall i c] | HRet i c v => [RRet i c v] | HEffect _ _ _ => [] end) h.
(** The effects in their order *)
Definition effects (h : list hevent) : list (rcall * option Z) :=
  flat_map (fun e => match e with HEffect _ c v => [(c, v)] | _ => [] end) h.
Definition of_thread (i : nat) (h : list hevent) : list hevent :=
  filter (fun e => match e with HCall j _ | HEffect j _ _ | HRet j _ _ => Nat.eqb i j end) h.
(** One thread makes its calls one after the other, each taking effect between call and return *)
Inductive in_turn (i : nat) : list hevent -> list rcall -> Prop :=
| turn_none rest : in_turn i [] rest
| turn_called c rest : in_turn i [HCall i c] (c :: rest)
| turn_effect c v rest : in_turn i [HCall i c; HEffect i c v] (c :: rest)
| turn_whole c v h rest : in_turn i h rest -> in_turn i (HCall i c :: HEffect i c v :: HRet i c v :: h) (c :: rest).
(** The calls as a single thread would see them: next() draws from the engine, set_seed() seeds it *)
Fixpoint sequential {G} (eng_next : G -> Z * G) (eng_seed : Z -> G) (g : G) (l : list (rcall * option Z)) : Prop :=
  match l with
  | [] => True
  | (Next, v) :: t => v = Some (fst (eng_next g) mod 2 ^ 32)%Z /\ sequential eng_next eng_seed (snd (eng_next g)) t
  | (SetSeed s, v) :: t => v = None /\ sequential eng_next eng_seed (eng_seed s) t
  end.
(** The events seen are those of a sequential use, in an order that respects real time *)
Definition linearizable {G} (eng_next : G -> Z * G) (eng_seed : Z -> G) (g0 : G) (progs : list (list rcall)) (seen : list revent) : Prop :=
  exists h, visible h = seen /\ sequential eng_next eng_seed g0 (effects h) /\ (forall i, in_turn i (of_thread i h) (nth i progs [])).

(** The first n numbers of the sequence from g *)
Fixpoint numbers {G} (eng_next : G -> Z * G) (g : G) (n : nat) : list Z :=
  match n with 0 => [] | S n' => (fst (eng_next g) mod 2 ^ 32)%Z :: numbers eng_next (snd (eng_next g)) n' end.
(** The numbers that the calls returned *)
Definition returned (seen : list revent) : list Z := flat_map (fun e => match e with RRet _ _ (Some v) => [v] | _ => [] end) seen.
Definition returned_to (i : nat) (seen : list revent) : list Z := flat_map (fun e => match e with RRet j _ (Some v) => if Nat.eqb i j then [v] else [] | _ => [] end) seen.
(** Every thread has made all its calls *)
Definition all_done {G} (s : @rstate G) : Prop := forall t, In t (threads s) -> t = (Idle, []).
Definition count_calls (progs : list (list rcall)) : nat := length (concat progs).
(** A schedule in which no step is that of a blocked or finished thread *)
Fixpoint effective {G} (eng_next : G -> Z * G) (eng_seed : Z -> G) (s : rstate) (sched : list nat) : Prop :=
  match sched with [] => True | i :: t => exists s', rstep eng_next eng_seed s i = Some s' /\ effective eng_next eng_seed s' t end.
