(** The archipelago's bookkeeping (src/archipelago.cpp, include/pagmo/archipelago.hpp):
    the vector of islands, the map from island addresses to indices, the migrants database,
    and what construction, copies, moves, assignments, push_back, loading and destruction
    do to them.

    Islands are heap objects named by their address; the allocator may hand out any
    address not in use, in particular one that was freed before. Evolutions in flight are
    left out: moves, assignments, set_topology, load and the destructor wait for them first
    (wait_check_ignore), and they touch only the database and the log, through the
    operations modelled here. Memory exhaustion and the overflow checks of push_back_impl
    (lines 480-493) are left out. *)
From Coq Require Import List Bool Arith ZArith.
From Verif Require Import Dbl Outcome Policies.
Import ListNotations.
Local Open Scope outcome_scope.

Definition empty_group : group := mkgrp [] [] [].

(** ** The migrants database, every operation under m_migrants_mutex *)
Definition migrants_db := list group.

(** get_migrants, archipelago.cpp:682-694 *)
Definition db_get (db : migrants_db) (i : nat) : outcome group :=
  if Nat.leb (length db) i then Throw OutOfRange else vget db i.
(** extract_migrants, archipelago.cpp:658-678 *)
Definition db_extract (db : migrants_db) (i : nat) : outcome group * migrants_db :=
  if Nat.leb (length db) i then (Throw OutOfRange, db)
  else (vget db i, upd db i empty_group).
(** set_migrants, archipelago.cpp:697-711 *)
Definition db_set (db : migrants_db) (i : nat) (g : group) : outcome unit * migrants_db :=
  if Nat.leb (length db) i then (Throw OutOfRange, db) else (Ok tt, upd db i g).

(** The operations as they can be interleaved, with what they return. set_migrants_db is
    archipelago.cpp:588-615, push_back adds an empty entry (511). *)
Inductive db_op := DGet (i : nat) | DExtract (i : nat) | DSet (i : nat) (g : group) | DReplace (db : migrants_db) | DGrow.
Definition db_step (db : migrants_db) (o : db_op) : outcome group * migrants_db :=
  match o with
  | DGet i => (db_get db i, db)
  | DExtract i => db_extract db i
  | DSet i g => let (r, db') := db_set db i g in (bind r (fun _ => Ok empty_group), db')
  | DReplace db' => (Ok empty_group, db')
  | DGrow => (Ok empty_group, db ++ [empty_group])
  end.
Fixpoint db_run (db : migrants_db) (ops : list db_op) : list (outcome group) * migrants_db :=
  match ops with
  | [] => ([], db)
  | o :: ops' => let (r, db1) := db_step db o in let (rs, db2) := db_run db1 ops' in (r :: rs, db2)
  end.

(** ** Archipelagos *)
Definition addr := nat.

Section Archi.
(** A topology, or the default (unconnected, whose push_back does nothing,
    topologies/unconnected.cpp:49), or one that was moved from and must not be used.
    [t_push] is the user's push_back: it may throw. [L] is the type of the entries of the log
    and [C] the pair of migration type and migrant handling. *)
Context {T L C : Type} (t_push : T -> T * outcome unit) (c_default : C).
Inductive topo := TDefault | TUser (t : T) | TMoved.
Definition topo_push (t : topo) : topo * outcome unit :=
  match t with TDefault => (TDefault, Ok tt) | TUser u => let (u', r) := t_push u in (TUser u', r) | TMoved => (TMoved, UB) end.

(** The data members, archipelago.hpp:730-748. *)
Record archi := mkar {
  a_islands : list addr;
  a_map : list (addr * nat);      (* m_idx_map *)
  a_mig : migrants_db;
  a_log : list L;
  a_topo : topo;
  a_cfg : C }.
Definition default_archi : archi := mkar [] [] [] [] TDefault c_default.

(** Everything alive: the islands with their archi_ptr, and the archipelagos. *)
Record world := mkw { w_isl : addr -> option (option nat); w_arch : nat -> option archi }.
Definition set_isl (w : world) (x : addr) (v : option (option nat)) : world :=
  mkw (fun y => if Nat.eqb y x then v else w_isl w y) (w_arch w).
Definition set_arch (w : world) (A : nat) (v : option archi) : world :=
  mkw (w_isl w) (fun B => if Nat.eqb B A then v else w_arch w B).
Definition free_all (w : world) (l : list addr) : world := fold_left (fun w x => set_isl w x None) l w.
Definition point_all (w : world) (l : list addr) (A : nat) : world := fold_left (fun w x => set_isl w x (Some (Some A))) l w.

(** std::unordered_map: lookup, and emplace, which keeps an entry that is already there. *)
Fixpoint map_find (m : list (addr * nat)) (x : addr) : option nat :=
  match m with [] => None | (y, i) :: m' => if Nat.eqb x y then Some i else map_find m' x end.
Definition map_emplace (m : list (addr * nat)) (x : addr) (i : nat) : list (addr * nat) :=
  match map_find m x with Some _ => m | None => (x, i) :: m end.

(** push_back_impl, archipelago.cpp:467-530, of a new island at x. *)
Definition push_back_impl (w : world) (A : nat) (a : archi) (x : addr) : world * outcome unit :=
  let (t, r) := topo_push (a_topo a) in
  (set_arch (set_isl w x (Some (Some A))) A
     (Some (mkar (a_islands a ++ [x]) (map_emplace (a_map a) x (length (a_islands a))) (a_mig a ++ [empty_group]) (a_log a) t (a_cfg a))), r).

(** operator[], archipelago.cpp:285-314 *)
Definition island_at (a : archi) (i : nat) : outcome addr :=
  if Nat.leb (length (a_islands a)) i then Throw OutOfRange else vget (a_islands a) i.
(** get_island_idx, archipelago.cpp:535-544 *)
Definition get_island_idx (a : archi) (x : addr) : outcome nat :=
  match map_find (a_map a) x with Some i => Ok i | None => Throw InvalidArgument end.

(** The assertions of the destructor, archipelago.cpp:251-259 *)
Definition dtor_asserts (w : world) (A : nat) (a : archi) : bool :=
  forallb (fun x => match w_isl w x with Some (Some B) => Nat.eqb B A | _ => false end) (a_islands a) &&
  Nat.eqb (length (a_map a)) (length (a_islands a)) &&
  forallb (fun i => match nth_error (a_islands a) i with Some x => match map_find (a_map a) x with Some k => Nat.eqb k i | None => false end | None => false end)
    (seq 0 (length (a_islands a))).

(** Addresses the allocator can hand out. *)
Fixpoint fresh (w : world) (l : list addr) : bool :=
  match l with [] => true | x :: l' => match w_isl w x with None => negb (existsb (Nat.eqb x) l') && fresh w l' | Some _ => false end end.

(** The body of the copy constructor, archipelago.cpp:97-117: one push_back per island,
    copies at the addresses l, then the other members. *)
Fixpoint push_copies (w : world) (B : nat) (l : list addr) : world :=
  match l with
  | [] => w
  | x :: l' => match w_arch w B with Some b => push_copies (fst (push_back_impl w B b x)) B l' | None => w end
  end.
Definition copy_into (w : world) (a : archi) (B : nat) (l : list addr) : world :=
  let w1 := push_copies (set_arch w B (Some default_archi)) B l in
  match w_arch w1 B with
  | Some b => set_arch w1 B (Some (mkar (a_islands b) (a_map b) (a_mig a) (a_log a) (a_topo a) (a_cfg a)))
  | None => w1
  end.
Definition moved_from (a : archi) : archi := mkar [] [] [] [] TMoved (a_cfg a).
(** Move constructor (127-166) and the member moves of move assignment (207-232):
    B takes what A has. *)
Definition move_into (w : world) (A : nat) (a : archi) (B : nat) : world :=
  set_arch (set_arch (point_all w (a_islands a) B) B (Some a)) A (Some (moved_from a)).

Inductive op :=
| New (A : nat) (t : topo)                          (* archipelago(), archipelago(topology) *)
| PushBack (A : nat) (x : addr)                     (* push_back(...) *)
| Copy (A B : nat) (l : list addr)                  (* archipelago B(A) *)
| Move (A B : nat)                                  (* archipelago B(std::move(A)) *)
| CopyAssign (A B tmp : nat) (l : list addr)        (* A = B, through a temporary *)
| MoveAssign (A B : nat)                            (* A = std::move(B) *)
| Destroy (A : nat)
| SetTopology (A : nat) (t : topo)
| SetDb (A : nat) (db : migrants_db)
| SetCfg (A : nat) (c : C)
| TaskExtract (A i : nat)                           (* from an evolution in an island *)
| TaskSet (A i : nat) (g : group)
| TaskLog (A : nat) (l : list L)
| LoadOk (A : nat) (l : list addr) (db : migrants_db) (log : list L) (t : topo) (c : C) (* load, archipelago.hpp:675-715 *)
| LoadFail (A : nat).                               (* its handler, 711-714 *)

(** move assignment, archipelago.cpp:196-235 *)
Definition move_assign (w : world) (A B : nat) : option (world * outcome unit) :=
  match w_arch w A, w_arch w B with
  | Some a, Some b => if Nat.eqb A B then Some (w, Ok tt) else Some (move_into (free_all w (a_islands a)) B b A, Ok tt)
  | _, _ => None
  end.
Definition destroy (w : world) (A : nat) : option (world * outcome unit) :=
  match w_arch w A with Some a => Some (set_arch (free_all w (a_islands a)) A None, Ok tt) | None => None end.
Definition with_members (w : world) (A : nat) (f : archi -> archi) : option (world * outcome unit) :=
  match w_arch w A with Some a => Some (set_arch w A (Some (f a)), Ok tt) | None => None end.
(** the loop that rebuilds the map, archipelago.hpp:687-691 *)
Fixpoint index_map (l : list addr) (i : nat) (m : list (addr * nat)) : list (addr * nat) :=
  match l with [] => m | x :: l' => index_map l' (S i) (map_emplace m x i) end.

(** One operation; None when it is not possible (no such object, name or address in use). *)
Definition step (w : world) (o : op) : option (world * outcome unit) :=
  match o with
  | New A t => match w_arch w A with None => Some (set_arch w A (Some (mkar [] [] [] [] t c_default)), Ok tt) | Some _ => None end
  | PushBack A x => match w_arch w A with Some a => if fresh w [x] then Some (push_back_impl w A a x) else None | None => None end
  | Copy A B l =>
      match w_arch w A, w_arch w B with
      | Some a, None => if fresh w l && Nat.eqb (length l) (length (a_islands a)) then Some (copy_into w a B l, Ok tt) else None
      | _, _ => None
      end
  | Move A B => match w_arch w A, w_arch w B with Some a, None => Some (move_into w A a B, Ok tt) | _, _ => None end
  | CopyAssign A B tmp l =>
      match w_arch w A, w_arch w B, w_arch w tmp with
      | Some a, Some b, None =>
          if Nat.eqb A B then Some (w, Ok tt)
          else if fresh w l && Nat.eqb (length l) (length (a_islands b)) then
            match move_assign (copy_into w b tmp l) A tmp with Some (w1, _) => destroy w1 tmp | None => None end
          else None
      | _, _, _ => None
      end
  | MoveAssign A B => move_assign w A B
  | Destroy A => destroy w A
  | SetTopology A t => with_members w A (fun a => mkar (a_islands a) (a_map a) (a_mig a) (a_log a) t (a_cfg a))
  | SetDb A db => with_members w A (fun a => mkar (a_islands a) (a_map a) db (a_log a) (a_topo a) (a_cfg a))
  | SetCfg A c => with_members w A (fun a => mkar (a_islands a) (a_map a) (a_mig a) (a_log a) (a_topo a) c)
  | TaskExtract A i => with_members w A (fun a => mkar (a_islands a) (a_map a) (snd (db_extract (a_mig a) i)) (a_log a) (a_topo a) (a_cfg a))
  | TaskSet A i g => with_members w A (fun a => mkar (a_islands a) (a_map a) (snd (db_set (a_mig a) i g)) (a_log a) (a_topo a) (a_cfg a))
  | TaskLog A l => with_members w A (fun a => mkar (a_islands a) (a_map a) (a_mig a) (a_log a ++ l) (a_topo a) (a_cfg a))
  | LoadOk A l db log t c =>
      match w_arch w A with
      | Some a => let w1 := free_all w (a_islands a) in
                  if fresh w1 l then Some (set_arch (point_all w1 l A) A (Some (mkar l (index_map l 0 []) db log t c)), Ok tt) else None
      | None => None
      end
  | LoadFail A => match w_arch w A with Some a => Some (set_arch (free_all w (a_islands a)) A (Some default_archi), Throw RuntimeError) | None => None end
  end.

Definition empty_world : world := mkw (fun _ => None) (fun _ => None).
(** A history: the operations that were possible, one after the other. *)
Inductive history : list op -> world -> Prop :=
| h_nil : history [] empty_world
| h_step ops w o w' r : history ops w -> step w o = Some (w', r) -> history (ops ++ [o]) w'.
End Archi.
Arguments TDefault {T}. Arguments TUser {T}. Arguments TMoved {T}.
Arguments a_islands {T L C}. Arguments a_map {T L C}. Arguments a_mig {T L C}. Arguments a_log {T L C}. Arguments a_topo {T L C}. Arguments a_cfg {T L C}.
Arguments mkar {T L C}. Arguments w_isl {T L C}. Arguments w_arch {T L C}. Arguments mkw {T L C}.
Arguments New {T L C}. Arguments PushBack {T L C}. Arguments Copy {T L C}. Arguments Move {T L C}. Arguments CopyAssign {T L C}. Arguments MoveAssign {T L C}. Arguments Destroy {T L C}.
Arguments SetTopology {T L C}. Arguments SetDb {T L C}. Arguments SetCfg {T L C}. Arguments TaskExtract {T L C}. Arguments TaskSet {T L C}. Arguments TaskLog {T L C}. Arguments LoadOk {T L C}. Arguments LoadFail {T L C}.
