(** Topologies: base_bgl_topology, free_form, ring, fully_connected, unconnected,
    and the wrapper's check (src/topologies/*.cpp, src/topology.cpp).

    The data members of the graph-based topologies are protected by a mutex that
    every method holds throughout, so a concurrent history is a sequence of
    calls.  Sizes are natural numbers (a graph fits in memory, so no size_t
    arithmetic wraps). *)
From Coq Require Import List Bool Arith ZArith.
From Verif Require Import Dbl Outcome.
Import ListNotations.
Local Open Scope outcome_scope.

(** bgl_graph_t, topology.hpp:109-117: a boost::adjacency_list with vectors of
    out- and in-edges in insertion order.  Both orders are restrictions of the
    order in which edges were added, which is what [gedges] records.  Parallel
    edges are possible in the data structure. *)
Record graph := mkgraph { gnv : nat; gedges : list (nat * nat * dbl) }.
Definition esrc (e : nat * nat * dbl) : nat := fst (fst e).
Definition etgt (e : nat * nat * dbl) : nat := snd (fst e).
Definition ewt (e : nat * nat * dbl) : dbl := snd e.
Definition is_edge (i j : nat) (e : nat * nat * dbl) : bool := Nat.eqb (esrc e) i && Nat.eqb (etgt e) j.

(** detail::topology_check_edge_weight, topology.cpp:58-68 *)
Definition check_weight (w : dbl) : outcome unit :=
  throw_if (negb (isfinite w)) InvalidArgument ;;;
  throw_if (dlt w dzero || dgt w done) InvalidArgument.

(** unsafe_check_vertex_indices, base_bgl_topology.cpp:78-91 *)
Definition check_vertex (g : graph) (i : nat) : outcome unit := throw_if (Nat.leb (gnv g) i) InvalidArgument.

(** add_vertex, base_bgl_topology.cpp:130-134 *)
Definition add_vertex (g : graph) : graph := mkgraph (gnv g + 1) (gedges g).

(** unsafe_are_adjacent, base_bgl_topology.cpp:142-148, and are_adjacent, :150-154 *)
Definition are_adjacent (g : graph) (i j : nat) : outcome bool :=
  check_vertex g i ;;; check_vertex g j ;;;
  Ok (existsb (is_edge i j) (gedges g)).

(** add_edge, base_bgl_topology.cpp:156-171 *)
Definition add_edge (g : graph) (i j : nat) (w : dbl) : outcome graph :=
  check_weight w ;;;
  b <- are_adjacent g i j ;;
  if b : bool then Throw InvalidArgument else Ok (mkgraph (gnv g) (gedges g ++ [(i, j, w)])).

(** remove_edge, base_bgl_topology.cpp:173-182; boost::remove_edge(u, v, g) removes
    every edge from u to v. *)
Definition remove_edge (g : graph) (i j : nat) : outcome graph :=
  b <- are_adjacent g i j ;;
  if b : bool then Ok (mkgraph (gnv g) (filter (fun e => negb (is_edge i j e)) (gedges g))) else Throw InvalidArgument.

(** set_all_weights, base_bgl_topology.cpp:184-193 *)
Definition set_all_weights (g : graph) (w : dbl) : outcome graph :=
  check_weight w ;;;
  Ok (mkgraph (gnv g) (map (fun e => (fst e, w)) (gedges g))).

(** boost::edge(u, v, g): the first edge from u to v. *)
Definition first_edge (g : graph) (i j : nat) : option (nat * nat * dbl) := find (is_edge i j) (gedges g).
(** Assigning the property of that edge. *)
Fixpoint set_first (i j : nat) (w : dbl) (l : list (nat * nat * dbl)) : list (nat * nat * dbl) :=
  match l with
  | [] => []
  | e :: l' => if is_edge i j e then (fst e, w) :: l' else e :: set_first i j w l'
  end.

(** set_weight, base_bgl_topology.cpp:195-212 *)
Definition set_weight (g : graph) (i j : nat) (w : dbl) : outcome graph :=
  check_weight w ;;;
  check_vertex g i ;;; check_vertex g j ;;;
  match first_edge g i j with
  | Some _ => Ok (mkgraph (gnv g) (set_first i j w (gedges g)))
  | None => Throw InvalidArgument
  end.

(** get_connections, base_bgl_topology.cpp:214-230: sources of the edges into i,
    each with the weight of the first edge from that source. *)
Definition get_connections (g : graph) (i : nat) : outcome (list nat * list dbl) :=
  check_vertex g i ;;;
  r <- mmap (fun e => match first_edge g (esrc e) i with
                      | Some e' => Ok (esrc e, ewt e')
                      | None => UB
                      end) (filter (fun e => Nat.eqb (etgt e) i) (gedges g)) ;;
  Ok (map fst r, map snd r).

(** get_edge_weight, base_bgl_topology.cpp:232-247 *)
Definition get_edge_weight (g : graph) (i j : nat) : outcome dbl :=
  check_vertex g i ;;; check_vertex g j ;;;
  match first_edge g i j with Some e => Ok (ewt e) | None => Throw InvalidArgument end.

(** free_form from a graph, free_form.cpp:49-65 *)
Definition free_form_of (g : graph) : outcome graph :=
  mfold (fun _ e => throw_if (negb (isfinite (ewt e)) || dlt (ewt e) dzero || dgt (ewt e) done) InvalidArgument) tt (gedges g) ;;;
  Ok g.

(** The calls of base_bgl_topology, with free_form::push_back = add_vertex
    (free_form.cpp:75-78). *)
Inductive gop :=
| AddVertex
| AddEdge (i j : nat) (w : dbl)
| RemoveEdge (i j : nat)
| SetWeight (i j : nat) (w : dbl)
| SetAllWeights (w : dbl)
| NumVertices
| AreAdjacent (i j : nat)
| EdgeWeight (i j : nat)
| Connections (i : nat).

(** What a call returns. *)
Inductive gres := RUnit | RNum (n : nat) | RBool (b : bool) | RWeight (w : dbl) | RConn (js : list nat) (ws : list dbl).

(** A call: the result and the graph afterwards.  The graph is untouched when an
    exception is thrown. *)
Definition gupd (g : graph) (o : outcome graph) : outcome gres * graph :=
  match o with Ok g' => (Ok RUnit, g') | Throw e => (Throw e, g) | UB => (UB, g) | NoFuel => (NoFuel, g) end.
Definition gcall (g : graph) (op : gop) : outcome gres * graph :=
  match op with
  | AddVertex => (Ok RUnit, add_vertex g)
  | AddEdge i j w => gupd g (add_edge g i j w)
  | RemoveEdge i j => gupd g (remove_edge g i j)
  | SetWeight i j w => gupd g (set_weight g i j w)
  | SetAllWeights w => gupd g (set_all_weights g w)
  | NumVertices => (Ok (RNum (gnv g)), g)
  | AreAdjacent i j => (b <- are_adjacent g i j ;; Ok (RBool b), g)
  | EdgeWeight i j => (w <- get_edge_weight g i j ;; Ok (RWeight w), g)
  | Connections i => (r <- get_connections g i ;; Ok (RConn (fst r) (snd r)), g)
  end.
Fixpoint gcalls (g : graph) (ops : list gop) : list (outcome gres) * graph :=
  match ops with
  | [] => ([], g)
  | op :: ops' => let (r, g1) := gcall g op in let (rs, g2) := gcalls g1 ops' in (r :: rs, g2)
  end.
Definition empty_graph : graph := mkgraph 0 [].

(** ring::push_back, ring.cpp:74-114 *)
Definition ring_push_back (weight : dbl) (g0 : graph) : outcome graph :=
  let g := add_vertex g0 in
  let size := gnv g in
  match size with
  | 1 => Ok g
  | 2 =>
      g <- add_edge g 0 1 weight ;;
      add_edge g 1 0 weight
  | 3 =>
      g <- add_edge g 1 2 weight ;;
      g <- add_edge g 2 1 weight ;;
      g <- add_edge g 2 0 weight ;;
      add_edge g 0 2 weight
  | _ =>
      g <- remove_edge g (size - 2) 0 ;;
      g <- remove_edge g 0 (size - 2) ;;
      g <- add_edge g (size - 2) (size - 1) weight ;;
      g <- add_edge g (size - 1) (size - 2) weight ;;
      g <- add_edge g 0 (size - 1) weight ;;
      add_edge g (size - 1) 0 weight
  end.
(** ring(n, w), ring.cpp:57-64: the weight is checked, then n push_backs. *)
Fixpoint ring_pushes (n : nat) (w : dbl) (g : graph) : outcome graph :=
  match n with
  | O => Ok g
  | S n' => g' <- ring_push_back w g ;; ring_pushes n' w g'
  end.
Definition ring_ctor (n : nat) (w : dbl) : outcome graph := check_weight w ;;; ring_pushes n w empty_graph.

(** fully_connected, fully_connected.cpp:54-82: a weight and the number of vertices
    (an atomic counter, modulo 2^64 in C++). *)
Record fullc := mkfull { fc_w : dbl; fc_n : nat }.
Definition full_ctor (n : nat) (w : dbl) : outcome fullc := check_weight w ;;; Ok (mkfull w n).
Definition full_push_back (t : fullc) : fullc := mkfull (fc_w t) (fc_n t + 1).
(** get_connections, fully_connected.cpp:84-116: resize, then two loops of indexed
    writes. *)
Definition full_connections (t : fullc) (i : nat) : outcome (list nat * list dbl) :=
  let nv := fc_n t in
  throw_if (Nat.leb nv i) InvalidArgument ;;;
  let v0 := repeat 0 (nv - 1) in
  v1 <- mfold (fun v j => vset v j j) v0 (seq 0 i) ;;
  v2 <- mfold (fun v j => vset v (j - 1) j) v1 (seq (i + 1) (nv - (i + 1))) ;;
  Ok (v2, repeat (fc_w t) (nv - 1)).
(** to_bgl, fully_connected.cpp:119-159: boost::add_edge with vertex numbers, which
    enlarges the graph as needed. *)
Definition bgl_add_edge (g : graph) (i j : nat) (w : dbl) : graph :=
  mkgraph (Nat.max (gnv g) (Nat.max i j + 1)) (gedges g ++ [(i, j, w)]).
Definition full_to_bgl (t : fullc) : graph :=
  match fc_n t with
  | 0 => empty_graph
  | 1 => add_vertex empty_graph
  | nv => fold_left (fun g i => fold_left (fun g j => if Nat.eqb i j then g else bgl_add_edge g i j (fc_w t)) (seq 0 nv) g)
            (seq 0 nv) empty_graph
  end.

(** unconnected, unconnected.cpp:43-50 *)
Definition unconnected_connections (i : nat) : outcome (list nat * list dbl) := Ok ([], []).

(** topology::get_connections, topology.cpp:109-143; [udt] is the user's method. *)
Definition topology_connections (udt : nat -> outcome (list nat * list dbl)) (n : nat) : outcome (list nat * list dbl) :=
  retval <- udt n ;;
  throw_if (negb (Nat.eqb (length (fst retval)) (length (snd retval)))) InvalidArgument ;;;
  mfold (fun _ p => throw_if (negb (isfinite p)) InvalidArgument ;;; throw_if (dlt p dzero || dgt p done) InvalidArgument) tt (snd retval) ;;;
  Ok retval.
