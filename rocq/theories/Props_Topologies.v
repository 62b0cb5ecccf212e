(** Properties C48-C50: ring, fully connected, unconnected and free-form topologies. *)
From Coq Require Import List Bool Arith ZArith Lia.
From Verif Require Import Dbl Outcome BaseFacts Topologies SpecTopologies TopologiesFacts TopologiesFacts2.
Import ListNotations.

(** C48. *)
Theorem C48_ring : forall n w g, weight_ok w -> ring_ctor n w = Ok g -> gnv g = n /\
  (forall i, i < n -> exists r, get_connections g i = Ok r /\ lists_exactly (ring_neighbour n i) w r) /\
  (forall i, n <= i -> get_connections g i = Throw InvalidArgument).
Proof. exact ring_shape. Qed.
Print Assumptions C48_ring.
Example C48_ring_nonvacuous : exists g, weight_ok done /\ ring_ctor 5 done = Ok g /\ get_connections g 4 = Ok ([3; 0], [done; done]).
Proof. eexists. split; [split; reflexivity|]. split; [vm_compute; reflexivity|]. vm_compute. reflexivity. Qed.

Theorem C48_neighbours : (forall n i j, 3 <= n -> (ring_neighbour n i j <-> i < n /\ (j = (i + 1) mod n \/ j = (i + (n - 1)) mod n))) /\
  (forall i j, ring_neighbour 2 i j <-> i < 2 /\ j = 1 - i) /\ (forall i j, ~ ring_neighbour 1 i j).
Proof. exact (conj ring_neighbour_3 (conj (proj2 ring_neighbour_small) (proj1 ring_neighbour_small))). Qed.
Print Assumptions C48_neighbours.
Example C48_neighbours_nonvacuous : ring_neighbour 4 0 3 /\ ring_neighbour 4 0 1 /\ ~ ring_neighbour 4 0 2.
Proof. unfold ring_neighbour. cbn. lia. Qed.

(** push_back on a ring of n vertices gives the ring of n+1 vertices. *)
Theorem C48_push_back : forall n w g, weight_ok w -> ring_ctor n w = Ok g ->
  exists g', ring_push_back w g = Ok g' /\ ring_ctor (S n) w = Ok g'.
Proof. exact ring_grow. Qed.
Print Assumptions C48_push_back.
Example C48_push_back_nonvacuous : exists g, weight_ok dzero /\ ring_ctor 3 dzero = Ok g.
Proof. eexists. split; [split; reflexivity|]. vm_compute. reflexivity. Qed.

Theorem C48_weight : forall n w, (weight_ok w -> exists g, ring_ctor n w = Ok g) /\ (~ weight_ok w -> ring_ctor n w = Throw InvalidArgument).
Proof. exact ring_accepts. Qed.
Print Assumptions C48_weight.
Example C48_weight_nonvacuous : ~ weight_ok PInf /\ ~ weight_ok NaN /\ ~ weight_ok (Fin (-1)) /\ weight_ok (Fin 1).
Proof. unfold weight_ok. repeat split; try (intros [A B]; discriminate). Qed.

(** C49. *)
Theorem C49_fully_connected : forall n w t, full_ctor n w = Ok t ->
  (forall i, i < n -> exists r, full_connections t i = Ok r /\ lists_exactly (fun j => j < n /\ j <> i) w r) /\
  (forall i, n <= i -> full_connections t i = Throw InvalidArgument).
Proof. exact full_shape. Qed.
Print Assumptions C49_fully_connected.
Example C49_fully_connected_nonvacuous : exists t, full_ctor 4 done = Ok t /\ full_connections t 1 = Ok ([0; 2; 3], [done; done; done]).
Proof. eexists. split; [vm_compute; reflexivity|]. vm_compute. reflexivity. Qed.

Theorem C49_push_back : forall n w t, full_ctor n w = Ok t -> full_ctor (S n) w = Ok (full_push_back t).
Proof. exact full_push. Qed.
Print Assumptions C49_push_back.
Example C49_push_back_nonvacuous : full_ctor 0 done = Ok (mkfull done 0).
Proof. vm_compute. reflexivity. Qed.

Theorem C49_weight : forall n w, (weight_ok w -> exists t, full_ctor n w = Ok t) /\ (~ weight_ok w -> full_ctor n w = Throw InvalidArgument).
Proof. exact full_accepts. Qed.
Print Assumptions C49_weight.
Example C49_weight_nonvacuous : weight_ok (Fin 1) /\ ~ weight_ok NaN.
Proof. split; [split; reflexivity|intros [A _]; discriminate]. Qed.

(** The exported graph is the complete one. *)
Theorem C49_to_bgl : forall n w t, full_ctor n w = Ok t -> exists a, repr (full_to_bgl t) a /\ a_n a = n /\
  forall i j v, a_w a i j = Some v <-> i < n /\ j < n /\ i <> j /\ v = w.
Proof. exact full_graph. Qed.
Print Assumptions C49_to_bgl.
Example C49_to_bgl_nonvacuous : full_to_bgl (mkfull done 2) = mkgraph 2 [(0, 1, done); (1, 0, done)].
Proof. vm_compute. reflexivity. Qed.

Theorem C49_unconnected : forall i, unconnected_connections i = Ok ([], []).
Proof. exact (fun i => eq_refl). Qed.
Print Assumptions C49_unconnected.
Example C49_unconnected_nonvacuous : topology_connections unconnected_connections 7 = Ok ([], []).
Proof. reflexivity. Qed.

(** C50. *)
Theorem C50_history : forall ops, exists a, explained no_graph ops (fst (gcalls empty_graph ops)) a /\ proper a.
Proof. exact history_from_empty. Qed.
Print Assumptions C50_history.
Example C50_history_nonvacuous : fst (gcalls empty_graph [AddVertex; AddVertex; AddEdge 0 1 done; AddEdge 0 1 dzero; SetWeight 0 1 dzero;
    Connections 1; RemoveEdge 0 1; RemoveEdge 0 1; AreAdjacent 0 1; EdgeWeight 0 5; AddEdge 1 1 PInf]) =
  [Ok RUnit; Ok RUnit; Ok RUnit; Throw InvalidArgument; Ok RUnit; Ok (RConn [0] [dzero]); Ok RUnit; Throw InvalidArgument; Ok (RBool false);
   Throw InvalidArgument; Throw InvalidArgument].
Proof. vm_compute. reflexivity. Qed.

(** Starting from a graph without parallel edges, such as a ring or an exported
    complete graph. *)
Theorem C50_history_from_graph : forall g a ops, repr g a ->
  exists a', free_form_of g = Ok g /\ explained a ops (fst (gcalls g ops)) a' /\ proper a'.
Proof. exact history_from_graph. Qed.
Print Assumptions C50_history_from_graph.
Example C50_history_from_graph_nonvacuous : exists t a, full_ctor 3 done = Ok t /\ repr (full_to_bgl t) a /\ a_n a = 3.
Proof.
  exists (mkfull done 3). destruct (full_graph 3 done (mkfull done 3)) as (a & R & N & _); [vm_compute; reflexivity|].
  exists a. split; [vm_compute; reflexivity|auto].
Qed.

Theorem C50_weights_checked : forall g, free_form_of g = Throw InvalidArgument <-> exists e, In e (gedges g) /\ ~ weight_ok (ewt e).
Proof. exact free_form_rejects. Qed.
Print Assumptions C50_weights_checked.
Example C50_weights_checked_nonvacuous : free_form_of (mkgraph 2 [(0, 1, done); (1, 0, NaN)]) = Throw InvalidArgument.
Proof. vm_compute. reflexivity. Qed.

(** A graph with parallel edges is accepted, and its connections then list the
    source twice, both times with the first weight. *)
Theorem C50_parallel_edges_refuted : exists g i j w1 w2, free_form_of g = Ok g /\ In (i, j, w1) (gedges g) /\ In (i, j, w2) (gedges g) /\ w1 <> w2 /\
  get_connections g j = Ok ([i; i], [w1; w1]).
Proof. exact parallel_refuted. Qed.
Print Assumptions C50_parallel_edges_refuted.

(** The checks made on any user topology. *)
Theorem C50_wrapper : forall udt n,
  (forall r, topology_connections udt n = Ok r <-> udt n = Ok r /\ length (fst r) = length (snd r) /\ Forall weight_ok (snd r)) /\
  (forall r, udt n = Ok r -> ~ (length (fst r) = length (snd r) /\ Forall weight_ok (snd r)) -> topology_connections udt n = Throw InvalidArgument) /\
  (forall e, udt n = Throw e -> topology_connections udt n = Throw e).
Proof. exact topology_connections_spec. Qed.
Print Assumptions C50_wrapper.
Example C50_wrapper_nonvacuous : topology_connections (fun i => Ok ([i; i], [done])) 3 = Throw InvalidArgument /\
  topology_connections (fun i => Ok ([i], [done])) 3 = Ok ([3], [done]).
Proof. vm_compute. auto. Qed.
