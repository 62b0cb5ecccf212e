(** Vocabulary for the topologies' properties: a weighted directed graph as a
    partial map from pairs of vertices to weights. *)
From Coq Require Import List Arith Bool ZArith.
From Verif Require Import Dbl Outcome Topologies.
Import ListNotations.

(** A weight is a number in [0, 1]. *)
Definition weight_ok (w : dbl) : Prop := dle dzero w = true /\ dle w done = true.

(** Abstract graphs. *)
Record agraph := mkag { a_n : nat; a_w : nat -> nat -> option dbl }.
Definition put (m : nat -> nat -> option dbl) (i j : nat) (o : option dbl) : nat -> nat -> option dbl :=
  fun a b => if Nat.eqb a i && Nat.eqb b j then o else m a b.

(** [effect a op a' good]: what a call does to an abstract graph, and which results
    are acceptable. *)
Inductive effect (a : agraph) : gop -> agraph -> (outcome gres -> Prop) -> Prop :=
| ef_vertex : effect a AddVertex (mkag (a_n a + 1) (a_w a)) (fun r => r = Ok RUnit)
| ef_add i j w : weight_ok w -> i < a_n a -> j < a_n a -> a_w a i j = None ->
    effect a (AddEdge i j w) (mkag (a_n a) (put (a_w a) i j (Some w))) (fun r => r = Ok RUnit)
| ef_add_bad i j w : ~ (weight_ok w /\ i < a_n a /\ j < a_n a /\ a_w a i j = None) ->
    effect a (AddEdge i j w) a (fun r => r = Throw InvalidArgument)
| ef_remove i j : i < a_n a -> j < a_n a -> a_w a i j <> None ->
    effect a (RemoveEdge i j) (mkag (a_n a) (put (a_w a) i j None)) (fun r => r = Ok RUnit)
| ef_remove_bad i j : ~ (i < a_n a /\ j < a_n a /\ a_w a i j <> None) ->
    effect a (RemoveEdge i j) a (fun r => r = Throw InvalidArgument)
| ef_set i j w : weight_ok w -> i < a_n a -> j < a_n a -> a_w a i j <> None ->
    effect a (SetWeight i j w) (mkag (a_n a) (put (a_w a) i j (Some w))) (fun r => r = Ok RUnit)
| ef_set_bad i j w : ~ (weight_ok w /\ i < a_n a /\ j < a_n a /\ a_w a i j <> None) ->
    effect a (SetWeight i j w) a (fun r => r = Throw InvalidArgument)
| ef_all w : weight_ok w ->
    effect a (SetAllWeights w) (mkag (a_n a) (fun i j => match a_w a i j with Some _ => Some w | None => None end)) (fun r => r = Ok RUnit)
| ef_all_bad w : ~ weight_ok w -> effect a (SetAllWeights w) a (fun r => r = Throw InvalidArgument)
| ef_num : effect a NumVertices a (fun r => r = Ok (RNum (a_n a)))
| ef_adj i j : i < a_n a -> j < a_n a ->
    effect a (AreAdjacent i j) a (fun r => exists b, r = Ok (RBool b) /\ (b = true <-> a_w a i j <> None))
| ef_adj_bad i j : ~ (i < a_n a /\ j < a_n a) -> effect a (AreAdjacent i j) a (fun r => r = Throw InvalidArgument)
| ef_weight i j w : i < a_n a -> j < a_n a -> a_w a i j = Some w ->
    effect a (EdgeWeight i j) a (fun r => r = Ok (RWeight w))
| ef_weight_bad i j : ~ (i < a_n a /\ j < a_n a /\ a_w a i j <> None) ->
    effect a (EdgeWeight i j) a (fun r => r = Throw InvalidArgument)
| ef_conn i : i < a_n a ->
    effect a (Connections i) a (fun r => exists js ws, r = Ok (RConn js ws) /\ length ws = length js /\ NoDup js /\
      forall j w, (exists k, nth_error js k = Some j /\ nth_error ws k = Some w) <-> a_w a j i = Some w)
| ef_conn_bad i : ~ i < a_n a -> effect a (Connections i) a (fun r => r = Throw InvalidArgument).

(** A history of calls and their results is explained by the abstract graph. *)
Inductive explained : agraph -> list gop -> list (outcome gres) -> agraph -> Prop :=
| ex_nil a : explained a [] [] a
| ex_cons a op a1 good r ops rs a2 : effect a op a1 good -> good r -> explained a1 ops rs a2 ->
    explained a (op :: ops) (r :: rs) a2.

Definition no_graph : agraph := mkag 0 (fun _ _ => None).

(** Neighbours on a ring of n vertices. *)
Definition ring_neighbour (n i j : nat) : Prop :=
  i < n /\ j < n /\ i <> j /\ (j = (i + 1) mod n \/ i = (j + 1) mod n).

(** [js] with the common weight [w] are exactly the vertices satisfying P, each once. *)
Definition lists_exactly (P : nat -> Prop) (w : dbl) (r : list nat * list dbl) : Prop :=
  NoDup (fst r) /\ (forall j, In j (fst r) <-> P j) /\ snd r = repeat w (length (fst r)).

(** A graph object without parallel edges, and the abstract graph it stands for. *)
Definition repr (g : graph) (a : agraph) : Prop :=
  gnv g = a_n a /\ NoDup (map fst (gedges g)) /\
  (forall i j w, In ((i, j), w) (gedges g) <-> a_w a i j = Some w) /\
  (forall i j w, a_w a i j = Some w -> i < a_n a /\ j < a_n a /\ weight_ok w).

(** Every edge joins two vertices of the graph and has a weight in [0, 1]. *)
Definition proper (a : agraph) : Prop := forall i j w, a_w a i j = Some w -> i < a_n a /\ j < a_n a /\ weight_ok w.
