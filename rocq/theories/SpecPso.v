(** Vocabulary for particle swarm optimization. *)
From Coq Require Import List Bool Arith ZArith.
From Verif Require Import Dbl Outcome Problem SpecGeneric SpecAlgo AlgPso.
Import ListNotations.

(** j is at distance 1 to k from i on a ring of n. *)
Definition on_ring (n k i j : Z) : Prop := (exists d, 1 <= d <= k /\ (j = (i + d) mod n \/ j = (i - d) mod n))%Z.
(** The shape of the lattice for n particles: rows is the greatest divisor of n whose square
    is at most n. *)
Definition lattice (n rows cols : Z) : Prop :=
  (0 < rows /\ rows * cols = n /\ rows * rows <= n /\ forall r, 0 < r -> (r | n) -> r * r <= n -> r <= rows)%Z.
(** Particle i is at (x, y); j is the one to the west, east, north or south, wrapping the edges. *)
Definition beside (rows cols i j : Z) : Prop := let x := (i mod cols)%Z in let y := (i / cols)%Z in
  (j = y * cols + (x - 1) mod cols \/ j = y * cols + (x + 1) mod cols \/ j = (y - 1) mod rows * cols + x \/ j = (y + 1) mod rows * cols + x)%Z.
(** The parameters the constructor is documented to accept. *)
Definition pso_valid (a : pso_params) : Prop :=
  within dzero done (ps_omega a) /\ within dzero dfour (ps_eta1 a) /\ within dzero dfour (ps_eta2 a) /\ dlt dzero (ps_max_vel a) = true /\ dle (ps_max_vel a) done = true /\
  1 <= ps_variant a <= 6 /\ 1 <= ps_ntype a <= 4 /\ 1 <= ps_nparam a.
(** In the ring topology, everybody has a neighbour and the radius is not greater than the
    size of the swarm. *)
Definition ring_fits (a : pso_params) (n : nat) : Prop := ps_ntype a = 2 -> 1 <= ps_nparam a / 2 <= n.
(** The velocities kept from the last call, if they are going to be used, have enough components. *)
Definition speeds_fit (a : pso_params) (V0 : list (list dbl)) (n dim : nat) : Prop :=
  ps_memory a = true -> length V0 = n -> forall v, In v V0 -> dim <= length v.
(** The exceptions: those of the fitness function; invalid_argument if the velocities of
    some component, up to max_vel times the range of the bounds, cannot be drawn. *)
Definition pso_fails (a : pso_params) (p : problem) (e : exn) : Prop := fitness_throws p e \/
  (e = InvalidArgument /\ exists i l u, nth_error (p_lb p) i = Some l /\ nth_error (p_ub p) i = Some u /\ let w := dmul (dsub u l) (ps_max_vel a) in ~ ok_real (dneg w) w).
(** The best position remembered by a particle: an evaluated point with the property Box,
    not worse than before unless NaN values occur. *)
Definition remembered (p : problem) (Box : list dbl -> Prop) (x f x' f' : list dbl) : Prop := evaluated p x' f' /\ Box x' /\
  (obj f <> NaN -> (forall y g, evaluated p y g -> Box y -> obj g <> NaN) -> dle (obj f') (obj f) = true).
