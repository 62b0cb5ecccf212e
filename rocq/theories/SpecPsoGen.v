(** Vocabulary for generational particle swarm optimization. *)
From Coq Require Import List Bool Arith ZArith.
From Verif Require Import Dbl Outcome Problem Population SpecOrder SpecPopulation SpecGeneric SpecAlgo SpecCmaes AlgPso.
Import ListNotations.

(** The exceptions: those of the fitness function, under some seed; invalid_argument if the
    velocities of some component cannot be drawn. *)
Definition pgen_fails (reseed : problem -> Z -> problem) (a : pso_params) (p : problem) (e : exn) : Prop := es_throws reseed p e \/
  (e = InvalidArgument /\ exists i l u, nth_error (p_lb p) i = Some l /\ nth_error (p_ub p) i = Some u /\ let w := dmul (dsub u l) (ps_max_vel a) in ~ ok_real (dneg w) w).
(** An evaluated point with the property Box; the old one was not better (NaN is the worst). *)
Definition kept_best (p : problem) (Box : list dbl -> Prop) (x f x' f' : list dbl) : Prop := evaluated p x' f' /\ Box x' /\ ~ better (obj f) (obj f').
(** n generations from s to s'. Every particle remembers one point. If the problem is
    deterministic it is the best one seen. If it is stochastic the problem gets a new seed in
    every generation, what is remembered is evaluated again under every seed, and a new
    point takes its place only if the old one is not better under the same seed. *)
Definition pgen_run {P} (reseed : problem -> Z -> problem) (Box : list dbl -> Prop) (n : nat) (s s' : pop P) : Prop :=
  let p := po_prob s in valid_pop s' /\ po_id s' = po_id s /\
  (u_set_seed (p_udp p) = false -> po_prob s' = p /\ evals (n * length (po_id s)) s s' /\ replaced (kept_best p Box) s s') /\
  (u_set_seed (p_udp p) = true -> exists ks, length ks = n /\ po_prob s' = fold_left reseed ks p /\ evals (2 * n * length (po_id s)) s s' /\
     forall i x f x' f', nth_error (po_x s) i = Some x -> nth_error (po_f s) i = Some f -> nth_error (po_x s') i = Some x' -> nth_error (po_f s') i = Some f' ->
       (x' = x \/ Box x') /\ (n = 0 -> x' = x /\ f' = f) /\ (0 < n -> evaluated (po_prob s') x' f') /\
       (n = 1 -> forall g, evaluated (po_prob s') x g -> ~ better (obj g) (obj f'))).
