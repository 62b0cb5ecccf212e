(** Vocabulary for cmaes and xnes. *)
From Coq Require Import List Bool Arith ZArith Permutation.
From Verif Require Import Dbl Outcome StdSort Compare Problem SpecProblem Rng SpecGeneric SpecGenetic Population SpecPopulation SpecAlgo SpecNsga2 AlgEigen AlgCmaes.
Import ListNotations.

Definition square (n : nat) (M : mat) : Prop := length M = n /\ forall row, In row M -> length row = n.
(** The eigenvectors and eigenvalues of an n times n matrix are n vectors and n numbers; its
    exponential is an n times n matrix *)
Record eigen_contract (K : eigen) : Prop := {
  eigh_size : forall n M V l, square n M -> e_eigh K M = Some (V, l) -> square n V /\ length l = n;
  mexp_size : forall n M, square n M -> square n (e_mexp K M) }.

(** A parameter that is a rate in [0, 1], or -1, or not a number *)
Definition rate_or_auto (c : dbl) : Prop := c = NaN \/ (dle dzero c = true /\ dle c done = true) \/ c = d_of_Z (-1).

(** The members of cmaes fit together: all vectors and matrices belong to one dimension *)
Definition cmem_sized (n : nat) (k : cmem) : Prop :=
  (forall v, In v (ce_newpop k) -> length v = n) /\ length (ce_mean k) = n /\ square n (ce_B k) /\ square n (ce_D k) /\ square n (ce_C k) /\ square n (ce_inv k) /\
  length (ce_pc k) = n /\ length (ce_ps k) = n.
Definition cmaes_ready (k : cmem) : Prop := exists n, cmem_sized n k.

(** Populations that the algorithms take: one objective, no constraints, finite bounds *)
Definition es_suits {P} (least : nat) (s : pop P) : Prop :=
  valid_pop s /\ get_nc (po_prob s) = 0 /\ get_nf (po_prob s) = 1 /\ least <= length (po_id s) /\ (forall b, In b (p_lb (po_prob s)) \/ In b (p_ub (po_prob s)) -> isfinite b = true).
(** The seeds given to the problem: none if it is not stochastic *)
Definition seeds_for (p : problem) (ks : list Z) : Prop := u_set_seed (p_udp p) = false -> ks = [].
(** The problem stays what it is with every seed, and its fitness function returns; a batch
    evaluator has to do what the problem does *)
Definition evaluates (bfe : option (problem -> list dbl -> outcome (list dbl))) (p : problem) : Prop :=
  match bfe with None => fitness_defined p | Some ud => total_fitness p /\ faithful_bfe ud p end.
Definition es_problem (reseed : problem -> Z -> problem) (bfe : option (problem -> list dbl -> outcome (list dbl))) (p : problem) : Prop :=
  forall ks, seeds_for p ks -> let q := fold_left reseed ks p in
  prob_obj q /\ p_lb q = p_lb p /\ p_ub q = p_ub p /\ get_nc q = 0 /\ get_nf q = 1 /\ u_set_seed (p_udp q) = u_set_seed (p_udp p) /\ evaluates bfe q.
Definition es_throws (reseed : problem -> Z -> problem) (p : problem) (e : exn) : Prop := exists ks, seeds_for p ks /\ fitness_throws (fold_left reseed ks p) e.

(** n generations from s to s': the problem has got n new seeds if it is stochastic, one
    evaluation was made per individual and generation, and every individual is a point of the
    last generation, with its fitness under the last seed *)
Definition es_run {P} (reseed : problem -> Z -> problem) (Box : list dbl -> Prop) (n : nat) (s s' : pop P) : Prop :=
  valid_pop s' /\ po_id s' = po_id s /\ evals (n * length (po_id s)) s s' /\ (n = 0 -> s' = s) /\
  (exists ks, po_prob s' = fold_left reseed ks (po_prob s) /\ length ks = (if u_set_seed (p_udp (po_prob s)) then n else 0)) /\
  (0 < n -> forall i x f, nth_error (po_x s') i = Some x -> nth_error (po_f s') i = Some f -> evaluated (po_prob s') x f /\ Box x).
(** With force_bounds no component is below or above its bounds *)
Definition forced (force : bool) (p : problem) (x : list dbl) : Prop := force = true -> in_box_or_nan (p_lb p) (p_ub p) x.
(** The fitness values of the best and the worst individual are closer than ftol *)
Definition flat_f {P} (srt : sorter) (ftol : dbl) (s : pop P) : Prop :=
  exists b w fb fw, best_idx srt s = Ok b /\ worst_idx srt s = Ok w /\ nth_error (po_f s) b = Some fb /\ nth_error (po_f s) w = Some fw /\ dlt (dabs (dsub (obj fb) (obj fw))) ftol = true.
(** A step sigma B D z of the present distribution is shorter than xtol *)
Definition short_step (K : eigen) (xtol : dbl) (n : nat) (k : cmem) : Prop :=
  exists z bd st, length z = n /\ mmul K n (mscale (ce_sigma k) (ce_B k)) (ce_D k) = Ok bd /\ mvec K n bd z = Ok st /\ dlt (dsqrt (e_dot K st st)) xtol = true.

(** A point of the search distribution: mean + sigma B D z *)
Definition drawn (K : eigen) (n : nat) (k : cmem) (pt : vec) : Prop :=
  exists z bd st, length z = n /\ mmul K n (mscale (ce_sigma k) (ce_B k)) (ce_D k) = Ok bd /\ mvec K n bd z = Ok st /\ vplus n (ce_mean k) st = Ok pt.
(** The individual made of it: with force_bounds the components outside of the box are moved to
    its border *)
Definition made_of (force : bool) (p : problem) (pt x : list dbl) : Prop :=
  length x = length pt /\ forall j l u v w, nth_error (p_lb p) j = Some l -> nth_error (p_ub p) j = Some u -> nth_error pt j = Some v -> nth_error x j = Some w ->
    w = if force then (if dlt v l then l else if dlt u v then u else v) else v.
(** The better half of a population, best first (NaN counts as worst) *)
Definition better_half {P} (s : pop P) (e : list (list dbl)) : Prop :=
  exists idx, Permutation idx (seq 0 (length (po_id s))) /\
    (forall i j a b fa fb, i < j -> nth_error idx i = Some a -> nth_error idx j = Some b -> nth_error (po_f s) a = Some fa -> nth_error (po_f s) b = Some fb -> less_than_f (obj fb) (obj fa) = false) /\
    e = map (fun i => nth i (po_x s) []) (firstn (length (po_id s) / 2) idx).
(** v_0 w_0 + v_1 w_1 + ... *)
Definition weighted_sum (vs : list vec) (w : vec) (n : nat) (m : vec) : Prop :=
  length m = n /\ forall j, j < n -> nth_error m j =
    Some (fold_left dadd (map (fun q => dmul (nth j (fst q) NaN) (snd q)) (combine (tl vs) (tl w))) (dmul (nth j (hd [] vs) NaN) (hd NaN w))).
(** One generation from members k and population s to k' and t: the individuals are points drawn
    from the distribution of k, and the mean of k' is the weighted sum of the better half *)
Definition cm_learns {P} (K : eigen) (force : bool) (p : problem) (w : vec) (k : cmem) (t : pop P) (k' : cmem) : Prop :=
  (exists pts, Forall2 (made_of force p) pts (po_x t) /\ forall pt, In pt pts -> drawn K (get_nx p) k pt) /\
  (exists e, better_half t e /\ weighted_sum e w (get_nx p) (ce_mean k')).
