(** Vocabulary for the extended ant colony algorithm. *)
From Coq Require Import List Bool Arith ZArith.
From Verif Require Import Dbl Outcome Problem SpecProblem Rng SpecGeneric SpecGenetic SpecHarmony Population SpecPopulation SpecAlgo SpecNsga2 AlgGaco.
Import ListNotations.

(** The parameters the constructor takes *)
Definition gaco_accepts (a : gaco_params) : Prop :=
  dlt (ga_acc a) dzero = false /\ dlt (ga_focus a) dzero = false /\ dlt (ga_q a) dzero = false /\ 2 <= ga_ker a /\
  (ga_gen a <> 0 -> 1 <= ga_threshold a /\ (ga_memory a = false -> ga_threshold a <= ga_gen a)).

(** Rows of an archive: a penalty, then a point, then its fitness *)
Definition archive_row (p : problem) (Pt : list dbl -> list dbl -> Prop) (row : list dbl) : Prop :=
  exists pen x f, row = pen :: x ++ f /\ length x = get_nx p /\ length f = get_nf p /\ Pt x f.
Definition archive_for (a : gaco_params) (p : problem) (Pt : list dbl -> list dbl -> Prop) (arch : list (list dbl)) : Prop :=
  length arch = ga_ker a /\ forall row, In row arch -> archive_row p Pt row.
(** One of the two stopping criteria holds. *)
Definition gaco_stopped (a : gaco_params) (k : ants) : Prop :=
  (ga_impstop a <> 0 /\ (Z.of_nat (ga_impstop a) <= an_impstop k)%Z) \/ (ga_evalstop a <> 0 /\ (Z.of_nat (ga_evalstop a) <= an_evalstop k)%Z).
(** The calls seen so far, 32 bits wide *)
Definition first_call (k : ants) : Prop := ((an_counter k + 1) mod 2 ^ 32 < 2)%Z.
(** The members when a call to evolve for the problem p may come: without memory no call was
    counted; with memory, this is the first call or there is an archive for p, unless the
    algorithm has stopped for good. *)
Definition gaco_ready (a : gaco_params) (p : problem) (Pt : list dbl -> list dbl -> Prop) (k : ants) : Prop :=
  if ga_memory a then first_call k \/ archive_for a p Pt (an_arch k) \/ gaco_stopped a k else an_counter k = 0%Z.

(** Populations for which evolve does something *)
Definition colony {P} (a : gaco_params) (s : pop P) : Prop :=
  valid_pop s /\ po_cx s <> [] /\ p_nobj (po_prob s) = 1 /\ u_set_seed (p_udp (po_prob s)) = false /\ ga_ker a <= length (po_id s).
(** The evaluations one by one need a fitness that returns; a batch evaluator has to do what
    the problem does. *)
Definition evaluator_fine (bfe : option (problem -> list dbl -> outcome (list dbl))) (p : problem) : Prop :=
  match bfe with None => fitness_defined p | Some ud => total_fitness p /\ faithful_bfe ud p end.

(** Inside the bounds or NaN, integers where integers are due *)
Definition loose (p : problem) (x : list dbl) : Prop := in_box_or_nan (p_lb p) (p_ub p) x /\ whole_tail (p_nix p) x.
(** n generations from s to s': every individual is an old one (only without memory) or a new
    point, with its fitness; n times the number of individuals evaluations. *)
Definition ant_run {P} (a : gaco_params) (Box : list dbl -> Prop) (n : nat) (s s' : pop P) : Prop :=
  valid_pop s' /\ po_cx s' <> [] /\ po_prob s' = po_prob s /\ po_id s' = po_id s /\ evals (n * length (po_id s)) s s' /\ (n = 0 -> s' = s) /\
  forall i x f, nth_error (po_x s') i = Some x -> nth_error (po_f s') i = Some f ->
    (evaluated (po_prob s) x f /\ Box x) \/
    ((n = 0 \/ ga_memory a = false) /\ exists j, nth_error (po_x s) j = Some x /\ nth_error (po_f s) j = Some f).
(** A call: some generations, fewer than asked for only if the algorithm stopped *)
Definition ant_call {P} (a : gaco_params) (Box : list dbl -> Prop) (s s' : pop P) (k' : ants) : Prop :=
  exists n, n <= ga_gen a /\ (n < ga_gen a -> gaco_stopped a k') /\ ant_run a Box n s s'.
(** The counter for the convergence speed is in its range. *)
Definition mark_fine (a : gaco_params) (k : ants) : Prop := (1 <= an_mark k <= Z.max 1 (Z.of_nat (ga_ngm a)))%Z.
Definition in_box_of (p : problem) (x f : list dbl) : Prop := in_box (p_lb p) (p_ub p) x.
Definition any_point (x f : list dbl) : Prop := True.
(** The members after a call was counted *)
Definition counted (a : gaco_params) (k : ants) : ants := if ga_memory a then set_counter k ((an_counter k + 1) mod 2 ^ 32) else k.
(** The state of a run: random engine and members, then the population *)
Definition colony_state (G P : Type) : Type := ((G * ants) * pop P)%type.
(** The individuals as pairs of decision vector and fitness *)
Definition members {P} (s : pop P) : list (list dbl * list dbl) := combine (po_x s) (po_f s).
