(** Properties C58 and C59: the migration step of an island's evolution.
    Only statements, non-vacuity examples and assumption listings.

    [migrate v udrp idx s = (o, s')]: the step of island idx with replacement policy udrp,
    from state s (population, log, environment) to s'. The environment v (the archipelago's
    topology and database, the dice, the clock) may answer anything and throw anything. On
    success o = Ok seen, the candidate migrants with the islands they were taken from. *)
From Coq Require Import List Bool Arith ZArith Lia.
From Verif Require Import Dbl Outcome StdSort SpecOrder Problem SpecProblem Rng SpecGeneric SpecGenetic Population SpecPopulation PopulationFacts4
  Policies SpecPolicies Archipelago Migration SpecMigration MigrationFacts MigrationFacts2.
Import ListNotations.
Local Open Scope nat_scope.

(** ** C58. Every entry that is added names an individual of the new population with its
    stored vectors, this island as destination, and a source that offered that ID; and no
    migrant whose ID is in the new population goes unlogged. *)
Theorem C58_log : forall G E (v : menv E) udrp idx (s : st G E) seen s', migrate v udrp idx s = (Ok seen, s') -> exists added, s_log s' = s_log s ++ added /\
  (forall e, In e added -> e_dst e = idx /\ In (e_id e, e_x e, e_f e) (members (inds_of (s_pop s'))) /\ exists g, In (e_src e, g) seen /\ In (e_id e) (g_id g)) /\
  (forall src g i, In (src, g) seen -> In i (g_id g) -> In i (po_id (s_pop s')) -> exists e, In e added /\ e_id e = i /\ e_src e = src).
Proof. exact @log_real. Qed.
Print Assumptions C58_log.
(** Migrants come from a connection of this island whose die came out below its weight, and
    are what the database gave for it; connections of weight 0 deliver nothing. *)
Theorem C58_sources : forall G E (v : menv E) udrp idx (s : st G E) seen s', migrate v udrp idx s = (Ok seen, s') ->
  forall src g, In (src, g) seen -> exists conns, fst (v_conn v idx (s_env s)) = Ok conns /\ drawn v conns src /\ exists h e, fst (fetch v h src e) = Ok g.
Proof. exact @seen_fetched. Qed.
Print Assumptions C58_sources.
Theorem C58_zero_weights : forall G E (v : menv E) udrp idx (s : st G E) seen s' conns, migrate v udrp idx s = (Ok seen, s') -> fst (v_conn v idx (s_env s)) = Ok conns ->
  (forall e d, fst (v_die v e) = Ok d -> dle dzero d = true) -> (forall w, In w (snd conns) -> w = dzero) -> seen = [].
Proof. exact @zero_weights. Qed.
Print Assumptions C58_zero_weights.
(** A step that fails leaves population and log as they were; one that succeeds puts the
    policy's answer in the place of the individuals and changes nothing else. *)
Theorem C58_atomic : forall G E (v : menv E) udrp idx (s : st G E) o s', migrate v udrp idx s = (o, s') -> same_but_individuals (s_pop s) (s_pop s') /\
  ((forall l, o <> Ok l) -> s_pop s' = s_pop s /\ s_log s' = s_log s) /\
  (forall seen, o = Ok seen -> seen <> [] -> r_policy_replace udrp (inds_of (s_pop s)) (data_of (po_prob (s_pop s))) (together seen) = Ok (inds_of (s_pop s'))).
Proof. exact @atomic. Qed.
Print Assumptions C58_atomic.
(** Whatever migrants arrive and whatever the policies do, throughout a whole task of n
    evolutions the individuals fit the problem. *)
Theorem C58_population_valid : forall G E (v : menv E) udrp udsp (run : RM (st G E) unit) archi p, prob_obj p -> (Z.of_nat (get_nx p) < 2 ^ 64)%Z ->
  (forall s o s', po_prob (s_pop s) = p -> good_shape (s_pop s) -> run s = (o, s') -> po_prob (s_pop s') = p /\ good_shape (s_pop s')) ->
  forall n s o s', po_prob (s_pop s) = p -> good_shape (s_pop s) -> evolve_task v udrp udsp run archi n s = (o, s') -> po_prob (s_pop s') = p /\ good_shape (s_pop s').
Proof. exact @task_shape. Qed.
Print Assumptions C58_population_valid.
(** With an archipelago that keeps its own contracts and a policy without undefined
    behaviour the step has none. *)
Theorem C58_defined : forall G E (v : menv E) udrp idx, sane v -> (forall i d m, no_ub (udrp i d m)) -> always (migrate (G := G) v udrp idx) (fun _ => True) (fun _ => True).
Proof. exact @migrate_defined. Qed.
Print Assumptions C58_defined.
(** The default policy on a single-objective unconstrained problem: the new population is the
    best of the old one and of the best migrants; its size stays and for each old individual
    there is one at least as good. *)
Theorem C58_fair : forall G E (v : menv E) srt rate idx (s : st G E) seen s', sort_contract srt -> prob_obj (po_prob (s_pop s)) -> (Z.of_nat (get_nx (po_prob (s_pop s))) < 2 ^ 64)%Z ->
  p_nobj (po_prob (s_pop s)) = 1 -> get_nc (po_prob (s_pop s)) = 0 -> rate_ok rate (length (po_id (s_pop s))) ->
  migrate v (udrp_fair srt rate) idx s = (Ok seen, s') -> seen <> [] -> fair_outcome beats_objective rate (inds_of (s_pop s)) (together seen) (inds_of (s_pop s')).
Proof. exact @migrate_fair. Qed.
Print Assumptions C58_fair.
Theorem C58_best_kept : forall G E (v : menv E) srt rate idx (s : st G E) seen s', sort_contract srt -> prob_obj (po_prob (s_pop s)) -> (Z.of_nat (get_nx (po_prob (s_pop s))) < 2 ^ 64)%Z ->
  p_nobj (po_prob (s_pop s)) = 1 -> get_nc (po_prob (s_pop s)) = 0 -> rate_ok rate (length (po_id (s_pop s))) -> good_shape (s_pop s) ->
  migrate v (udrp_fair srt rate) idx s = (Ok seen, s') -> length (po_id (s_pop s')) = length (po_id (s_pop s)) /\
  forall a, In a (members (inds_of (s_pop s))) -> exists b, In b (members (inds_of (s_pop s'))) /\ ~ beats_objective (fit a) (fit b).
Proof. exact @fair_best_kept. Qed.
Print Assumptions C58_best_kept.
(** Not true: "only new arrivals are logged". *)
Theorem C58_only_new_refuted : exists (s : st (list Z) migrants_db) s' seen, good_shape (s_pop s) /\
  migrate (db_env P2P Preserve) (udrp_fair isort (Absolute 1)) 0 s = (Ok seen, s') /\ s_pop s' = s_pop s /\ s_log s = [] /\ s_log s' <> [].
Proof. exact relogged. Qed.
Print Assumptions C58_only_new_refuted.
(** Not true: "the IDs of a population stay distinct". *)
Theorem C58_distinct_ids_refuted : exists (s : st (list Z) migrants_db) s' seen, NoDup (po_id (s_pop s)) /\
  migrate (db_env P2P Preserve) (udrp_fair isort (Absolute 1)) 0 s = (Ok seen, s') /\ ~ NoDup (po_id (s_pop s')).
Proof. exact ids_repeat. Qed.
Print Assumptions C58_distinct_ids_refuted.
(** Not true: "a failed step loses no migrants". *)
Theorem C58_evicted_kept_refuted : exists (s : st (list Z) migrants_db) s' e, good_shape (s_pop s) /\
  migrate (db_env P2P Evict) (udrp_fair isort (Absolute 3)) 0 s = (Throw e, s') /\ nth_error (s_env s) 1 = Some (mgrp [(8, 2)]%Z) /\ s_env s' = [empty_group; empty_group] /\ s_pop s' = s_pop s.
Proof. exact evicted_lost. Qed.
Print Assumptions C58_evicted_kept_refuted.
Example C58_example : exists s', migrate (db_env Broadcast Evict) (udrp_fair isort (Absolute 2)) 0 (mkst (mpop [(9, 1); (7, 4)]%Z 1) [] [empty_group; mgrp [(8, 2); (6, 9)]%Z]) = (Ok [(1, mgrp [(8, 2); (6, 9)]%Z)], s') /\
  s_pop s' = mpop [(9, 1); (8, 2)]%Z 1 /\ s_log s' = [mken (Fin 3) 8 [Fin 2] [Fin 2] 1 0] /\ s_env s' = [empty_group; empty_group].
Proof. exact migrate_example. Qed.
Example C58_example_fair : prob_obj pop_problem /\ p_nobj pop_problem = 1 /\ get_nc pop_problem = 0 /\ sort_contract isort /\ rate_ok (Absolute 2) 2 /\ good_shape (mpop [(9, 1); (7, 4)]%Z 1).
Proof. exact fair_example. Qed.
Example C58_example_sane : forall t h, sane (db_env t h).
Proof. exact db_env_sane. Qed.
Example C58_example_task : forall n, exists s', evolve_task (db_env P2P Evict) (udrp_fair isort (Absolute 1)) (udsp_best isort (Absolute 1)) (rret tt) (Some 0) n (mkst (mpop [(9, 1)]%Z 1) [] [empty_group; empty_group]) = (Ok tt, s').
Proof. exact task_example. Qed.

(** ** C59. Migration leaves the champion alone ... *)
Theorem C59_champion_kept : forall G E (v : menv E) udrp idx (s : st G E) o s', migrate v udrp idx s = (o, s') -> champion (s_pop s') = champion (s_pop s).
Proof. exact @champion_kept. Qed.
Print Assumptions C59_champion_kept.
(** ... so it is not true that "the champion is at least as good as every individual". *)
Theorem C59_champion_best_refuted : exists (s : st (list Z) migrants_db) s' seen, reachable stream_rng pop_problem (s_pop s) /\
  migrate (db_env P2P Evict) (udrp_fair isort (Absolute 1)) 0 s = (Ok seen, s') /\
  exists x f cx cf, In x (po_x (s_pop s')) /\ In [f] (po_f (s_pop s')) /\ champion (s_pop s') = Ok (cx, [cf]) /\ better f cf.
Proof. exact champion_stale. Qed.
Print Assumptions C59_champion_best_refuted.
