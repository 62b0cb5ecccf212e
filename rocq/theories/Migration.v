(** The task that island::evolve hands to the island's thread (src/island.cpp:438-642):
    migration from the connected islands, the evolution proper, and the selection of the
    migrants offered to the others.

    Everything outside the island is an environment of arbitrary type [E]: the random
    engine, the clock, the topology, and the migrants database with all that other islands
    do to it meanwhile. Simplifications: the island's population is changed only by this
    task while it runs (set_population from another thread in the middle is left out); the
    user-defined island is a function on the population (it can also set the algorithm,
    which plays no part here). *)
From Coq Require Import List Bool Arith ZArith.
From Verif Require Import Dbl Outcome Constrained Problem Rng Population Policies.
Import ListNotations.
Local Open Scope outcome_scope.

(** archipelago::migration_entry_t, archipelago.hpp: time, ID, vectors, source, destination *)
Record entry := mken { e_ts : dbl; e_id : Z; e_x : list dbl; e_f : list dbl; e_src : nat; e_dst : nat }.
(** migration_type and migrant_handling *)
Inductive migration_type := P2P | Broadcast.
Inductive migrant_handling := Preserve | Evict.

Section Migration.
Context {G E : Type}.
Record menv := {
  v_conn : nat -> RM E (list nat * list dbl);  (* get_island_connections, archipelago.cpp *)
  v_type : RM E migration_type;                (* get_migration_type *)
  v_handling : RM E migrant_handling;          (* get_migrant_handling *)
  v_pick : nat -> RM E nat;                    (* uniform_int_distribution(0, n - 1) *)
  v_die : RM E dbl;                            (* uniform_real_distribution<>{} *)
  v_get : nat -> RM E group;                   (* get_migrants *)
  v_extract : nat -> RM E group;               (* extract_migrants *)
  v_put : nat -> group -> RM E unit;           (* set_migrants *)
  v_now : E -> dbl * E                         (* steady_clock::now() - initial_timestamp, which cannot throw *)
}.
Context (v : menv).

(** The state: the island's population, the entries it has appended to the archipelago's
    log, and the environment. Calls on the environment leave the rest alone. *)
Record st := mkst { s_pop : pop G; s_log : list entry; s_env : E }.
Definition outside {A} (m : RM E A) : RM st A := fun s => let (o, e) := m (s_env s) in (o, mkst (s_pop s) (s_log s) e).
Definition get_pop : RM st (pop G) := fun s => (Ok (s_pop s), s).
Definition set_pop (p : pop G) : RM st unit := fun s => (Ok tt, mkst p (s_log s) (s_env s)).
(** append_migration_log, archipelago.cpp:644-654: one block at the end, under a mutex.
    What other islands append before or after is left out. *)
Definition append_log (l : list entry) : RM st unit := fun s => (Ok tt, mkst (s_pop s) (s_log s ++ l) (s_env s)).

(** get_migration_data, island.cpp:1026-1057 *)
Definition inds_of (p : pop G) : group := mkgrp (po_id p) (po_x p) (po_f p).
Definition data_of (p : problem) : pdata :=
  mkpd (Z.of_nat (get_nx p)) (Z.of_nat (p_nix p)) (Z.of_nat (p_nobj p)) (Z.of_nat (p_nec p)) (Z.of_nat (p_nic p)) (p_ctol p).
(** set_individuals, island.cpp:1060-1083: IDs and vectors; champion, counter and engine
    stay as they are. *)
Definition set_individuals (g : group) : RM st unit :=
  rbind get_pop (fun p => set_pop {| po_prob := po_prob p; po_fevals := po_fevals p; po_id := g_id g; po_x := g_x g; po_f := g_f g;
                                     po_cx := po_cx p; po_cf := po_cf p; po_rng := po_rng p |}).

(** group_to_map, island.cpp:484-493: later entries overwrite earlier ones. *)
Fixpoint imap_find (m : list (Z * (list dbl * list dbl))) (i : Z) : option (list dbl * list dbl) :=
  match m with [] => None | (k, xf) :: m' => if Z.eqb k i then Some xf else imap_find m' i end.
Definition group_to_map (g : group) : outcome (list (Z * (list dbl * list dbl))) :=
  mfold (fun m j => i <- vget (g_id g) j ;; x <- vget (g_x g) j ;; f <- vget (g_f g) j ;; Ok ((i, (x, f)) :: m)) [] (seq 0 (length (g_id g))).
(** the log of one source, island.cpp:536-544 and 607-617 *)
Definition log_of (m : list (Z * (list dbl * list dbl))) (ts : dbl) (dst : nat) (p : nat * group) : list entry :=
  flat_map (fun i => match imap_find m i with Some (x, f) => [mken ts i x f (fst p) dst] | None => [] end) (g_id (snd p)).

Definition fetch (h : migrant_handling) (i : nat) : RM E group := match h with Preserve => v_get v i | Evict => v_extract v i end.

Context (udrp : group -> pdata -> group -> outcome group) (udsp : group -> pdata -> outcome group).
(** The common end of both kinds of migration, island.cpp:513-547 and 580-621: replace, set,
    log. Returns the candidate migrants with their sources. *)
Definition settle (idx : nat) (split : list (nat * group)) : RM st (list (nat * group)) :=
  let mig := fold_left (fun a p => app_group a (snd p)) split (mkgrp [] [] []) in
  rbind get_pop (fun p =>
  rbind (rlift (r_policy_replace udrp (inds_of p) (data_of (po_prob p)) mig)) (fun new_inds =>
  rbind (set_individuals new_inds) (fun _ =>
  rbind (outside (rdraw (v_now v))) (fun ts =>
  rbind (rlift (group_to_map new_inds)) (fun m =>
  rbind (append_log (concat (map (log_of m ts idx) split))) (fun _ =>
  rret split)))))).

(** Point-to-point, island.cpp:495-548 *)
Definition p2p (idx : nat) (h : migrant_handling) (conns : list nat) (weights : list dbl) : RM st (list (nat * group)) :=
  rbind (outside (v_pick v (length conns))) (fun k =>
  rbind (outside (v_die v)) (fun d =>
  rbind (rlift (vget weights k)) (fun wk =>
  if dlt d wk then
    rbind (rlift (vget conns k)) (fun src =>
    rbind (outside (fetch h src)) (fun g => settle idx [(src, g)]))
  else rret []))).
(** Broadcast, island.cpp:549-622 *)
Definition broadcast (idx : nat) (h : migrant_handling) (conns : list nat) (weights : list dbl) : RM st (list (nat * group)) :=
  rbind (rfold (fun acc j =>
           rbind (outside (v_die v)) (fun d =>
           rbind (rlift (vget weights j)) (fun wj =>
           if dlt d wj then
             rbind (rlift (vget conns j)) (fun src =>
             rbind (outside (fetch h src)) (fun g => rret (acc ++ [(src, g)])))
           else rret acc))) [] (seq 0 (length conns)))
        (settle idx).
(** island.cpp:453-624 *)
Definition migrate (idx : nat) : RM st (list (nat * group)) :=
  rbind (outside (v_conn v idx)) (fun c =>
  if Nat.eqb (length (fst c)) 0 then rret []
  else rbind (outside (v_type v)) (fun t => rbind (outside (v_handling v)) (fun h =>
       match t with P2P => p2p idx h (fst c) (snd c) | Broadcast => broadcast idx h (fst c) (snd c) end))).

(** island.cpp:631-645: offer the selected individuals *)
Definition offer (idx : nat) : RM st unit :=
  rbind get_pop (fun p =>
  rbind (rlift (s_policy_select udsp (inds_of p) (data_of (po_prob p)))) (fun g => outside (v_put v idx g))).
(** One turn of the loop, island.cpp:448-646; None when the island is in no archipelago.
    [run_evolve] is the user-defined island. *)
Definition turn (run_evolve : RM st unit) (archi : option nat) : RM st unit :=
  rbind (match archi with Some idx => rbind (migrate idx) (fun _ => rret tt) | None => rret tt end) (fun _ =>
  rbind run_evolve (fun _ => match archi with Some idx => offer idx | None => rret tt end)).
Definition evolve_task (run_evolve : RM st unit) (archi : option nat) (n : nat) : RM st unit :=
  rfold (fun _ _ => turn run_evolve archi) tt (seq 0 n).
End Migration.
Arguments menv : clear implicits.
Arguments s_pop {G E}. Arguments s_log {G E}. Arguments s_env {G E}. Arguments mkst {G E}. Arguments st : clear implicits.
