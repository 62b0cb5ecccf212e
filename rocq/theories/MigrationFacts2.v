(** The default policy in a migration, and worked examples. *)
From Coq Require Import List Bool Arith ZArith Lia.
From Verif Require Import Dbl Outcome BaseFacts StdSort Compare SpecOrder Constrained Problem SpecProblem Rng SpecGeneric SpecGenetic RmFacts Population SpecPopulation PopulationFacts PopulationFacts4
  Policies SpecPolicies PoliciesFacts Archipelago Migration SpecMigration MigrationFacts.
Import ListNotations.

Lemma replace_args udrp inds d mig out : size_args d -> r_policy_replace udrp inds d mig = Ok out -> consistent d /\ shaped (d_nx d) (nf_sum d) inds /\ shaped (d_nx d) (nf_sum d) mig.
Proof.
  intros SA H. destruct (r_policy_spec udrp inds d mig SA) as [N _]. destruct (verify_dims_spec d SA) as [[_ C]|[_ C]]; [|rewrite N in H; [discriminate|tauto]].
  assert (E : nf_of d = nf_sum d) by (unfold nf_sum; now rewrite nf_consistent). destruct (verify_output_spec d inds) as [[_ S1]|[_ S1]]; rewrite E in S1; [|rewrite N in H; [discriminate|tauto]].
  destruct (verify_output_spec d mig) as [[_ S2]|[_ S2]]; rewrite E in S2; [|rewrite N in H; [discriminate|tauto]]. auto.
Qed.
Section M.
Context {G E : Type} (v : menv E).
Lemma migrate_fair srt rate idx (s : st G E) seen s' : sort_contract srt -> prob_obj (po_prob (s_pop s)) -> (Z.of_nat (get_nx (po_prob (s_pop s))) < 2 ^ 64)%Z ->
  p_nobj (po_prob (s_pop s)) = 1 -> get_nc (po_prob (s_pop s)) = 0 -> rate_ok rate (length (po_id (s_pop s))) ->
  migrate v (udrp_fair srt rate) idx s = (Ok seen, s') -> seen <> [] -> fair_outcome beats_objective rate (inds_of (s_pop s)) (together seen) (inds_of (s_pop s')).
Proof.
  intros SC PO NX O1 C0 RO H NE. destruct (atomic _ _ _ _ _ _ H) as (_ & _ & R). specialize (R seen eq_refl NE). destruct (data_ok _ PO NX) as (SA & _ & _ & NF). destruct (replace_args _ _ _ _ _ SA R) as (_ & S1 & S2).
  apply replace_shaped in R. destruct R as (_ & R & _). unfold udrp_fair in R. assert (Z1 : d_nobj (data_of (po_prob (s_pop s))) = 1%Z) by (cbn; lia). unfold get_nc in C0.
  assert (Z2 : d_nec (data_of (po_prob (s_pop s))) = 0%Z) by (cbn; lia). assert (Z3 : d_nic (data_of (po_prob (s_pop s))) = 0%Z) by (cbn; lia). rewrite Z1, Z2, Z3 in R. unfold nf_sum in S1, S2. rewrite Z1, Z2, Z3 in S1, S2.
  destruct (fair_objective srt rate (inds_of (s_pop s)) (together seen) (d_tol (data_of (po_prob (s_pop s)))) SC) as (out & E1 & F); [apply S1|apply S2|exact RO| |].
  - intros f I. apply in_app_or in I. destruct S1 as (_ & _ & F1), S2 as (_ & _ & F2). destruct I as [I|I]; [specialize (F1 f I)|specialize (F2 f I)]; cbn in *; lia.
  - rewrite R in E1. injection E1 as <-. exact F.
Qed.
Lemma fair_best_kept srt rate idx (s : st G E) seen s' : sort_contract srt -> prob_obj (po_prob (s_pop s)) -> (Z.of_nat (get_nx (po_prob (s_pop s))) < 2 ^ 64)%Z ->
  p_nobj (po_prob (s_pop s)) = 1 -> get_nc (po_prob (s_pop s)) = 0 -> rate_ok rate (length (po_id (s_pop s))) -> good_shape (s_pop s) ->
  migrate v (udrp_fair srt rate) idx s = (Ok seen, s') -> length (po_id (s_pop s')) = length (po_id (s_pop s)) /\
  forall a, In a (members (inds_of (s_pop s))) -> exists b, In b (members (inds_of (s_pop s'))) /\ ~ beats_objective (fit a) (fit b).
Proof.
  intros SC PO NX O1 C0 RO GS H. destruct (migrate_spec _ _ _ _ _ _ H) as [(N & _)|[([= ->] & P & _)|(seen' & new & ts & m & conns & [= <-] & R & _ & P & _)]].
  - exfalso. eapply N. reflexivity.
  - rewrite P. split; [reflexivity|]. intros a I. exists a. split; [exact I|]. unfold beats_objective, better, num_lt. destruct (nth 0 (fit a) NaN); cbn; try tauto; try lia; try (intros [? ?]; lia).
  - assert (FO : fair_outcome beats_objective rate (inds_of (s_pop s)) (together seen) (inds_of (s_pop s'))).
    { destruct (data_ok _ PO NX) as (SA & _ & _ & NF). destruct (replace_args _ _ _ _ _ SA R) as (_ & S1 & S2).
      apply replace_shaped in R. destruct R as (_ & R & _). unfold udrp_fair in R. assert (Z1 : d_nobj (data_of (po_prob (s_pop s))) = 1%Z) by (cbn; lia). unfold get_nc in C0.
      assert (Z2 : d_nec (data_of (po_prob (s_pop s))) = 0%Z) by (cbn; lia). assert (Z3 : d_nic (data_of (po_prob (s_pop s))) = 0%Z) by (cbn; lia). rewrite Z1, Z2, Z3 in R. unfold nf_sum in S1, S2. rewrite Z1, Z2, Z3 in S1, S2.
      destruct (fair_objective srt rate (inds_of (s_pop s)) (together seen) (d_tol (data_of (po_prob (s_pop s)))) SC) as (out & E1 & F); [apply S1|apply S2|exact RO| |].
      - intros f I. apply in_app_or in I. destruct S1 as (_ & _ & F1), S2 as (_ & _ & F2). destruct I as [I|I]; [specialize (F1 f I)|specialize (F2 f I)]; cbn in *; lia.
      - rewrite R in E1. injection E1 as <-. rewrite P. replace (inds_of (with_inds (s_pop s) new)) with new by (now destruct new). exact F. }
    pose proof FO as (AO & k & used & _ & _ & (L & _)). rewrite members_length in L by exact AO. cbn [inds_of g_id] in L. split; [exact L|]. intros a I.
    eapply fair_not_worse; [exact FO| | |exact I].
    + destruct (g_id (inds_of (s_pop s))) eqn:Z; [|cbn; lia]. unfold members in I. rewrite Z in I. contradiction.
    + destruct GS as (A1 & A2 & _). split; assumption.
Qed.
End M.

(** Two islands, each connected to the other with weight 1; every die shows 0. *)
Definition db_env (t : migration_type) (h : migrant_handling) : menv migrants_db :=
  {| v_conn := fun i => rret ([1 - i], [done]); v_type := rret t; v_handling := rret h; v_pick := fun _ => rret 0; v_die := rret dzero;
     v_get := fun i db => (db_get db i, db); v_extract := fun i db => db_extract db i; v_put := fun i g db => db_set db i g; v_now := fun db => (Fin 3, db) |}.
Lemma db_env_sane t h : sane (db_env t h).
Proof.
  assert (V : forall A (l : list A) i, Nat.leb (length l) i = false -> exists a, vget l i = Ok a).
  { intros A l i H. apply Nat.leb_gt in H. unfold vget. destruct (nth_error l i) eqn:X; [eauto|]. apply nth_error_None in X. lia. }
  split; [intros i; apply always_ret; reflexivity|]. repeat split; intros; try (apply always_ret; auto; fail).
  - intros db. cbn. unfold db_get. destruct (Nat.leb _ _) eqn:L; [exact I|]. destruct (V _ _ _ L) as [a ->]. exact I.
  - intros db. cbn. unfold db_extract. destruct (Nat.leb _ _) eqn:L; [exact I|]. destruct (V _ _ _ L) as [a Ea]. cbn [fst]. rewrite Ea. exact I.
  - intros db. cbn. unfold db_set. destruct (Nat.leb _ _); exact I.
Qed.
Definition mpop (l : list (Z * Z)) (champ : Z) : pop (list Z) :=
  {| po_prob := pop_problem; po_fevals := 2; po_id := map fst l; po_x := map (fun t => [Fin (snd t)]) l; po_f := map (fun t => [Fin (snd t)]) l; po_cx := [Fin champ]; po_cf := [Fin champ]; po_rng := [] |}.
Definition mgrp (l : list (Z * Z)) : group := mkgrp (map fst l) (map (fun t => [Fin (snd t)]) l) (map (fun t => [Fin (snd t)]) l).

(** An individual that is already there is logged although the population stays the same. *)
Lemma relogged : exists (s : st (list Z) migrants_db) s' seen, good_shape (s_pop s) /\
  migrate (db_env P2P Preserve) (udrp_fair isort (Absolute 1)) 0 s = (Ok seen, s') /\ s_pop s' = s_pop s /\ s_log s = [] /\ s_log s' <> [].
Proof.
  exists (mkst (mpop [(9, 1); (7, 4)]%Z 1) [] [mgrp []; mgrp [(7, 4)]%Z]). eexists. eexists. split; [|split; [vm_compute; reflexivity|]].
  - repeat split; cbn; intros y Hy; repeat (destruct Hy as [<-|Hy]; [reflexivity|]); destruct Hy.
  - split; [reflexivity|]. split; [reflexivity|discriminate].
Qed.
(** The same migrant twice: IDs are not unique any more. *)
Lemma ids_repeat : exists (s : st (list Z) migrants_db) s' seen, NoDup (po_id (s_pop s)) /\
  migrate (db_env P2P Preserve) (udrp_fair isort (Absolute 1)) 0 s = (Ok seen, s') /\ ~ NoDup (po_id (s_pop s')).
Proof.
  exists (mkst (mpop [(7, 1); (9, 4)]%Z 1) [] [mgrp []; mgrp [(7, 1)]%Z]). eexists. eexists. split; [|split; [vm_compute; reflexivity|]].
  - cbn. repeat constructor; cbn; intuition discriminate.
  - cbn. intros N. inversion N; subst. apply H1. now left.
Qed.
(** The champion of a population reached by evolutions and a migration need not be its best. *)
Lemma champion_stale : exists (s : st (list Z) migrants_db) s' seen, reachable stream_rng pop_problem (s_pop s) /\
  migrate (db_env P2P Evict) (udrp_fair isort (Absolute 1)) 0 s = (Ok seen, s') /\
  exists x f cx cf, In x (po_x (s_pop s')) /\ In [f] (po_f (s_pop s')) /\ champion (s_pop s') = Ok (cx, [cf]) /\ better f cf.
Proof.
  destruct (pop_run stream_rng (empty_pop pop_problem [7]%Z) [Population.PushBack [Fin 5]]) as [p tr] eqn:EP. assert (R : reachable stream_rng pop_problem p) by (exists [7]%Z, [Population.PushBack [Fin 5]], tr; exact EP). vm_compute in EP. injection EP as <- <-.
  match type of R with reachable _ _ ?q => exists (mkst q [] [mgrp []; mgrp [(8, 2)]%Z]) end. eexists. eexists. split; [exact R|]. split; [vm_compute; reflexivity|]. cbn. exists [Fin 2], (Fin 2), [Fin 5], (Fin 5). split; [now left|]. split; [now left|]. split; [reflexivity|]. cbn. lia.
Qed.
(** Evicted migrants are lost when the policy throws. *)
Lemma evicted_lost : exists (s : st (list Z) migrants_db) s' e, good_shape (s_pop s) /\
  migrate (db_env P2P Evict) (udrp_fair isort (Absolute 3)) 0 s = (Throw e, s') /\ nth_error (s_env s) 1 = Some (mgrp [(8, 2)]%Z) /\ s_env s' = [empty_group; empty_group] /\ s_pop s' = s_pop s.
Proof.
  exists (mkst (mpop [(9, 1); (7, 4)]%Z 1) [] [empty_group; mgrp [(8, 2)]%Z]). eexists. eexists. split; [|split; [vm_compute; reflexivity|]].
  - repeat split; cbn; intros y Hy; repeat (destruct Hy as [<-|Hy]; [reflexivity|]); destruct Hy.
  - repeat split.
Qed.
(** An ordinary migration with its log. *)
Lemma migrate_example : exists s', migrate (db_env Broadcast Evict) (udrp_fair isort (Absolute 2)) 0 (mkst (mpop [(9, 1); (7, 4)]%Z 1) [] [empty_group; mgrp [(8, 2); (6, 9)]%Z]) = (Ok [(1, mgrp [(8, 2); (6, 9)]%Z)], s') /\
  s_pop s' = mpop [(9, 1); (8, 2)]%Z 1 /\ s_log s' = [mken (Fin 3) 8 [Fin 2] [Fin 2] 1 0] /\ s_env s' = [empty_group; empty_group].
Proof. eexists. split; [vm_compute; reflexivity|]. repeat split. Qed.
Lemma zero_weights {G E} (v : menv E) udrp idx (s : st G E) seen s' conns : migrate v udrp idx s = (Ok seen, s') -> fst (v_conn v idx (s_env s)) = Ok conns ->
  (forall e d, fst (v_die v e) = Ok d -> dle dzero d = true) -> (forall w, In w (snd conns) -> w = dzero) -> seen = [].
Proof.
  intros H C D W. destruct seen as [|[src g] l]; [reflexivity|]. exfalso. destruct (seen_fetched _ _ _ _ _ _ H src g (or_introl eq_refl)) as (c & C' & (j & w & d & e & E1 & E2 & E3 & E4) & _).
  rewrite C in C'. injection C' as <-. apply nth_error_In in E2. apply W in E2. subst w. apply D in E3. unfold dle, dzero in *. destruct d as [| |z|]; try discriminate. cbn in E4. apply Z.ltb_lt in E4. apply orb_prop in E3. destruct E3 as [E3|E3]; [cbn in E3; apply Z.ltb_lt in E3; lia|destruct z; try discriminate; lia].
Qed.
Lemma champion_kept {G E} (v : menv E) udrp idx (s : st G E) o s' : migrate v udrp idx s = (o, s') -> champion (s_pop s') = champion (s_pop s).
Proof. intros H. destruct (atomic _ _ _ _ _ _ H) as ((P & _ & X & F & _) & _). unfold champion. now rewrite P, X, F. Qed.
Lemma fair_example : prob_obj pop_problem /\ p_nobj pop_problem = 1 /\ get_nc pop_problem = 0 /\ sort_contract isort /\ rate_ok (Absolute 2) 2 /\ good_shape (mpop [(9, 1); (7, 4)]%Z 1).
Proof.
  split; [exact pop_problem_obj|]. split; [reflexivity|]. split; [reflexivity|]. split; [apply isort_contract|]. split; [cbn; lia|]. repeat split; cbn; intros y Hy; repeat (destruct Hy as [<-|Hy]; [reflexivity|]); destruct Hy.
Qed.
Lemma task_example n : exists s', evolve_task (db_env P2P Evict) (udrp_fair isort (Absolute 1)) (udsp_best isort (Absolute 1)) (rret tt) (Some 0) n (mkst (mpop [(9, 1)]%Z 1) [] [empty_group; empty_group]) = (Ok tt, s').
Proof.
  unfold evolve_task. set (T := turn _ _ _ _ _).
  assert (H : forall (n : list nat) s e, (s = mkst (mpop [(9, 1)]%Z 1) [] [e; empty_group]) -> exists s', rfold (fun _ _ => T) tt n s = (Ok tt, s')).
  { intros l. induction l as [|a l IH]; intros s e ->; [eexists; reflexivity|]. cbn [rfold]. unfold rbind at 1.
    assert (S1 : T (mkst (mpop [(9, 1)]%Z 1) [] [e; empty_group]) = (Ok tt, mkst (mpop [(9, 1)]%Z 1) [] [mgrp [(9, 1)]%Z; empty_group])) by (vm_compute; reflexivity).
    rewrite S1. eapply IH. reflexivity. }
  eapply H. reflexivity.
Qed.
