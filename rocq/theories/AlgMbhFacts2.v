From Coq Require Import List Bool Arith ZArith Lia.
From Verif Require Import Dbl DblFacts IntDbl Outcome BaseFacts StdSort SpecOrder Compare CompareFacts Problem SpecProblem ProblemFacts Rng Generic SpecGeneric GenericFacts GenericFacts2 GenericFacts3 SpecGenetic RmFacts
  GeneticOps GeneticFacts Constrained SpecConstrained ConstrainedFacts ConstrainedFacts2 Population SpecPopulation PopulationFacts Algo SpecAlgo AlgoFacts AlgoFacts2 NotPop SpecLocal AlgCompass AlgCompassFacts AlgCompassFacts2 AlgSaFacts AlgMbh AlgMbhFacts AlgExamples.
Import ListNotations.

Lemma unit_test v : negb (isnan v) && dgt v dzero && dle v done = true <-> dlt dzero v = true /\ dle v done = true.
Proof. unfold dgt. destruct v; cbn [isnan negb andb]; rewrite ?andb_true_iff; try tauto. Qed.
Lemma mbh_vector_ok c : (mbh_construct_vector c = Ok tt <-> Forall (fun v => dlt dzero v = true /\ dle v done = true) c) /\ (mbh_construct_vector c = Ok tt \/ mbh_construct_vector c = Throw InvalidArgument).
Proof.
  unfold mbh_construct_vector, throw_if. split; [|destruct (negb _); auto]. rewrite Forall_forall. destruct (forallb _ c) eqn:E; cbn [negb].
  - split; [|reflexivity]. intros _ v Hv. rewrite forallb_forall in E. apply unit_test. now apply E.
  - split; [discriminate|]. intros H. exfalso. assert (X : forallb (fun v => negb (isnan v) && dgt v dzero && dle v done) c = true) by (apply forallb_forall; intros v Hv; apply unit_test; now apply H). congruence.
Qed.
Lemma mbh_scalar_ok c : mbh_construct_scalar c = mbh_construct_vector [c].
Proof.
  unfold mbh_construct_scalar, mbh_construct_vector. cbn [forallb]. rewrite andb_true_r. f_equal. unfold dgt. rewrite done_fin. unfold dzero. pose proof one_z_pos as OP. generalize dependent one_z. intros o OP.
  destruct c as [| |z|]; try reflexivity. cbn [isnan orb negb andb]. unfold dle, dlt, deq. destruct (Z.ltb_spec o z), (Z.ltb_spec z 0), (Z.eqb_spec z 0), (Z.ltb_spec 0 z), (Z.ltb_spec z o), (Z.eqb_spec z o); try reflexivity; lia.
Qed.

Section M.
Context {G P : Type} (r : rng G) (srt : sorter) (inner : AM (G := G) (P := P) unit) (m_stop : nat) (m_perturb : list dbl).
Lemma mbh_rejects fuel (s : G * pop P) : p_nobj (po_prob (snd s)) <> 1 \/ u_set_seed (p_udp (po_prob (snd s))) = true \/ (m_stop <> 0 /\ length m_perturb <> 1 /\ length m_perturb <> get_nx (po_prob (snd s))) ->
  mbh_evolve r srt inner m_stop m_perturb fuel s = (Throw InvalidArgument, s).
Proof.
  intros H. unfold mbh_evolve, rbind, getp. cbv beta iota zeta. destruct (Nat.eqb_spec (p_nobj (po_prob (snd s))) 1) as [E1|E1]; cbn [negb]; [|reflexivity].
  destruct (u_set_seed _); [reflexivity|]. destruct H as [H|[H|(H1 & H2 & H3)]]; [contradiction|discriminate|]. destruct (Nat.eqb_spec m_stop 0); [contradiction|].
  unfold mbh_perturb. destruct m_perturb as [|c [|d m]]; cbn [length] in *; try lia; match goal with |- context [Nat.eqb ?a ?b] => destruct (Nat.eqb_spec a b) as [X|X] end; try reflexivity; contradiction.
Qed.
Lemma mbh_zero fuel (s : G * pop P) : p_nobj (po_prob (snd s)) = 1 -> u_set_seed (p_udp (po_prob (snd s))) = false -> m_stop = 0 -> mbh_evolve r srt inner m_stop m_perturb fuel s = (Ok tt, s).
Proof. intros E1 E2 ->. unfold mbh_evolve, rbind, getp. cbv beta iota zeta. rewrite E1, E2. reflexivity. Qed.
Context (RC : rng_contract r).
Lemma mbh_ok fuel (s : G * pop P) p n (Ei : exn -> Prop) f : pop_of p n (snd s) -> 0 < n -> ranked srt (snd s) -> best_fitness srt (snd s) f -> p_nobj p = 1 -> u_set_seed (p_udp p) = false -> fitness_defined p ->
  Forall is_double (p_lb p) -> Forall is_double (p_ub p) -> mbh_construct_vector m_perturb = Ok tt -> length m_perturb = 1 \/ length m_perturb = get_nx p -> 0 < m_stop -> keeps srt p n Ei inner ->
  ends_w (exists k f', improves p f k f' /\ fuel < (k + 1) * m_stop) (mbh_evolve r srt inner m_stop m_perturb fuel) s
    (fun _ s' => pop_of p n (snd s') /\ exists k f', improves p f k f' /\ best_fitness srt (snd s') f' /\ (k = 0 -> po_x (snd s') = po_x (snd s) /\ po_f (snd s') = po_f (snd s)))
    (fun e => fails p e \/ Ei e).
Proof.
  intros PS N0 RK BF NO NS FD DL DU CV LP S0 KI. pose proof PS as (V & EP & LI & BX). pose proof V as (PO & (_ & _ & _ & Ff & _) & _). rewrite EP in *. destruct (prob_obj_facts p PO) as (NX & _).
  apply mbh_vector_ok in CV. unfold mbh_evolve. apply ends_bind, ends_getp. cbv zeta. rewrite EP, NO, NS. cbn [Nat.eqb negb]. destruct (Nat.eqb_spec m_stop 0); [lia|].
  assert (LL : length (mbh_perturb m_perturb (get_nx p)) = get_nx p /\ Forall (fun v => dlt dzero v = true /\ dle v done = true) (mbh_perturb m_perturb (get_nx p))).
  { unfold mbh_perturb. destruct m_perturb as [|c [|d m]]; cbn [length] in LP; try (split; [cbn [length] in *; lia|exact CV]). cbn [length]. rewrite repeat_length. split; [lia|]. inversion CV; subst. constructor; [assumption|]. apply Forall_forall. intros v Hv. apply repeat_spec in Hv. now subst. }
  destruct LL as [LL FL]. rewrite LL, Nat.eqb_refl. cbn [negb]. rewrite LI.
  assert (LF : length f = get_nf p) by (destruct BF as (b & _ & Nb); apply Ff; eapply nth_error_In; eauto).
  eapply ends_weak; [apply (mbh_loop_ok r RC srt inner m_stop p PO NO FD DL DU _ LL FL n N0 Ei KI s f LF fuel fuel 0 0 f s)| |auto].
  - split; [exact PS|]. split; [exact RK|]. split; [apply best_f_iff; exact BF|]. split; [constructor|auto].
  - lia.
  - intros ? s' (fo & k & PS' & RK' & BF' & IM & K0). split; [exact PS'|]. exists k, fo. split; [exact IM|]. split; [apply best_f_iff; exact BF'|exact K0].
Qed.
End M.

(** ** An inner algorithm *)
Lemma compass_keeps : keeps (P := list Z) (@isort) alg_problem 5 (fun _ => False) (cs_evolve stream_rng (@isort) PBest PBest 20 (Fin 2) (Fin 1) (Fin 1) 21).
Proof.
  intros s (V & EP & LI & BX). assert (RK : forall t : pop (list Z), po_prob t = alg_problem -> ranked (@isort) t) by (intros t E; unfold ranked; rewrite E; intros X; cbn in X; lia).
  pose proof (cs_boxed stream_rng stream_contract (@isort) PBest PBest 20 (Fin 2) (Fin 1) (Fin 1) 21 s alg_problem EP V eq_refl eq_refl alg_problem_defined) as H1.
  assert (NE : po_id (snd s) <> []) by (intros X; rewrite X in LI; discriminate). destruct alg_doubles as [D1 D2].
  pose proof (cs_any stream_rng stream_contract (@isort) PBest PBest 20 (Fin 2) (Fin 1) (Fin 1) 21 s alg_problem EP V eq_refl eq_refl alg_problem_defined NE (RK _ EP) cs_small ltac:(lia) ltac:(cbn; lia) ltac:(lia)) as H2.
  specialize (H1 NE (RK _ EP) cs_small ltac:(lia) ltac:(cbn; lia) ltac:(lia) eq_refl alg_finite D1 D2 BX).
  unfold ends_w in *. destruct (cs_evolve _ _ _ _ _ _ _ _ _ s) as [[u|e| |] s']; try contradiction.
  - destruct H1 as (B & _). destruct H2 as (V' & i & j & x & f & x' & f' & n & _ & _ & _ & _ & _ & (O1 & O2 & _) & _). split; [|apply RK; congruence]. split; [exact V'|]. split; [congruence|]. split; [congruence|exact B].
  - destruct H1 as [H|[_ [(k & X & _)|(k & X & _)]]]; try discriminate. exact (alg_problem_no_fail e (or_introl H)).
Qed.
Lemma mbh_example : pop_of alg_problem 5 alg_pop /\ ranked (@isort) alg_pop /\ best_fitness (@isort) alg_pop [Fin 4] /\ mbh_construct_vector [Fin 1] = Ok tt.
Proof.
  split; [split; [exact alg_pop_valid|]; split; [reflexivity|]; split; [reflexivity|exact alg_pop_in_box]|]. split; [apply alg_ranked|]. split; [exists 1; split; [vm_compute; reflexivity|reflexivity]|].
  apply mbh_vector_ok. constructor; [|constructor]. rewrite done_fin. split; reflexivity.
Qed.
