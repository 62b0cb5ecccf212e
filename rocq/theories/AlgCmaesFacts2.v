From Coq Require Import List Bool Arith ZArith Lia Permutation.
From Verif Require Import Dbl DblFacts IntDbl Outcome StdSort BaseFacts Compare CompareFacts Problem SpecProblem ProblemFacts2 Rng SpecGeneric SpecGenetic Generic GeneticOps GeneticFacts RmFacts Population SpecPopulation PopulationFacts PopulationFacts3
  Algo SpecAlgo SpecNsga2 AlgNsga2 AlgoFacts AlgoFacts2 AlgGaco AlgGacoFacts AlgGacoFacts2 AlgGacoFacts3 AlgGacoFacts4 AlgEigen AlgEigenFacts AlgMem AlgMemFacts AlgCmaes SpecCmaes AlgCmaesFacts AlgCmaesFacts1.
Import ListNotations.

(** The problem of a population is given a new seed *)
Definition reprob {P} (s : pop P) (q : problem) : pop P :=
  {| po_prob := q; po_fevals := po_fevals s; po_id := po_id s; po_x := po_x s; po_f := po_f s; po_cx := po_cx s; po_cf := po_cf s; po_rng := po_rng s |}.
Lemma reprob_valid {P} (s : pop P) q : valid_pop s -> prob_obj q -> get_nx q = get_nx (po_prob s) -> get_nf q = get_nf (po_prob s) -> valid_pop (reprob s q).
Proof.
  intros (_ & (T1 & T2 & T3 & T4 & T5) & CS) PO NX NF. split; [exact PO|]. split.
  - split; [exact T1|]. split; [exact T2|]. cbn [reprob po_prob po_x po_f po_id]. split; [rewrite NX; exact T3|]. split; [rewrite NF; exact T4|exact T5].
  - unfold champion_shape in *. cbn [reprob po_prob po_cx po_cf]. rewrite NX, NF. exact CS.
Qed.
Lemma seeds_for_app p ks ks' : seeds_for p ks -> seeds_for p ks' -> seeds_for p (ks ++ ks').
Proof. intros A B H. rewrite A, B; auto. Qed.

(** One generation: the problem may have got a seed, every individual is a new point *)
Definition es_step {P} (reseed : problem -> Z -> problem) (p0 : problem) (Box : list dbl -> Prop) (s t : pop P) : Prop :=
  valid_pop t /\ po_id t = po_id s /\ evals (length (po_id s)) s t /\
  (exists ks, seeds_for p0 ks /\ po_prob t = fold_left reseed ks (po_prob s) /\ length ks = (if u_set_seed (p_udp p0) then 1 else 0)) /\
  (forall i x f, nth_error (po_x t) i = Some x -> nth_error (po_f t) i = Some f -> evaluated (po_prob t) x f /\ Box x).
(** Generations one after the other *)
Section Loop.
Context {G P M : Type} (reseed : problem -> Z -> problem) (p0 : problem) (Box : list dbl -> Prop).
Notation ST := ((G * M) * pop P)%type.
Lemma es_run_step n (s t u : pop P) : po_prob s = p0 -> es_run reseed Box n s t -> es_step reseed p0 Box t u -> es_run reseed Box (n + 1) s u.
Proof.
  intros EP (A1 & A2 & A3 & A4 & (ks & A5 & A6) & A7) (B1 & B2 & B3 & (ks' & _ & B5 & B6) & B7). split; [exact B1|]. split; [congruence|].
  split; [replace ((n + 1) * length (po_id s)) with (n * length (po_id s) + length (po_id s)) by lia; eapply evals_trans; [exact A3|rewrite <- A2; exact B3]|].
  split; [intros; lia|]. split; [|intros _; exact B7].
  exists (ks ++ ks'). rewrite fold_left_app, <- A5. split; [exact B5|]. rewrite app_length, A6, B6, EP. destruct (u_set_seed (p_udp p0)); lia.
Qed.
Lemma es_run_0 (s : pop P) : valid_pop s -> es_run reseed Box 0 s s.
Proof.
  intros V. split; [exact V|]. split; [reflexivity|]. split; [apply evals_0|]. split; [reflexivity|]. split; [exists []; split; [reflexivity|]; match goal with |- context [u_set_seed ?x] => destruct (u_set_seed x) end; reflexivity|intros; lia].
Qed.
End Loop.

Section S.
Context {G P : Type} (r : rng G) (RC : rng_contract r) (srt : sorter) (SC : sort_contract srt) (K : eigen) (KC : eigen_contract K) (reseed : problem -> Z -> problem) (a : cmaes_params).
Notation ST := ((G * cmem) * pop P)%type.

Section Problem.
Context (p0 : problem) (bfe : option (problem -> list dbl -> outcome (list dbl))) (EP : es_problem reseed bfe p0).
Lemma es_at ks : seeds_for p0 ks -> let q := fold_left reseed ks p0 in
  fine q /\ p_lb q = p_lb p0 /\ p_ub q = p_ub p0 /\ get_nx q = get_nx p0 /\ u_set_seed (p_udp q) = u_set_seed (p_udp p0) /\ evaluates bfe q.
Proof. intros H q. destruct (EP ks H) as (A1 & A2 & A3 & A4 & A5 & A6 & A7). fold q in A1, A2, A3, A4, A5, A6, A7. unfold fine. assert (get_nx q = get_nx p0) by (unfold get_nx; now rewrite A2). tauto. Qed.

Lemma sized_newpop dim k l : cmem_sized dim k -> (forall v, In v l -> length v = dim) -> cmem_sized dim (set_newpop k l).
Proof. intros (R0 & R) H. split; [exact H|exact R]. Qed.
Lemma cm_generation_ok c (s : ST) ks : seeds_for p0 ks -> po_prob (snd s) = fold_left reseed ks p0 -> valid_pop (snd s) -> 5 <= length (po_id (snd s)) -> length (ra_w c) = length (po_id (snd s)) / 2 ->
  cmem_sized (get_nx p0) (snd (fst s)) ->
  ends (cm_generation r srt K reseed a bfe c) s (fun (go : bool) t => cmem_sized (get_nx p0) (snd (fst t)) /\
    if go then es_step reseed p0 (forced (cm_force a) p0) (snd s) (snd t) /\ cm_learns K (cm_force a) p0 (ra_w c) (snd (fst s)) (snd t) (snd (fst t)) else snd t = snd s /\ (flat_f srt (cm_ftol a) (snd s) \/ short_step K (cm_xtol a) (get_nx p0) (snd (fst t)))) (es_throws reseed p0).
Proof.
  intros SF PE V HN HW R. destruct (es_at ks SF) as (F & QL & QU & QX & QS & _). rewrite <- PE in F, QL, QU, QX, QS. unfold cm_generation.
  apply ends_bind, ends_getp, ends_bind, ends_getm. set (k := snd (fst s)) in *. set (p := po_prob (snd s)) in *. set (lam := length (po_id (snd s))) in *.
  apply ends_bind. eapply ends_mdraws.
  { eapply always_weak; [apply (always_map _ (fun _ q => sampled K (get_nx p) k q) never); intros i _; apply cm_sample_ok; rewrite QX; exact R|intros l H; exact H|intros e []]. }
  intros l g Fl. cbv beta. pose proof (F2_len _ _ _ Fl) as Ll. rewrite seq_length in Ll.
  assert (Hl : forall q, In q l -> sampled K (get_nx p) k q) by (intros q Hq; apply In_nth_error in Hq; destruct Hq as (i & Hi); destruct (F2_nth _ _ _ Fl i q Hi) as (x & _ & H); exact H).
  assert (Hv : forall v, In v (map fst l) -> length v = get_nx p) by (intros v Hv; apply in_map_iff in Hv; destruct Hv as (q & <- & Hq); apply (Hl q Hq)).
  assert (R1 : cmem_sized (get_nx p0) (set_newpop k (map fst l))) by (apply sized_newpop; [exact R|rewrite <- QX; exact Hv]).
  apply ends_bind, ends_setm. cbn [fst snd]. apply ends_bind. eapply ends_okp; [apply (okp_vget l (lam - 1) (fun q => sampled K (get_nx p) k q)); [lia|intros q Hq; apply Hl; eapply nth_error_In; exact Hq]|].
  intros [x st] (_ & z & bd & Lz & E1 & E2 & E3). cbv beta. cbn [snd fst] in *. destruct (dlt (vnorm K st) (cm_xtol a)) eqn:EX.
  { apply ends_ret. split; [exact R1|]. split; [reflexivity|]. right. cbn [fst snd]. rewrite <- QX. exists z, bd, st. split; [exact Lz|]. split; [exact E1|]. split; [exact E2|]. exact EX. }
  apply ends_bind. eapply ends_okp; [apply (spread_ok srt (snd s) V F); lia|]. intros d Hd. cbv beta. destruct (dlt d (cm_ftol a)) eqn:EF.
  { apply ends_ret. split; [exact R1|]. split; [reflexivity|]. left. apply Hd. exact EF. }
  apply ends_bind. eapply ends_weak with (E := fun _ => False) (Q := fun new t => t = ((g, set_newpop k (map fst l)), snd s) /\ length new = lam /\ (forall v, In v new -> length v = get_nx p0 /\ forced (cm_force a) p0 v) /\ Forall2 (made_of (cm_force a) p0) (map fst l) new).
  { destruct (cm_force a) eqn:EFo.
    - eapply ends_okp; [apply okp_and; [apply (force_all_ok p (map fst l)); [exact (proj1 F)|exact Hv]|apply (force_all_made p (map fst l)); [exact (proj1 F)|exact Hv]]|]. intros new ((N1 & N2) & N3). split; [reflexivity|]. split; [rewrite map_length in N1; vlia|]. split; [|eapply F2_impl; [|exact N3]; unfold made_of; rewrite <- QL, <- QU; auto]. intros v Hvn. destruct (N2 v Hvn) as [M1 M2]. split; [rewrite <- QX; exact M1|].
      intros _. rewrite <- QL, <- QU. exact M2.
    - apply ends_ret. split; [reflexivity|]. split; [rewrite map_length; lia|]. split; [|apply made_same]. intros v Hvn. split; [rewrite <- QX; exact (Hv v Hvn)|]. intros D. discriminate D. }
  2:{ intros e []. }
  intros new t (-> & N1 & N2 & N3). apply ends_bind, ends_setm. cbn [fst snd].
  assert (R2 : cmem_sized (get_nx p0) (set_newpop k new)) by (apply sized_newpop; [exact R|intros v Hvn; exact (proj1 (N2 v Hvn))]).
  apply ends_bind. eapply ends_weak with (E := fun _ => False) (Q := fun _ t => snd (fst t) = set_newpop k new /\ exists ks', seeds_for p0 ks' /\ length ks' = (if u_set_seed (p_udp p0) then 1 else 0) /\ snd t = reprob (snd s) (fold_left reseed ks' p)).
  { rewrite QS. destruct (u_set_seed (p_udp p0)) eqn:ES.
    - apply ends_bind. eapply ends_mdraws; [apply (draw_int_ok r RC 0 (2 ^ 32 - 1)); lia|]. intros sd g' _. cbv beta. unfold mset_problem, ends_w. cbn [fst snd]. split; [reflexivity|]. exists [sd]. split; [intros D; congruence|]. split; reflexivity.
    - apply ends_ret. split; [reflexivity|]. exists []. split; [intros _; reflexivity|]. split; [reflexivity|]. unfold reprob, p. cbn [fold_left snd]. destruct (snd s); reflexivity. }
  2:{ intros e []. }
  intros [] t (Kt & ks' & S1 & S2 & St). cbv beta.
  assert (SF' : seeds_for p0 (ks ++ ks')) by (apply seeds_for_app; [exact SF|exact S1]). set (q := fold_left reseed ks' p) in *.
  assert (Eq : q = fold_left reseed (ks ++ ks') p0) by (unfold q; rewrite fold_left_app, <- PE; reflexivity).
  destruct (es_at (ks ++ ks') SF') as (F' & QL' & QU' & QX' & QS' & EV'). rewrite <- Eq in F', QL', QU', QX', QS', EV'.
  assert (Vt : valid_pop (snd t)) by (rewrite St; apply reprob_valid; [exact V|exact (proj1 F')|fold p; congruence|fold p; destruct F as (_ & _ & F3); destruct F' as (_ & _ & F3'); congruence]).
  assert (Pt : po_prob (snd t) = q) by (rewrite St; reflexivity). assert (It : po_id (snd t) = po_id (snd s)) by (rewrite St; reflexivity).
  apply ends_bind. eapply ends_weak; [apply (set_all_ok q (proj1 F') bfe EV' new t Vt Pt); [rewrite It; exact N1|intros v Hvn; rewrite QX'; exact (proj1 (N2 v Hvn))]| |intros e He; exists (ks ++ ks'); split; [exact SF'|rewrite <- Eq; exact He]].
  intros [] u (Fu & (Vu & Pu & Iu & Xu) & Eu). apply ends_bind, ends_getp. cbv beta zeta.
  assert (Lu : length (po_id (snd u)) = lam) by (rewrite Iu, It; reflexivity).
  apply ends_bind. eapply ends_okp.
  { replace (get_nx p) with (get_nx (po_prob (snd u))) by (rewrite Pu; congruence). apply okp_and; [|rewrite <- Lu; apply (cm_elite_best srt SC (snd u) Vu); rewrite Pu; exact F']. apply (cm_elite_ok srt SC (snd u) (lam / 2) Vu); [rewrite Pu; exact F'|]. rewrite Lu. pose proof (Nat.div_le_upper_bound lam 2 lam ltac:(lia) ltac:(lia)). lia. }
  intros el ((E4 & E5) & E6). cbv beta. rewrite Pu, QX' in E5. apply ends_bind.
  assert (Lh : 0 < lam / 2) by (apply Nat.div_str_pos; lia).
  rewrite QX. eapply ends_okp; [apply okp_and; [apply (cm_adapt_ok K KC c (get_nx p0) lam (set_newpop k new) el R2); [vlia|vlia|exact E5]|]|].
  { destruct (cm_adapt_ok K KC c (get_nx p0) lam (set_newpop k new) el R2) as (k' & EK & _); [vlia|vlia|exact E5|]. exists k'. split; [exact EK|].
    exact (cm_adapt_mean K c (get_nx p0) lam (set_newpop k new) el ltac:(vlia) ltac:(vlia) E5 k' EK). }
  intros k' (Rk' & Mk'). cbv beta in Mk'. cbv beta.
  apply ends_bind, ends_setm, ends_ret. cbn [fst snd]. split; [exact Rk'|]. destruct (stored_lens _ Vu) as (L1 & L2 & _).
  assert (XN : po_x (snd u) = new).
  { apply vec_ext. intros i. destruct (Nat.lt_ge_cases i lam) as [Hi|Hi].
    - rewrite (nth_some (po_x (snd u)) i []) by lia. symmetry. refine (proj1 (Xu i _ (nth i (po_f (snd u)) []) _ _ _)); [lia|apply nth_some; lia|apply nth_some; lia].
    - rewrite (proj2 (nth_error_None (po_x (snd u)) i)) by lia. rewrite (proj2 (nth_error_None new i)) by lia. reflexivity. }
  split; [|split; [exists (map fst l); rewrite XN; split; [exact N3|]; intros pt Hpt; apply in_map_iff in Hpt; destruct Hpt as ([y sty] & <- & Hq); destruct (Hl _ Hq) as (_ & z' & bd' & B1 & B2 & B3 & B4);
    rewrite <- QX; exists z', bd', sty; auto|exists el; split; [exact E6|exact Mk']]].
  split; [exact Vu|]. split; [congruence|].
  split; [unfold evals in *; rewrite N1 in Eu; rewrite Eu, St; reflexivity|]. split; [exists ks'; split; [exact S1|]; split; [rewrite Pu; reflexivity|exact S2]|].
  intros i y f Hy Hf. assert (Hi : i < length (po_x (snd u))) by (apply nth_error_Some; congruence).
  destruct (Xu i y f ltac:(lia) Hy Hf) as (X1 & X2). rewrite Pu. split; [exact X2|]. exact (proj2 (N2 _ (nth_error_In _ _ X1))).
Qed.

Lemma cm_gens_ok c (s0 : pop P) : po_prob s0 = p0 -> 5 <= length (po_id s0) -> length (ra_w c) = length (po_id s0) / 2 -> forall g n (s : ST),
  es_run reseed (forced (cm_force a) p0) n s0 (snd s) -> cmem_sized (get_nx p0) (snd (fst s)) ->
  ends (cm_gens r srt K reseed a bfe c g) s (fun _ t => cmem_sized (get_nx p0) (snd (fst t)) /\
    exists m, m <= g /\ es_run reseed (forced (cm_force a) p0) (n + m) s0 (snd t) /\ (m < g -> flat_f srt (cm_ftol a) (snd t) \/ short_step K (cm_xtol a) (get_nx p0) (snd (fst t)))) (es_throws reseed p0).
Proof.
  intros E0 HN HW. induction g as [|g IH]; intros n s ER R; cbn [cm_gens].
  - apply ends_ret. split; [exact R|]. exists 0. split; [lia|]. split; [rewrite Nat.add_0_r; exact ER|intros; lia].
  - pose proof ER as (A1 & A2 & _ & _ & (ks & A5 & A6) & _). rewrite E0 in A5, A6.
    assert (SF : seeds_for p0 ks) by (intros H; rewrite H in A6; destruct ks; [reflexivity|discriminate]).
    apply ends_bind. eapply ends_weak; [apply (cm_generation_ok c s ks SF A5 A1)| |intros e He; exact He]; [rewrite A2; exact HN|rewrite A2; exact HW|exact R|].
    intros [|] t (Rt & Ht); cbv beta.
    + eapply ends_weak; [apply (IH (n + 1) t); [eapply es_run_step; [exact E0|exact ER|exact (proj1 Ht)]|exact Rt]| |intros e He; exact He].
      intros [] u (Ru & m & M1 & M2 & M3). split; [exact Ru|]. exists (S m). split; [lia|]. split; [replace (n + S m) with (n + 1 + m) by lia; exact M2|]. intros H. apply M3. lia.
    + destruct Ht as (Et & Hs). apply ends_ret. split; [exact Rt|]. exists 0. split; [lia|]. rewrite Et, Nat.add_0_r. split; [exact ER|]. intros _. exact Hs.
Qed.
End Problem.

Lemma cmaes_evolve_ok bfe (s : ST) : cmaes_ready (snd (fst s)) -> es_suits 5 (snd s) -> es_problem reseed bfe (po_prob (snd s)) -> 0 < cm_gen a ->
  ends (cmaes_evolve r srt K reseed a bfe) s (fun _ t => cmaes_ready (snd (fst t)) /\
    exists n, n <= cm_gen a /\ es_run reseed (forced (cm_force a) (po_prob (snd s))) n (snd s) (snd t) /\
      (n < cm_gen a -> flat_f srt (cm_ftol a) (snd t) \/ short_step K (cm_xtol a) (get_nx (po_prob (snd s))) (snd (fst t)))) (es_throws reseed (po_prob (snd s))).
Proof.
  intros RK (V & NC & NF & HN & FB) EP HG. unfold cmaes_evolve. apply ends_bind, ends_getp. rewrite NC, NF. cbn [Nat.eqb negb].
  destruct (Nat.ltb_spec (length (po_id (snd s))) 5) as [Hlt|_]; [lia|].
  rewrite (proj2 (forallb_forall isfinite (p_lb (po_prob (snd s)))) (fun b Hb => FB b (or_introl Hb))), (proj2 (forallb_forall isfinite (p_ub (po_prob (snd s)))) (fun b Hb => FB b (or_intror Hb))). cbn [negb].
  destruct (Nat.eqb_spec (cm_gen a) 0) as [Hz|_]; [lia|]. apply ends_bind, ends_getm, ends_bind.
  eapply ends_okp; [apply (cm_start_ok srt K a (snd (fst s)) (snd s) RK V); [split; [exact (proj1 V)|auto]|lia]|]. intros k Hk. cbv beta. apply ends_bind, ends_setm.
  eapply ends_weak; [apply (cm_gens_ok (po_prob (snd s)) bfe EP _ (snd s) eq_refl HN (rates_len K a _ _) (cm_gen a) 0); [apply es_run_0; exact V|exact Hk]| |intros e He; exact He].
  intros [] t (Rt & m & M1 & M2 & M3). split; [eexists; exact Rt|]. exists m. auto.
Qed.
Lemma cmaes_rejects bfe (s : ST) : get_nc (po_prob (snd s)) <> 0 \/ get_nf (po_prob (snd s)) <> 1 \/ length (po_id (snd s)) < 5 \/ (exists b, (In b (p_lb (po_prob (snd s))) \/ In b (p_ub (po_prob (snd s)))) /\ isfinite b = false) ->
  cmaes_evolve r srt K reseed a bfe s = (Throw InvalidArgument, s).
Proof.
  intros H. unfold cmaes_evolve, rbind, getp. cbn [fst snd].
  destruct (Nat.eqb_spec (get_nc (po_prob (snd s))) 0) as [E1|E1]; cbn [negb]; [|reflexivity].
  destruct (Nat.eqb_spec (get_nf (po_prob (snd s))) 1) as [E2|E2]; cbn [negb]; [|reflexivity].
  destruct (Nat.ltb_spec (length (po_id (snd s))) 5) as [E3|E3]; [reflexivity|].
  destruct (forallb isfinite (p_lb (po_prob (snd s)))) eqn:E4; cbn [negb]; [|reflexivity]. destruct (forallb isfinite (p_ub (po_prob (snd s)))) eqn:E5; cbn [negb]; [|reflexivity].
  exfalso. rewrite forallb_forall in E4, E5. destruct H as [H|[H|[H|(b & [Hb|Hb] & Hf)]]]; try lia; [rewrite (E4 b Hb) in Hf|rewrite (E5 b Hb) in Hf]; discriminate.
Qed.
Lemma cmaes_zero bfe (s : ST) : es_suits 5 (snd s) -> cm_gen a = 0 -> cmaes_evolve r srt K reseed a bfe s = (Ok tt, s).
Proof.
  intros (V & NC & NF & HN & FB) HG. unfold cmaes_evolve, rbind, getp. cbn [fst snd]. rewrite NC, NF. cbn [Nat.eqb negb].
  destruct (Nat.ltb_spec (length (po_id (snd s))) 5) as [Hlt|_]; [lia|].
  rewrite (proj2 (forallb_forall isfinite (p_lb (po_prob (snd s)))) (fun b Hb => FB b (or_introl Hb))), (proj2 (forallb_forall isfinite (p_ub (po_prob (snd s)))) (fun b Hb => FB b (or_intror Hb))). cbn [negb].
  rewrite HG. reflexivity.
Qed.
(** Without memory, or for a population of another size, what was kept does not matter *)
Lemma cmaes_forgets bfe g (k : cmem) (s : pop P) k0 : cmaes_ctor a = Ok k0 -> es_suits 5 s -> 0 < cm_gen a -> cm_memory a = false \/ length (ce_newpop k) <> length (po_id s) ->
  cmaes_evolve r srt K reseed a bfe ((g, k), s) = cmaes_evolve r srt K reseed a bfe ((g, k0), s).
Proof.
  intros CT (V & NC & NF & HN & FB) HG HM.
  assert (S1 : cm_start srt K a k s = cm_reset srt K a s).
  { unfold cm_start. destruct (Nat.eqb_spec (length (ce_newpop k)) (length (po_id s))) as [E|E]; [|reflexivity]. cbn [negb]. destruct HM as [HM|HM]; [|contradiction]. rewrite HM.
    unfold vget. destruct (ce_newpop k) as [|v l]; [cbn in E; lia|]. cbn [nth_error bind]. now rewrite orb_true_r. }
  assert (S0 : cm_start srt K a k0 s = cm_reset srt K a s).
  { assert (N0 : ce_newpop k0 = []) by (unfold cmaes_ctor in CT; repeat (destruct (bad_rate _); [discriminate|]); injection CT as <-; reflexivity).
    unfold cm_start. rewrite N0. cbn [length]. destruct (length (po_id s)); [lia|reflexivity]. }
  unfold cmaes_evolve, rbind, getp, getm, rlift. cbn [fst snd]. rewrite NC, NF. cbn [Nat.eqb negb].
  destruct (Nat.ltb_spec (length (po_id s)) 5) as [Hlt|_]; [lia|].
  rewrite (proj2 (forallb_forall isfinite (p_lb (po_prob s))) (fun b Hb => FB b (or_introl Hb))), (proj2 (forallb_forall isfinite (p_ub (po_prob s))) (fun b Hb => FB b (or_intror Hb))). cbn [negb].
  destruct (Nat.eqb_spec (cm_gen a) 0) as [Hz|_]; [lia|]. cbv beta iota zeta. cbn [fst snd]. rewrite S0, S1. destruct (cm_reset srt K a s) eqn:ER; try reflexivity; exfalso.
  all: pose proof (cm_reset_ok srt K a s V (conj (proj1 V) (conj NC NF)) ltac:(lia)) as OK; rewrite ER in OK; destruct OK as (? & D & _); discriminate D.
Qed.
End S.
