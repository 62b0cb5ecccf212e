From Coq Require Import List Bool Arith ZArith Lia Permutation.
From Verif Require Import AlgDeFacts Dbl DblFacts IntDbl Outcome BaseFacts Compare SpecOrder CompareFacts StdSort Problem SpecProblem ProblemFacts Rng Generic SpecGeneric GenericFacts GenericFacts2 GenericFacts3 GenericFacts4 SpecGenetic RmFacts
  GeneticOps GeneticFacts GeneticFacts2 Constrained SpecConstrained ConstrainedFacts ConstrainedFacts2 MultiObj SpecMultiObj CrowdFacts Population SpecPopulation PopulationFacts Algo SpecAlgo AlgoFacts AlgoFacts2 NotPop SpecLocal AlgCompassFacts AlgSaFacts AlgSaFacts2 AlgBeeFacts AlgGwoFacts SpecHarmony AlgIhs AlgIhsFacts AlgExamples.
Import ListNotations.

Section S.
Context {G P : Type} (srt : sorter) (SC : sort_contract srt) (r : rng G) (RC : rng_contract r) (lg ex : dbl -> dbl) (fuel : nat) (ph pmin pmax bmin bmax : dbl).
Lemma ihs_zero (s : G * pop P) : ihs_evolve srt r lg ex fuel 0 ph pmin pmax bmin bmax s = (Ok tt, s).
Proof. reflexivity. Qed.
Lemma ihs_rejects gens (s : G * pop P) : gens <> 0 -> po_id (snd s) = [] \/ (get_nc (po_prob (snd s)) <> 0 /\ 1 < p_nobj (po_prob (snd s))) \/ u_set_seed (p_udp (po_prob (snd s))) = true ->
  ihs_evolve srt r lg ex fuel gens ph pmin pmax bmin bmax s = (Throw InvalidArgument, s).
Proof.
  intros N H. unfold ihs_evolve. destruct (Nat.eqb_spec gens 0); [contradiction|]. unfold rbind, getp, rlift, rret. cbv beta zeta iota.
  destruct (Nat.eqb_spec (length (po_id (snd s))) 0) as [E0|E0]; [reflexivity|].
  destruct (Nat.eqb_spec (get_nc (po_prob (snd s))) 0) as [E1|E1]; cbn [negb andb].
  - destruct (u_set_seed (p_udp (po_prob (snd s)))); [reflexivity|]. destruct H as [H|[[H _]|H]]; [rewrite H in E0; contradiction|contradiction|discriminate].
  - destruct (Nat.ltb_spec 1 (p_nobj (po_prob (snd s)))) as [E2|E2]; [reflexivity|]. destruct (u_set_seed (p_udp (po_prob (snd s)))); [reflexivity|]. destruct H as [H|[[_ H]|H]]; [rewrite H in E0; contradiction|lia|discriminate].
Qed.

(** A NaN at the first position is taken for the worst and kept *)
Lemma max_nan : forall l i, Forall (fun f : list dbl => length f = 1) l -> max_elt_from vec_lt [NaN] 0 i l = 0.
Proof.
  induction l as [|f l IH]; intros i F; [reflexivity|]. inversion F as [|? ? L1 F']; subst. destruct f as [|a [|b f]]; try discriminate. cbn [max_elt_from vec_lt].
  destruct a; cbn [dlt]; apply IH; exact F'.
Qed.
Lemma ihs_nan gens (s : G * pop P) p : po_prob (snd s) = p -> valid_pop (snd s) -> p_nobj p = 1 -> get_nc p = 0 -> u_set_seed (p_udp p) = false -> fitness_defined p ->
  (exists rest, po_f (snd s) = [NaN] :: rest) ->
  ends_if_fuel (ihs_evolve srt r lg ex fuel gens ph pmin pmax bmin bmax) s (fun _ s' => po_id (snd s') = po_id (snd s) /\ po_x (snd s') = po_x (snd s) /\ po_f (snd s') = po_f (snd s)) (ihs_fails p).
Proof.
  intros EP V NO NC NS FD (rest & EF). pose proof V as (PO & (S1 & S2 & Fx & Ff & _) & _). rewrite EP in PO, Fx, Ff. destruct (prob_obj_facts p PO) as (_ & _ & _ & NFE).
  assert (NE : po_id (snd s) <> []) by (intros E0; rewrite E0, S2, EF in S1; discriminate).
  unfold ihs_evolve. destruct (Nat.eqb_spec gens 0) as [Z0|NZ]; [apply ends_ret; auto|].
  apply ends_bind, ends_getp. cbv zeta. rewrite EP, NO, NS, NC. destruct (Nat.eqb_spec (length (po_id (snd s))) 0) as [E0|E0]; [apply length_zero_iff_nil in E0; contradiction|].
  apply ends_bind, ends_ret. cbn [Nat.eqb negb andb]. apply ends_bind, ends_ret. apply ends_bind, ends_ret.
  eapply ends_weak with (Q := fun _ s' => valid_pop (snd s') /\ po_prob (snd s') = p /\ po_id (snd s') = po_id (snd s) /\ po_x (snd s') = po_x (snd s) /\ po_f (snd s') = po_f (snd s)) (E := ihs_fails p); [|intros ? ? (_ & _ & H); exact H|auto].
  apply ends_fold with (I := fun (_ : unit) s' => valid_pop (snd s') /\ po_prob (snd s') = p /\ po_id (snd s') = po_id (snd s) /\ po_x (snd s') = po_x (snd s) /\ po_f (snd s') = po_f (snd s)); [auto|].
  intros gen [] s1 _ (V1 & EP1 & EI1 & EX1 & EF1). unfold ihs_generation. apply ends_bind, ends_getp. cbv zeta. rewrite EP1.
  apply (ihs_new r RC lg ex p PO FD); [exact V1|exact EP1|now rewrite EI1|]. intros x f g PT _. rewrite NO. cbn [Nat.eqb].
  unfold ihs_insert_single. apply ends_bind, ends_getp. cbn [snd]. set (s2 := with_fevals (snd s1) (wrap64 (po_fevals (snd s1) + 1))).
  assert (W : worst_idx srt s2 = Ok 0).
  { unfold worst_idx, worst_idx_tol, s2. cbn [with_fevals po_id po_prob po_f]. rewrite EP1, NO, NC, EI1, EF1, EF. destruct (Nat.eqb_spec (length (po_id (snd s))) 0); [contradiction|]. cbn [Nat.ltb Nat.leb max_element].
    rewrite max_nan; [reflexivity|]. apply Forall_forall. intros f' Hf'. rewrite (Ff f') by (rewrite EF; right; exact Hf'). lia. }
  apply ends_bind. eapply ends_lift_ok; [exact W|]. change (po_f s2) with (po_f (snd s1)). change (po_prob s2) with (po_prob (snd s1)). rewrite EF1, EF, EP1, NC. cbn [vget nth_error Nat.eqb].
  apply ends_bind. eapply ends_lift_ok; [reflexivity|]. apply ends_bind. eapply ends_lift_ok; [reflexivity|]. apply ends_bind. eapply ends_lift_ok; [apply obj_vget; destruct PT as ((_ & Lf & _) & _); lia|].
  replace (dge NaN (obj f)) with false by (destruct (obj f); reflexivity). apply ends_ret. cbn [snd]. split; [now apply valid_fevals|]. repeat (split; [assumption|]). rewrite <- EF. exact EF1.
Qed.

End S.

(** ** The integer pitch is added to the doubled value *)
Lemma ihs_pitch_refuted : exists (l u v bw : dbl) (ph pp : dbl) (X : list (list dbl)) g w g',
  dtrunc (dadd done (dmul bw (dsub u l))) = done /\ X = [[v]] /\ SpecGeneric.within l u v /\ integral v /\ ihs_int stream_rng ph pp bw X l u 0 g = (Ok w, g') /\
  SpecGeneric.within l u w /\ dlt (dadd v done) w = true.
Proof.
  assert (AD : forall a b, (Z.abs (a + b) < 2 ^ 53)%Z -> dadd (dint a) (dint b) = dint (a + b)).
  { intros a b H. unfold dint. cbn [dadd]. rewrite <- Z.mul_add_distr_r. apply (d_of_Z_int (a + b) H). }
  assert (SB : forall a b, (Z.abs (a - b) < 2 ^ 53)%Z -> dsub (dint a) (dint b) = dint (a - b)).
  { intros a b H. unfold dsub. replace (dneg (dint b)) with (dint (- b)) by (unfold dint; cbn [dneg]; now rewrite Z.mul_opp_l). apply (AD a (- b)%Z). exact H. }
  assert (D1 : done = dint 1) by (rewrite done_fin; unfold dint; f_equal; now rewrite Z.mul_1_l).
  assert (CMP : forall a b, dle (dint a) (dint b) = (a <=? b)%Z /\ dlt (dint a) (dint b) = (a <? b)%Z).
  { intros a b. unfold dint. split; apply Bool.eq_iff_eq_true; [rewrite dle_fin, Z.leb_le|rewrite dlt_fin, Z.ltb_lt]; symmetry; [apply Z.mul_le_mono_pos_r|apply Z.mul_lt_mono_pos_r]; exact one_z_pos. }
  assert (TR : forall a, dtrunc (dint a) = dint a).
  { intros a. unfold dint. cbn [dtrunc]. rewrite Z.quot_mul by apply one_z_nz. reflexivity. }
  assert (LL : forall a, (-10 <= a <= 10)%Z -> to_long_long (dint a) = Ok a).
  { intros a Ha. unfold dint, to_long_long, Z_of_d. rewrite Z.quot_mul by apply one_z_nz. destruct (Z.leb_spec (- 2 ^ 63) a); [|lia]. destruct (Z.ltb_spec a (2 ^ 63)); [reflexivity|lia]. }
  assert (B0 : dmul (dint 0) (dsub (dint 10) (dint 0)) = dint 0).
  { rewrite SB by (vm_compute; reflexivity). reflexivity. }
  assert (PI : dtrunc (dadd done (dmul (dint 0) (dsub (dint 10) (dint 0)))) = done).
  { rewrite B0, D1. rewrite AD by (vm_compute; reflexivity). apply TR. }
  exists (dint 0), (dint 10), (dint 3), (dint 0), done, done, [[dint 3]], [0; 0; 0; 4]%Z, (dint 7), [].
  split; [exact PI|]. split; [reflexivity|]. split; [unfold SpecGeneric.within; split; apply CMP|]. split; [exists 3%Z; reflexivity|].
  split; [|split; [unfold SpecGeneric.within; split; apply CMP|]].
  - unfold ihs_int, rbind. assert (DR : forall k t, Z.even k = true -> draw01 stream_rng (k :: t) = (Ok dzero, t)).
    { intros k t E. unfold draw01, draw_real. replace (isfinite dzero && isfinite done && dle dzero done && isfinite (dsub done dzero)) with true by (vm_compute; reflexivity). unfold rdraw. cbn [stream_rng g_real]. now rewrite E. }
    assert (ME : forall v t, ihs_memory stream_rng [[v]] 0 (0%Z :: t) = (Ok v, t)) by reflexivity.
    assert (UI : forall t, uniform_integral_from_range stream_rng (dint (3 - 1)) (dint (3 + 1)) (4%Z :: t) = (Ok (dint 4), t)).
    { intros t. assert (NQ : forall a, dneq (dint a) (dint a) = false) by (intros a; unfold dneq, dint; cbn; now rewrite Z.eqb_refl).
      unfold uniform_integral_from_range, uniform_integral_impl, rbind, rlift, int_checks, throw_if, dgt. rewrite !TR, (proj2 (CMP _ _)), !NQ.
      change (isfinite (dint (3 - 1))) with true. change (isfinite (dint (3 + 1))) with true. cbn [negb orb andb bind].
      change (3 + 1 <? 3 - 1)%Z with false. cbn [bind]. rewrite !LL by lia. unfold draw_int. change (3 - 1 <=? 3 + 1)%Z with true. cbv iota. unfold rdraw. cbn [stream_rng g_int].
      rewrite d_of_Z_int; [reflexivity|vm_compute; reflexivity]. }
    assert (P1 : dlt dzero done = true) by (vm_compute; reflexivity).
    rewrite DR by reflexivity. rewrite P1, ME. rewrite DR by reflexivity. rewrite P1. cbv zeta. rewrite PI, D1. rewrite SB, AD by (vm_compute; reflexivity). rewrite UI. unfold rret.
    rewrite AD by (vm_compute; reflexivity). reflexivity.
  - rewrite D1. rewrite AD by (vm_compute; reflexivity). apply CMP.
Qed.

(** ** A selected individual is lost *)
Definition bi_problem (f : list dbl -> outcome (list dbl)) : problem :=
  {| p_udp := box_udp 2 0 0 f; p_lb := [Fin 0; Fin 0]; p_ub := [Fin 10; Fin 10]; p_nobj := 2; p_nec := 0; p_nic := 0; p_nix := 0; p_ctol := []; p_gs_dim := 4; p_hs_dim := [3; 3]%Z |}.
Lemma bi_problem_gen f : construct (box_udp 2 0 0 f) = Ok (bi_problem f).
Proof. vm_compute. reflexivity. Qed.
Definition bi_fit (x : list dbl) : outcome (list dbl) := Ok [Fin 3; Fin 3].
Definition bi_pop : pop (list Z) :=
  {| po_prob := bi_problem bi_fit; po_fevals := 2; po_id := [7; 8]%Z; po_x := [[Fin 0; Fin 1]; [Fin 2; Fin 2]]; po_f := [[Fin 2; Fin 2]; [Fin 1; Fin 1]]; po_cx := []; po_cf := []; po_rng := [] |}.
Lemma bi_pop_valid : valid_pop bi_pop.
Proof.
  split; [exact (obj_new _ _ (bi_problem_gen bi_fit))|]. split; [|left; split; reflexivity]. split; [reflexivity|]. split; [reflexivity|].
  split; [intros x [<-|[<-|[]]]; reflexivity|]. split; [intros x [<-|[<-|[]]]; reflexivity|]. intros i [<-|[<-|[]]]; lia.
Qed.
Lemma bi_defined : fitness_defined (bi_problem bi_fit).
Proof. intros x _. split; discriminate. Qed.
Lemma ihs_small : ihs_construct dzero dzero done (Fin 1) (Fin 1) = Ok tt.
Proof. apply ihs_construct_iff. repeat split; vm_compute; reflexivity. Qed.
Lemma ihs_lost_refuted : exists lg ex (s : list Z * pop (list Z)) s' A B C, valid_pop (snd s) /\ ihs_construct dzero dzero done (Fin 1) (Fin 1) = Ok tt /\
  ihs_evolve (@isort) stream_rng lg ex 1 1 dzero dzero done (Fin 1) (Fin 1) s = (Ok tt, s') /\
  (forall x, u_fitness (p_udp (po_prob (snd s))) x = Ok C) /\ po_f (snd s) = [A; B] /\ dominates A C /\ dominates B C /\
  select_best_N_mo (@isort) [A; B; C] 2 = Ok [1; 0] /\ A <> B /\ po_f (snd s') = [B; B].
Proof.
  set (m := ihs_evolve (@isort) stream_rng (fun x => x) (fun x => x) 1 1 dzero dzero done (Fin 1) (Fin 1) ([], bi_pop)).
  assert (E1 : fst m = Ok tt) by (vm_compute; reflexivity). assert (E2 : po_f (snd (snd m)) = [[Fin 1; Fin 1]; [Fin 1; Fin 1]]) by (vm_compute; reflexivity).
  exists (fun x => x), (fun x => x), ([], bi_pop), (snd m), [Fin 2; Fin 2], [Fin 1; Fin 1], [Fin 3; Fin 3].
  split; [exact bi_pop_valid|]. split; [exact ihs_small|]. split; [fold m; rewrite <- E1; apply surjective_pairing|]. split; [reflexivity|]. split; [reflexivity|].
  split; [|split; [|split; [vm_compute; reflexivity|split; [discriminate|exact E2]]]]; (split; [reflexivity|split; [intros [|[|i]] x y Hx Hy; cbn in Hx, Hy; try (destruct i; discriminate); injection Hx as <-; injection Hy as <-; unfold not_worse, better, num_lt; cbn; first [lia|discriminate|intros K; discriminate K]|]]); eexists 0, _, _; (split; [reflexivity|split; [reflexivity|cbn; lia]]).
Qed.

(** ** A constrained problem whose points are all feasible *)
Definition con_problem (f : list dbl -> outcome (list dbl)) : problem :=
  {| p_udp := box_udp 1 0 1 f; p_lb := [Fin 0; Fin 0]; p_ub := [Fin 10; Fin 10]; p_nobj := 1; p_nec := 0; p_nic := 1; p_nix := 0; p_ctol := [Fin 0]; p_gs_dim := 4; p_hs_dim := [3; 3]%Z |}.
Lemma con_problem_gen f : construct (box_udp 1 0 1 f) = Ok (con_problem f).
Proof. vm_compute. reflexivity. Qed.
Definition con_fit (x : list dbl) : outcome (list dbl) := match x with a :: _ => Ok [a; Fin 0] | _ => Throw (UserExn 1) end.
Definition con_pop : pop (list Z) :=
  {| po_prob := con_problem con_fit; po_fevals := 2; po_id := [7; 8]%Z; po_x := [[Fin 0; Fin 1]; [Fin 2; Fin 2]]; po_f := [[Fin 0; Fin 0]; [Fin 2; Fin 0]]; po_cx := [Fin 0; Fin 1]; po_cf := [Fin 0; Fin 0]; po_rng := [] |}.
Lemma con_pop_valid : valid_pop con_pop.
Proof.
  split; [exact (obj_new _ _ (con_problem_gen con_fit))|]. split; [|right; split; reflexivity]. split; [reflexivity|]. split; [reflexivity|].
  split; [intros x [<-|[<-|[]]]; reflexivity|]. split; [intros x [<-|[<-|[]]]; reflexivity|]. intros i [<-|[<-|[]]]; lia.
Qed.
Lemma con_rankable : rankable (con_problem con_fit) (po_f con_pop).
Proof.
  intros _ l H. assert (F : forall f, In f l -> exists a, f = [a; Fin 0]).
  { intros f Hf. destruct (H f Hf) as [[<-|[<-|[]]]|(x & _ & _ & E)]; [eauto|eauto|]. destruct x as [|a x]; [discriminate E|]. injection E as <-. eauto. }
  apply fc_lt_swo_norms.
  - intros f Hf. destruct (F f Hf) as (a & ->). split; cbn; lia.
  - repeat constructor.
  - intros f Hf N. exfalso. apply N. destruct (F f Hf) as (a & ->). intros i Hi. cbn in Hi. assert (i = 0) by lia. subst i. exists (Fin 0), (Fin 0). split; [reflexivity|]. split; [reflexivity|]. vm_compute. reflexivity.
Qed.
Lemma con_defined : fitness_defined (con_problem con_fit).
Proof. intros x _. destruct x; split; discriminate. Qed.
Lemma plain_rankable p fs : get_nc p = 0 -> rankable p fs.
Proof. intros E H. lia. Qed.
Lemma nan_first_valid : valid_pop {| po_prob := alg_problem; po_fevals := 2; po_id := [7; 8]%Z; po_x := [[Fin 0; Fin 0]; [Fin 2; Fin 2]]; po_f := [[NaN]; [Fin 4]]; po_cx := [Fin 0; Fin 0]; po_cf := [Fin 0]; po_rng := [] : list Z |}.
Proof.
  split; [exact alg_problem_obj|]. split; [|right; split; reflexivity]. split; [reflexivity|]. split; [reflexivity|].
  split; [intros x [<-|[<-|[]]]; reflexivity|]. split; [intros x [<-|[<-|[]]]; reflexivity|]. intros i [<-|[<-|[]]]; lia.
Qed.
