From Coq Require Import String List Bool Arith ZArith Lia Permutation.
From Verif Require Import Dbl DblFacts IntDbl Outcome BaseFacts StdSort SpecOrder MultiObj SpecMultiObj MultiObjFacts2 DecomposeFacts SpecDiscrepancy Weights WeightsFacts Problem SpecProblem Rng Generic SpecGeneric GenericFacts GenericFacts3
  SpecGenetic RmFacts GeneticOps GeneticFacts Population SpecPopulation PopulationFacts3 Algo SpecAlgo AlgoFacts AlgoFacts2 AlgSga SpecSga AlgSgaFacts4 AlgSgaFacts6 AlgNsga2 SpecNsga2 AlgNsga2Facts3 AlgNsga2Facts4 AlgNsga2Facts5 SpecCmaes AlgMoead SpecMoead AlgMoeadFacts AlgMoeadFacts2 AlgMoeadFacts3 AlgMoeadFacts4 AlgMoeadFacts5 AlgMoeadFacts6 AlgMoeadGen AlgMoeadGenFacts AlgMoeadGenFacts2.
Import ListNotations.

Lemma ends_at {S A} {W : Prop} (m : RM S A) s Q E v s' : ends_w W m s Q E -> m s = (Ok v, s') -> Q v s'.
Proof. unfold ends_w. intros H Em. rewrite Em in H. exact H. Qed.
Lemma same_fold {S T A} (f f' : T -> A -> RM S T) (J : T -> S -> Prop) l : (forall t x s, J t s -> same_run (f t x s) (f' t x s)) -> (forall t x s t' s', J t s -> f t x s = (Ok t', s') -> J t' s') ->
  forall t s, J t s -> same_run (rfold f t l s) (rfold f' t l s).
Proof.
  intros H K. induction l as [|x l IH]; intros t s Hs; [apply same_refl|]. cbn [rfold]. apply same_bind; [apply H, Hs|]. intros v s' E. apply IH. eapply K; eassumption.
Qed.

Section Same.
Context {G P : Type} (r : rng G) (RC : rng_contract r) (srt : sorter) (HS : sort_contract srt) (pw : dbl -> dbl -> dbl) (shuf : forall A, list A -> G -> list A * G) (SC : shuffle_contract shuf).
Context (binom : Z -> Z -> dbl) (BE : binomial_exact binom) (halton : nat -> nat -> list dbl) (HH : forall n i, length (halton n i) = n - 1 /\ Forall unit_dbl (halton n i)) (fuel : nat) (a : moead_params).
Context (ud : problem -> list dbl -> outcome (list dbl)).
Context (s : G * pop P) (p : problem) (EP : po_prob (snd s) = p) (V : valid_pop (snd s)) (MO : mo_problem p) (TF : total_fitness p) (FB : faithful_bfe ud p).
Context (HK : 2 <= me_neigh a <= length (po_id (snd s)) - 1) (DM : me_dec a <> OtherMethod) (HG : 0 < me_gen a).
Context (N49 : (Z.of_nat (length (po_id (snd s))) < 2 ^ 49)%Z) (N64 : (Z.of_nat (get_nf p) * Z.of_nat (length (po_id (snd s))) <= 2 ^ 64)%Z).
Context (DL : Forall is_double (p_lb p)) (DU : Forall is_double (p_ub p)).
Notation evolve bfe := (mgen_evolve (P := P) r srt pw shuf binom halton fuel a bfe).
Notation NP := (length (po_id (snd s))).
Notation Box := (fun x => length x = get_nx p).

Lemma mgen_same : same_run (evolve (Some ud) s) (evolve None s).
Proof.
  pose proof MO as (SS & NC & NF & EB). pose proof V as (PO & (L1 & L2 & Fx & Ff & _) & _). rewrite EP in PO.
  unfold mgen_evolve. apply same_bind; [apply same_refl|]. intros u s1 E. injection E as <- <-. cbv zeta. rewrite EP. apply some_equal_iff in EB. rewrite EB.
  destruct (Nat.eqb_spec NP 0); [lia|]. destruct (Nat.ltb_spec (get_nf p) 2); [lia|]. rewrite NC. cbn [Nat.eqb negb]. rewrite SS. destruct (Nat.ltb_spec (NP - 1) (me_neigh a)); [lia|]. destruct (Nat.eqb_spec (me_gen a) 0); [lia|].
  apply same_bind; [apply same_refl|]. intros ws s1 E1. unfold eng in E1. pose proof (weights_ok r RC srt HS binom BE halton HH fuel a True (fun _ => I) (get_nf p) NP (fst s) NF N49 N64) as WO.
  destruct (moead_weights r srt binom halton fuel a (get_nf p) NP (fst s)) as [ow g1] eqn:EW. injection E1 as -> <-. pose proof (ends_at _ _ _ _ _ _ WO EW) as [HNP HW]. pose proof HW as [LW HWw]. clear WO.
  destruct (knn_spec srt ws (me_neigh a) HS) as (neigh & EK & LN & HNr); [intros q q' Hq Hq'; rewrite (HWw q Hq), (HWw q' Hq'); reflexivity|].
  apply same_bind; [apply same_refl|]. intros ng s1 E1. unfold rlift in E1. rewrite EK in E1. injection E1 as <- <-.
  apply same_bind; [apply same_refl|]. intros z s1 E1. unfold rlift in E1.
  assert (UF : uniform (po_f (snd s)) (get_nf p)) by (rewrite EP in Ff; exact Ff).
  assert (NE : po_f (snd s) <> []). { intros K. rewrite K in L2. cbn in L2. lia. }
  destruct (ideal_ok (po_f (snd s)) (get_nf p) UF NE) as (z0 & EZ & LZ & HZ). rewrite EZ in E1. injection E1 as <- <-.
  assert (HN : forall n nb, nth_error neigh n = Some nb -> nb <> [] /\ forall i, In i nb -> i < NP).
  { intros i nb Hn. destruct (HNr i nb Hn) as (Lb & _ & Ib & _). split; [intros K; subst nb; cbn in Lb; lia|]. intros j Hj. destruct (Ib j Hj). lia. }
  rewrite LW in LN.
  assert (SEL : forall nb whole g, In nb neigh -> ends_w True (select_parents r fuel NP nb whole) g (fun ps _ => 2 <= length ps /\ forall i, In i ps -> i < NP) never).
  { intros nb whole g Hn. apply In_nth_error in Hn. destruct Hn as (i & Hn). destruct (HNr i nb Hn) as (Lb & Nb & _). rewrite LW, Nat.min_l in Lb by lia. apply (mgen_select r RC fuel a s p HK HG); [exact Lb|apply (HN i nb Hn)]. }
  assert (CH : forall X n p0 p1, (forall x, In x X -> Box x) -> n < length X -> p0 < length X -> p1 < length X -> always (moead_child r pw a p X n p0 p1) Box never) by (apply child_any; assumption).
  assert (EVS : evaluates (Some ud) p) by (split; assumption).
  assert (GO : forall st t, fit p NP Box 0 (snd t) (snd st) t -> Permutation (seq 0 NP) (fst st) -> ends_w True (mgen_generation r pw shuf fuel a (Some ud) ws neigh st) t
    (fun st' s' => Permutation (seq 0 NP) (fst st') /\ fit p NP Box (0 + NP) (snd t) (snd st') s' /\ moead_steps (me_dec a) (me_limit a) (me_div a) Box ws neigh (fst st') (snd st) (snd t) (snd st') (snd s')) (fitness_throws p))
   by (intros st t FT PM; apply (generation_ok (P := P) r RC pw shuf SC fuel a (Some ud) p EVS PO MO NP Box (fun _ H => H) CH ws HW neigh LN HN DM ltac:(lia) True SEL 0 (snd t) st t FT PM ltac:(lia))).
  apply same_bind; [|intros ? ? _; apply same_refl].
  apply (same_fold _ _ (fun st t => Permutation (seq 0 NP) (fst st) /\ valid_pop (snd t) /\ po_prob (snd t) = p /\ length (po_id (snd t)) = NP /\ (forall x, In x (po_x (snd t)) -> Box x) /\ length (snd st) = get_nf p)).
  - intros st _ t (PM & V1 & EP1 & EN1 & BX1 & Lz1). unfold mgen_generation. apply same_bind; [apply same_refl|]. intros po t1 E1. injection E1 as <- <-.
    apply same_bind; [apply same_refl|]. intros sh t1 E1. unfold eng, rdraw in E1. pose proof (SC nat (fst st) (fst t)) as P1. destruct (shuf nat (fst st) (fst t)) as [sh' g2] eqn:ES. injection E1 as -> <-. cbn [fst] in P1.
    assert (P2 : Permutation (seq 0 NP) sh) by (eapply perm_trans; eassumption).
    assert (HB : forall n, In n sh -> n < NP) by (intros n1 Hn; apply (Permutation_in _ (Permutation_sym P2)), in_seq in Hn; lia). pose proof (Permutation_length P2) as PL. rewrite seq_length in PL.
    pose proof V1 as (_ & (L11 & _) & _). rewrite EP1.
    apply same_bind; [apply same_refl|]. intros plan t1 E1. unfold eng in E1. cbn [fst snd] in E1. destruct (rmap (mgen_child r pw fuel a p (po_x (snd t)) neigh) sh g2) as [op g3] eqn:EPl. injection E1 as -> <-.
    assert (HP : Forall2 (fun n c => Box (fst c) /\ (snd c = true -> me_div a = true)) sh plan).
    { assert (X : ends_w True (rmap (mgen_child r pw fuel a p (po_x (snd t)) neigh) sh) g2 (fun bs _ => True /\ Forall2 (fun n c => Box (fst c) /\ (snd c = true -> me_div a = true)) sh bs) never).
      { apply (ends_rmap (W := True) _ (fun _ : G => True)); [|exact I]. intros n1 g' Hn _. eapply ends_weak; [apply (child_plan r RC pw fuel a p NP Box CH neigh LN ltac:(lia) True SEL (po_x (snd t)) n1 g' BX1 ltac:(lia) (HB n1 Hn))| |intros e []]. intros c g'' Hc. split; [exact I|exact Hc]. }
      exact (proj2 (ends_at _ _ _ _ _ _ X EPl)). }
    apply same_bind; [|intros ? ? _; apply same_refl]. unfold mgen_eval.
    destruct (total_all p (map fst plan) TF) as (F & EF).
    { intros x Hx. apply in_map_iff in Hx. destruct Hx as (c & <- & Hc). apply In_nth_error in Hc. destruct Hc as (i & Hi). destruct (nth_ex sh i) as (n1 & Nn); [rewrite (Forall2_len _ _ _ HP); apply nth_error_Some; congruence|]. exact (proj1 (Forall2_at _ _ _ HP i n1 c Nn Hi)). }
    cbn [snd]. rewrite (eval_batch_eq ud p FB PO MO (map fst plan) F g3 (snd t) EP1 EF), (seq_eval p NP neigh LN ltac:(lia) (map fst plan) g3 (snd t) F EP1 EF).
    pose proof (Forall2_len _ _ _ HP) as LP. destruct plan as [|c plan]; [cbn in LP; lia|]. apply same_refl.
  - intros st _ t st' t' (PM & V1 & EP1 & EN1 & BX1 & Lz1) E1. assert (FT : fit p NP Box 0 (snd t) (snd st) t) by (split; [exact V1|split; [exact EP1|split; [exact EN1|split; [exact BX1|split; [exact Lz1|apply evals_0]]]]]).
    pose proof (ends_at _ _ _ _ _ _ (GO st t FT PM) E1) as (PM' & (V2 & EP2 & EN2 & BX2 & Lz2 & _) & _). repeat (split; [assumption|]). assumption.
  - cbn [fst snd]. split; [apply Permutation_refl|]. split; [exact V|]. split; [exact EP|]. split; [reflexivity|]. split; [rewrite <- EP; exact Fx|exact LZ].
Qed.
End Same.

(** ** In one generation the evaluator is asked once, for points that are fixed before. *)
Section Once.
Context {G P : Type} (r : rng G) (srt : sorter) (pw : dbl -> dbl -> dbl) (shuf : forall A, list A -> G -> list A * G).
Context (binom : Z -> Z -> dbl) (halton : nat -> nat -> list dbl) (fuel : nat) (a : moead_params).
Notation evolve bfe := (mgen_evolve (P := P) r srt pw shuf binom halton fuel a bfe).
Lemma batch_once ud ud' xs (t : G * pop P) : ud (po_prob (snd t)) (concat xs) = ud' (po_prob (snd t)) (concat xs) -> nsga2_eval_batch ud xs t = nsga2_eval_batch ud' xs t.
Proof. intros E. unfold nsga2_eval_batch, rbind, getp, nsga2_call, bfe_call. rewrite E. reflexivity. Qed.
Lemma mgen_once (s : G * pop P) : me_gen a = 1 ->
  exists xs, forall ud ud', ud (po_prob (snd s)) xs = ud' (po_prob (snd s)) xs -> evolve (Some ud) s = evolve (Some ud') s.
Proof.
  intros HG. unfold mgen_evolve. rewrite HG. cbn [seq rfold Nat.eqb].
  assert (B : forall A B (m : RM (G * pop P) A) (f : (problem -> list dbl -> outcome (list dbl)) -> A -> RM (G * pop P) B) t, (forall v t', m t = (Ok v, t') -> exists xs, forall ud ud', ud (po_prob (snd s)) xs = ud' (po_prob (snd s)) xs -> f ud v t' = f ud' v t') ->
    exists xs, forall ud ud', ud (po_prob (snd s)) xs = ud' (po_prob (snd s)) xs -> rbind m (f ud) t = rbind m (f ud') t).
  { intros A B m f t H. unfold rbind. destruct (m t) as [[v|e| |] t']; [|exists []; reflexivity|exists []; reflexivity|exists []; reflexivity]. exact (H v t' eq_refl). }
  apply (B _ _ getp (fun ud => _)). intros po t E. injection E as <- <-. cbv zeta.
  repeat (match goal with |- exists xs, forall ud ud', _ -> (if ?c then _ else _) _ = _ => destruct c; [exists []; reflexivity|] end).
  apply (B _ _ _ (fun ud => _)). intros ws t1 E1. apply (B _ _ _ (fun ud => _)). intros neigh t2 E2. apply (B _ _ _ (fun ud => _)). intros z t3 E3.
  assert (S3 : snd t3 = snd s).
  { unfold rlift in E2, E3. injection E3 as _ <-. injection E2 as _ <-. unfold eng in E1. destruct (moead_weights r srt binom halton fuel a _ _ (fst s)) as [o g]. injection E1 as _ <-. reflexivity. }
  assert (C : forall A B (m : (problem -> list dbl -> outcome (list dbl)) -> RM (G * pop P) A) (f : A -> RM (G * pop P) B) t, (exists xs, forall ud ud', ud (po_prob (snd s)) xs = ud' (po_prob (snd s)) xs -> m ud t = m ud' t) ->
    exists xs, forall ud ud', ud (po_prob (snd s)) xs = ud' (po_prob (snd s)) xs -> rbind (m ud) f t = rbind (m ud') f t).
  { intros A B' m f t (xs & H). exists xs. intros ud ud' E. unfold rbind. now rewrite (H ud ud' E). }
  apply (C _ _ (fun ud => _)). apply (C _ _ (fun ud => _)). unfold mgen_generation.
  apply (B _ _ getp (fun ud => _)). intros po t4 E4. injection E4 as <- <-. apply (B _ _ _ (fun ud => _)). intros sh t5 E5. apply (B _ _ _ (fun ud => _)). intros plan t6 E6.
  assert (S6 : snd t6 = snd s).
  { unfold eng in E5, E6. destruct (rdraw _ (fst t3)) as [o5 g5]. injection E5 as _ <-. destruct (rmap _ sh _) as [o6 g6]. injection E6 as _ <-. exact S3. }
  exists (concat (map fst plan)). intros ud ud' E. unfold rbind. unfold mgen_eval. rewrite (batch_once ud ud' (map fst plan) t6); [reflexivity|]. rewrite S6. exact E.
Qed.
End Once.
