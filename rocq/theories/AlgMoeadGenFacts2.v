From Coq Require Import String List Bool Arith ZArith Lia Permutation.
From Verif Require Import Dbl DblFacts IntDbl Outcome BaseFacts StdSort SpecOrder MultiObj SpecMultiObj MultiObjFacts2 DecomposeFacts SpecDiscrepancy Weights WeightsFacts Problem SpecProblem Rng Generic SpecGeneric GenericFacts GenericFacts3
  SpecGenetic RmFacts GeneticOps GeneticFacts Population SpecPopulation PopulationFacts3 Algo SpecAlgo AlgoFacts AlgoFacts2 AlgSga SpecSga AlgSgaFacts4 AlgSgaFacts6 AlgNsga2 SpecNsga2 AlgNsga2Facts3 AlgNsga2Facts4 AlgNsga2Facts5 SpecCmaes AlgMoead SpecMoead AlgMoeadFacts AlgMoeadFacts2 AlgMoeadFacts3 AlgMoeadFacts4 AlgMoeadFacts5 AlgMoeadFacts6 AlgMoeadGen AlgMoeadGenFacts.
Import ListNotations.

Section R.
Context {G P : Type} (r : rng G) (srt : sorter) (pw : dbl -> dbl -> dbl) (shuf : forall A, list A -> G -> list A * G).
Context (binom : Z -> Z -> dbl) (halton : nat -> nat -> list dbl) (fuel : nat) (a : moead_params).
Notation evolve bfe := (mgen_evolve (P := P) r srt pw shuf binom halton fuel a bfe).

Lemma mgen_rejects bfe (s : G * pop P) : ~ (mo_problem (po_prob (snd s)) /\ 0 < length (po_id (snd s)) /\ me_neigh a <= length (po_id (snd s)) - 1) -> evolve bfe s = (Throw InvalidArgument, s).
Proof.
  intros H. unfold mgen_evolve, rbind, getp. cbv zeta. set (p := po_prob (snd s)) in *. set (n := length (po_id (snd s))) in *. destruct (some_bound_is_equal (p_lb p) (p_ub p)) eqn:EB; [reflexivity|].
  destruct (Nat.eqb_spec n 0); [reflexivity|]. destruct (Nat.ltb_spec (get_nf p) 2) as [NF|NF]; [reflexivity|]. destruct (Nat.eqb_spec (get_nc p) 0) as [NC|NC]; [|reflexivity]. cbn [negb]. destruct (u_set_seed (p_udp p)) eqn:SS; [reflexivity|].
  destruct (Nat.ltb_spec (n - 1) (me_neigh a)); [reflexivity|]. exfalso. apply H. split; [split; [exact SS|]; split; [exact NC|]; split; [exact NF|now apply some_equal_iff]|]. lia.
Qed.
Lemma mgen_none bfe (s : G * pop P) : me_gen a = 0 -> mo_problem (po_prob (snd s)) -> 0 < length (po_id (snd s)) -> me_neigh a <= length (po_id (snd s)) - 1 -> evolve bfe s = (Ok tt, s).
Proof.
  intros H (SS & NC & NF & EB) H0 HK. unfold mgen_evolve, rbind, getp. cbv zeta. apply some_equal_iff in EB. rewrite EB. destruct (Nat.eqb_spec (length (po_id (snd s))) 0); [lia|]. destruct (Nat.ltb_spec (get_nf (po_prob (snd s))) 2); [lia|].
  rewrite NC. cbn [Nat.eqb negb]. rewrite SS. destruct (Nat.ltb_spec (length (po_id (snd s)) - 1) (me_neigh a)); [lia|]. rewrite H. reflexivity.
Qed.

Context (RC : rng_contract r) (HS : sort_contract srt) (SC : shuffle_contract shuf) (BE : binomial_exact binom).
Context (HH : forall n i, length (halton n i) = n - 1 /\ Forall unit_dbl (halton n i)).

Lemma mgen_evolve_gen bfe (W : Prop) (Box : list dbl -> Prop) (s : G * pop P) p : po_prob (snd s) = p -> valid_pop (snd s) -> mo_problem p -> evaluates bfe p ->
  2 <= me_neigh a <= length (po_id (snd s)) - 1 -> me_dec a <> OtherMethod -> 0 < me_gen a ->
  (Z.of_nat (length (po_id (snd s))) < 2 ^ 49)%Z -> (Z.of_nat (get_nf p) * Z.of_nat (length (po_id (snd s))) <= 2 ^ 64)%Z ->
  (forall x, Box x -> length x = get_nx p) ->
  (forall X n p0 p1, (forall x, In x X -> Box x) -> n < length X -> p0 < length X -> p1 < length X -> always (moead_child r pw a p X n p0 p1) Box never) ->
  (forall x, In x (po_x (snd s)) -> Box x) ->
  (me_weights a = WGrid -> W) ->
  (forall nb whole g, NoDup nb -> length nb = me_neigh a -> (forall i, In i nb -> i < length (po_id (snd s))) ->
     ends_w W (select_parents r fuel (length (po_id (snd s))) nb whole) g (fun ps _ => 2 <= length ps /\ forall i, In i ps -> i < length (po_id (snd s))) never) ->
  ends_w W (evolve bfe) s
    (fun _ s' => valid_pop (snd s') /\ moead_run (me_dec a) (me_limit a) (me_div a) Box (me_neigh a) (me_gen a) (snd s) (snd s') /\ evals (me_gen a * length (po_id (snd s))) (snd s) (snd s'))
    (moead_throws a p (length (po_id (snd s)))).
Proof.
  intros EP V MP EVL HK DM HG N49 N64 BL CH B0 WG SEL. pose proof MP as (SS & NC & NF & EB). pose proof V as (PO & (L1 & L2 & _ & Ff & _) & _). rewrite EP in PO.
  unfold mgen_evolve. apply ends_bind, ends_getp. cbv zeta. rewrite EP. set (NP := length (po_id (snd s))) in *. apply some_equal_iff in EB. rewrite EB.
  destruct (Nat.eqb_spec NP 0); [lia|]. destruct (Nat.ltb_spec (get_nf p) 2); [lia|]. rewrite NC. cbn [Nat.eqb negb]. rewrite SS. destruct (Nat.ltb_spec (NP - 1) (me_neigh a)); [lia|]. destruct (Nat.eqb_spec (me_gen a) 0); [lia|].
  apply ends_bind. apply ends_eng_w. eapply ends_weak; [apply (weights_ok r RC srt HS binom BE halton HH fuel a W WG (get_nf p) NP (fst s) NF N49 N64)| |intros e He; right; exact He].
  intros ws g1 [HNP HW]. cbv beta. pose proof HW as [LW HWw].
  apply ends_bind. destruct (knn_spec srt ws (me_neigh a) HS) as (neigh & EK & LN & HNr); [intros q q' Hq Hq'; rewrite (HWw q Hq), (HWw q' Hq'); reflexivity|].
  eapply ends_lift_ok; [exact EK|]. apply ends_bind.
  assert (UF : uniform (po_f (snd s)) (get_nf p)) by (rewrite EP in Ff; exact Ff).
  assert (NE : po_f (snd s) <> []). { intros K. rewrite K in L2. cbn in L2. lia. }
  destruct (ideal_ok (po_f (snd s)) (get_nf p) UF NE) as (z & EZ & LZ & HZ). eapply ends_lift_ok; [exact EZ|].
  assert (HN : forall n nb, nth_error neigh n = Some nb -> nb <> [] /\ forall i, In i nb -> i < NP).
  { intros i nb Hn. destruct (HNr i nb Hn) as (Lb & _ & Ib & _). split; [intros K; subst nb; cbn in Lb; lia|]. intros j Hj. destruct (Ib j Hj). lia. }
  apply ends_bind. rewrite LW in LN.
  assert (SEL' : forall nb whole g, In nb neigh -> ends_w W (select_parents r fuel NP nb whole) g (fun ps _ => 2 <= length ps /\ forall i, In i ps -> i < NP) never).
  { intros nb whole g Hn. apply In_nth_error in Hn. destruct Hn as (i & Hn). destruct (HNr i nb Hn) as (Lb & Nb & _). rewrite LW, Nat.min_l in Lb by lia. apply SEL; [exact Nb|exact Lb|apply (HN i nb Hn)]. }
  eapply ends_weak; [apply (gens_ok r RC pw shuf SC fuel a bfe p EVL PO MP NP Box BL CH ws HW neigh LN HN DM ltac:(lia) W SEL' (snd s) (me_gen a) ltac:(lia) 0 (seq 0 NP, z) (g1, snd s))| |intros e He; left; exact He].
  - split; [exact V|]. split; [exact EP|]. split; [reflexivity|]. split; [exact B0|]. split; [exact LZ|]. apply evals_0.
  - apply Permutation_refl.
  - intros st s' (FT & MG). cbn [fst snd] in *. apply ends_ret. destruct FT as (V' & _ & _ & _ & _ & EV). split; [exact V'|]. split; [|rewrite Nat.add_0_l in EV; exact EV].
    exists ws, neigh, z, (snd st). rewrite EP. split; [exact HW|]. split; [exact LN|]. split; [|split; [exact LZ|split; [exact HZ|exact MG]]].
    intros i l Hi. specialize (HNr i l Hi). rewrite LW in HNr. rewrite Nat.min_l in HNr by lia. exact HNr.
Qed.
End R.

Section Any.
Context {G P : Type} (r : rng G) (RC : rng_contract r) (srt : sorter) (HS : sort_contract srt) (pw : dbl -> dbl -> dbl) (shuf : forall A, list A -> G -> list A * G) (SC : shuffle_contract shuf).
Context (binom : Z -> Z -> dbl) (BE : binomial_exact binom) (halton : nat -> nat -> list dbl) (HH : forall n i, length (halton n i) = n - 1 /\ Forall unit_dbl (halton n i)) (fuel : nat) (a : moead_params).
Context (bfe : option (problem -> list dbl -> outcome (list dbl))).
Notation evolve := (mgen_evolve (P := P) r srt pw shuf binom halton fuel a bfe).
Context (s : G * pop P) (p : problem) (EP : po_prob (snd s) = p) (V : valid_pop (snd s)) (MO : mo_problem p) (EVL : evaluates bfe p).
Context (HK : 2 <= me_neigh a <= length (po_id (snd s)) - 1) (DM : me_dec a <> OtherMethod) (HG : 0 < me_gen a).
Context (N49 : (Z.of_nat (length (po_id (snd s))) < 2 ^ 49)%Z) (N64 : (Z.of_nat (get_nf p) * Z.of_nat (length (po_id (snd s))) <= 2 ^ 64)%Z).
Context (DL : Forall is_double (p_lb p)) (DU : Forall is_double (p_ub p)).
Lemma mgen_select nb whole g : length nb = me_neigh a -> (forall i, In i nb -> i < length (po_id (snd s))) ->
  ends_w True (select_parents r fuel (length (po_id (snd s))) nb whole) g (fun ps _ => 2 <= length ps /\ forall i, In i ps -> i < length (po_id (snd s))) never.
Proof. intros L H. unfold select_parents. apply (select_ok r RC); [lia|intros ->; cbn in L; lia|exact H|intros i []]. Qed.
Lemma mgen_evolve_any : ends_w True evolve s
  (fun _ s' => valid_pop (snd s') /\ moead_run (me_dec a) (me_limit a) (me_div a) (fun x => length x = get_nx p) (me_neigh a) (me_gen a) (snd s) (snd s') /\ evals (me_gen a * length (po_id (snd s))) (snd s) (snd s'))
  (moead_throws a p (length (po_id (snd s)))).
Proof.
  apply mgen_evolve_gen; try assumption; auto.
  - apply child_any; try assumption. rewrite <- EP. apply V.
  - rewrite <- EP. pose proof V as (_ & (_ & _ & Fx & _) & _). exact Fx.
  - intros nb whole g _. apply mgen_select.
Qed.
Context (B1 : below_one r) (MB : moderate_bounds p) (HF : within dzero done (me_F a)) (PC : pow_contract pw) (HE : nonneg (me_eta a)) (FE : isfinite (me_eta a) = true).
Context (IB : forall x, In x (po_x (snd s)) -> in_box (p_lb p) (p_ub p) x).
Lemma mgen_evolve_box : ends_w True evolve s
  (fun _ s' => valid_pop (snd s') /\ moead_run (me_dec a) (me_limit a) (me_div a) (in_box (p_lb p) (p_ub p)) (me_neigh a) (me_gen a) (snd s) (snd s') /\ evals (me_gen a * length (po_id (snd s))) (snd s) (snd s'))
  (moead_throws a p (length (po_id (snd s)))).
Proof.
  apply mgen_evolve_gen; try assumption; auto.
  - intros x (L & _). exact L.
  - apply child_box; try assumption. rewrite <- EP. apply V.
  - intros nb whole g _. apply mgen_select.
Qed.
End Any.
