From Coq Require Import String List Bool Arith ZArith Lia Permutation.
From Verif Require Import Dbl DblFacts IntDbl Outcome BaseFacts StdSort SpecOrder MultiObj SpecMultiObj MultiObjFacts2 DecomposeFacts SpecDiscrepancy Weights WeightsFacts Problem SpecProblem Rng Generic SpecGeneric GenericFacts3
  SpecGenetic RmFacts GeneticOps GeneticFacts Population SpecPopulation PopulationFacts3 Algo SpecAlgo AlgoFacts AlgoFacts2 AlgSga SpecSga AlgSgaFacts6 SpecNsga2 AlgNsga2Facts3 AlgNsga2Facts4 AlgMoead SpecMoead AlgMoeadFacts AlgMoeadFacts2 AlgMoeadFacts3 AlgMoeadFacts4.
Import ListNotations.

(** ** The constructor *)
Lemma weights_named_iff s w : weights_named s = Some w <-> In (s, w) [("random"%string, WRandom); ("grid"%string, WGrid); ("low discrepancy"%string, WLowDiscrepancy)].
Proof.
  unfold weights_named. destruct (String.eqb_spec s "random") as [->|N1]; [split; [intros E; inversion E; now left|intros [E|[E|[E|[]]]]; inversion E; reflexivity]|].
  destruct (String.eqb_spec s "grid") as [->|N2]; [split; [intros E; inversion E; right; now left|intros [E|[E|[E|[]]]]; inversion E; reflexivity]|].
  destruct (String.eqb_spec s "low discrepancy") as [->|N3]; [split; [intros E; inversion E; right; right; now left|intros [E|[E|[E|[]]]]; inversion E; reflexivity]|].
  split; [discriminate|]. intros [E|[E|[E|[]]]]; inversion E; congruence.
Qed.
Lemma decomposition_named_iff s d : decomposition_named s = Some d <-> In (s, d) [("tchebycheff"%string, Tchebycheff); ("weighted"%string, Weighted); ("bi"%string, BI)].
Proof.
  unfold decomposition_named. destruct (String.eqb_spec s "tchebycheff") as [->|N1]; [split; [intros E; inversion E; now left|intros [E|[E|[E|[]]]]; inversion E; reflexivity]|].
  destruct (String.eqb_spec s "weighted") as [->|N2]; [split; [intros E; inversion E; right; now left|intros [E|[E|[E|[]]]]; inversion E; reflexivity]|].
  destruct (String.eqb_spec s "bi") as [->|N3]; [split; [intros E; inversion E; right; right; now left|intros [E|[E|[E|[]]]]; inversion E; reflexivity]|].
  split; [discriminate|]. intros [E|[E|[E|[]]]]; inversion E; congruence.
Qed.
Lemma unit_iff x : dgt x done || dlt x dzero = false <-> not_outside dzero done x.
Proof. rewrite orb_comm. exact (outside_iff dzero done x dzero_nn done_nn'). Qed.
Lemma moead_constructor gen weights dec k CR F eta realb limit div a : moead_construct gen weights dec k CR F eta realb limit div = Ok a <->
  exists w d, In (weights, w) [("random"%string, WRandom); ("grid"%string, WGrid); ("low discrepancy"%string, WLowDiscrepancy)] /\
    In (dec, d) [("tchebycheff"%string, Tchebycheff); ("weighted"%string, Weighted); ("bi"%string, BI)] /\
    not_outside dzero done CR /\ not_outside dzero done F /\ dlt eta dzero = false /\ not_outside dzero done realb /\ 2 <= k /\ a = mkmoead gen w d k CR F eta realb limit div.
Proof.
  unfold moead_construct. split.
  - destruct (weights_named weights) as [w|] eqn:EW; [|discriminate]. destruct (decomposition_named dec) as [d|] eqn:ED; [|discriminate].
    destruct (dgt CR done || dlt CR dzero) eqn:E1; [discriminate|]. destruct (dgt F done || dlt F dzero) eqn:E2; [discriminate|]. destruct (dlt eta dzero) eqn:E3; [discriminate|].
    destruct (dgt realb done || dlt realb dzero) eqn:E4; [discriminate|]. destruct (Nat.ltb_spec k 2); [discriminate|]. intros E. injection E as <-.
    exists w, d. apply weights_named_iff in EW. apply decomposition_named_iff in ED. apply unit_iff in E1, E2, E4. repeat split; assumption || reflexivity.
  - intros (w & d & EW & ED & E1 & E2 & E3 & E4 & E5 & ->). apply weights_named_iff in EW. apply decomposition_named_iff in ED. apply unit_iff in E1, E2, E4. rewrite EW, ED, E1, E2, E3, E4. destruct (Nat.ltb_spec k 2); [lia|reflexivity].
Qed.

Section R.
Context {G P : Type} (r : rng G) (srt : sorter) (pw : dbl -> dbl -> dbl) (shuf : forall A, list A -> G -> list A * G).
Context (binom : Z -> Z -> dbl) (halton : nat -> nat -> list dbl) (fuel : nat) (a : moead_params).
Notation evolve := (moead_evolve (P := P) r srt pw shuf binom halton fuel a).

Lemma moead_rejects (s : G * pop P) : ~ (mo_problem (po_prob (snd s)) /\ 0 < length (po_id (snd s)) /\ me_neigh a <= length (po_id (snd s)) - 1) -> evolve s = (Throw InvalidArgument, s).
Proof.
  intros H. unfold moead_evolve, rbind, getp. cbv zeta. set (p := po_prob (snd s)) in *. set (n := length (po_id (snd s))) in *. destruct (some_bound_is_equal (p_lb p) (p_ub p)) eqn:EB; [reflexivity|].
  destruct (Nat.eqb_spec n 0); [reflexivity|]. destruct (Nat.ltb_spec (get_nf p) 2) as [NF|NF]; [reflexivity|]. destruct (Nat.eqb_spec (get_nc p) 0) as [NC|NC]; [|reflexivity]. cbn [negb]. destruct (u_set_seed (p_udp p)) eqn:SS; [reflexivity|].
  destruct (Nat.ltb_spec (n - 1) (me_neigh a)); [reflexivity|]. exfalso. apply H. split; [split; [exact SS|]; split; [exact NC|]; split; [exact NF|now apply some_equal_iff]|]. lia.
Qed.
Lemma moead_none (s : G * pop P) : me_gen a = 0 -> mo_problem (po_prob (snd s)) -> 0 < length (po_id (snd s)) -> me_neigh a <= length (po_id (snd s)) - 1 -> evolve s = (Ok tt, s).
Proof.
  intros H (SS & NC & NF & EB) H0 HK. unfold moead_evolve, rbind, getp. cbv zeta. apply some_equal_iff in EB. rewrite EB. destruct (Nat.eqb_spec (length (po_id (snd s))) 0); [lia|]. destruct (Nat.ltb_spec (get_nf (po_prob (snd s))) 2); [lia|].
  rewrite NC. cbn [Nat.eqb negb]. rewrite SS. destruct (Nat.ltb_spec (length (po_id (snd s)) - 1) (me_neigh a)); [lia|]. rewrite H. reflexivity.
Qed.

Context (RC : rng_contract r) (HS : sort_contract srt) (SC : shuffle_contract shuf) (BE : binomial_exact binom).
Context (HH : forall n i, length (halton n i) = n - 1 /\ Forall unit_dbl (halton n i)).
Definition moead_throws (p : problem) (NP : nat) (e : exn) : Prop :=
  fitness_throws p e \/ e = InvalidArgument /\ (NP < get_nf p \/ me_weights a = WGrid \/ me_weights a = WOther).

Lemma moead_evolve_gen (W : Prop) (Box : list dbl -> Prop) (s : G * pop P) p : po_prob (snd s) = p -> valid_pop (snd s) -> mo_problem p -> fitness_defined p ->
  2 <= me_neigh a <= length (po_id (snd s)) - 1 -> me_dec a <> OtherMethod -> 0 < me_gen a ->
  (Z.of_nat (length (po_id (snd s))) < 2 ^ 49)%Z -> (Z.of_nat (get_nf p) * Z.of_nat (length (po_id (snd s))) <= 2 ^ 64)%Z ->
  (forall x, Box x -> length x = get_nx p) ->
  (forall X n p0 p1, (forall x, In x X -> Box x) -> n < length X -> p0 < length X -> p1 < length X -> always (moead_child r pw a p X n p0 p1) Box never) ->
  (forall x, In x (po_x (snd s)) -> Box x) ->
  (me_weights a = WGrid -> W) ->
  (forall nb whole g, NoDup nb -> length nb = me_neigh a -> (forall i, In i nb -> i < length (po_id (snd s))) ->
     ends_w W (select_parents r fuel (length (po_id (snd s))) nb whole) g (fun ps _ => 2 <= length ps /\ forall i, In i ps -> i < length (po_id (snd s))) never) ->
  ends_w W evolve s
    (fun _ s' => valid_pop (snd s') /\ moead_run (me_dec a) (me_limit a) (me_div a) Box (me_neigh a) (me_gen a) (snd s) (snd s') /\ evals (me_gen a * length (po_id (snd s))) (snd s) (snd s'))
    (moead_throws p (length (po_id (snd s)))).
Proof.
  intros EP V (SS & NC & NF & EB) FD HK DM HG N49 N64 BL CH B0 WG SEL. pose proof V as (PO & (L1 & L2 & _ & Ff & _) & _).
  unfold moead_evolve. apply ends_bind, ends_getp. cbv zeta. rewrite EP. set (NP := length (po_id (snd s))) in *. apply some_equal_iff in EB. rewrite EB.
  destruct (Nat.eqb_spec NP 0); [lia|]. destruct (Nat.ltb_spec (get_nf p) 2); [lia|]. rewrite NC. cbn [Nat.eqb negb]. rewrite SS. destruct (Nat.ltb_spec (NP - 1) (me_neigh a)); [lia|]. destruct (Nat.eqb_spec (me_gen a) 0); [lia|].
  apply ends_bind. apply ends_eng_w. eapply ends_weak; [apply (weights_ok r RC srt HS binom BE halton HH fuel a W WG (get_nf p) NP (fst s) NF N49 N64)| |intros e He; right; exact He].
  intros ws g1 [HNP HW]. cbv beta. pose proof HW as [LW HWw].
  apply ends_bind. destruct (knn_spec srt ws (me_neigh a) HS) as (neigh & EK & LN & HNr); [intros q q' Hq Hq'; rewrite (HWw q Hq), (HWw q' Hq'); reflexivity|].
  eapply ends_lift_ok; [exact EK|]. apply ends_bind.
  assert (UF : uniform (po_f (snd s)) (get_nf p)) by (rewrite EP in Ff; exact Ff).
  assert (NE : po_f (snd s) <> []). { intros K. rewrite K in L2. cbn in L2. lia. }
  destruct (ideal_ok (po_f (snd s)) (get_nf p) UF NE) as (z & EZ & LZ & HZ). eapply ends_lift_ok; [exact EZ|].
  assert (HN : forall n nb, nth_error neigh n = Some nb -> nb <> [] /\ forall i, In i nb -> i < NP).
  { intros i nb Hn. destruct (HNr i nb Hn) as (Lb & _ & Ib & _). split; [intros K; subst nb; cbn in Lb; lia|]. intros j Hj. destruct (Ib j Hj). lia. }
  apply ends_bind. rewrite LW in LN.
  assert (SEL' : forall nb whole g, In nb neigh -> ends_w W (select_parents r fuel NP nb whole) g (fun ps _ => 2 <= length ps /\ forall i, In i ps -> i < NP) never).
  { intros nb whole g Hn. apply In_nth_error in Hn. destruct Hn as (i & Hn). destruct (HNr i nb Hn) as (Lb & Nb & _). rewrite LW, Nat.min_l in Lb by lia. apply SEL; [exact Nb|exact Lb|apply (HN i nb Hn)]. }
  eapply ends_weak; [apply (generations_ok r RC pw shuf SC fuel a p FD NP Box BL CH ws HW neigh LN HN DM ltac:(lia) W SEL' (snd s) (me_gen a) 0 (seq 0 NP, z) (g1, snd s))| |intros e He; left; exact He].
  - split; [exact V|]. split; [exact EP|]. split; [reflexivity|]. split; [exact B0|]. split; [exact LZ|]. apply evals_0.
  - apply Permutation_refl.
  - intros st s' (FT & MG). cbn [fst snd] in *. apply ends_ret. destruct FT as (V' & _ & _ & _ & _ & EV). split; [exact V'|]. split; [|rewrite Nat.add_0_l in EV; exact EV].
    exists ws, neigh, z, (snd st). rewrite EP. split; [exact HW|]. split; [exact LN|]. split; [|split; [exact LZ|split; [exact HZ|exact MG]]].
    intros i l Hi. specialize (HNr i l Hi). rewrite LW in HNr. rewrite Nat.min_l in HNr by lia. exact HNr.
Qed.
End R.

(** ** With the weighted decomposition no individual gets worse. *)
Lemma decompose_lengths f w z m v : decompose_objectives f w z m = Ok v -> length w = length f /\ length z = length f.
Proof.
  unfold decompose_objectives. destruct (Nat.eqb_spec (length w) (length f)); [|discriminate]. destruct (Nat.eqb_spec (length z) (length f)); [auto|discriminate].
Qed.
Lemma weighted_any f w z z0 v : length z0 = length z -> decompose_objectives f w z Weighted = Ok v -> decompose_objectives f w z0 Weighted = Ok v.
Proof. intros L. unfold decompose_objectives. now rewrite L. Qed.
Lemma improves_any w z z0 f g : length z0 = length z -> improves Weighted w z f g -> improves Weighted w z0 f g.
Proof. intros L (v & v' & E1 & E2 & H). exists v, v'. split; [eapply weighted_any; eassumption|]. split; [eapply weighted_any; eassumption|exact H]. Qed.
Lemma improves_trans m w z f g h : improves m w z f g -> improves m w z g h -> improves m w z f h.
Proof. intros (v & v' & E1 & E2 & H) (u & u' & E3 & E4 & K). rewrite E2 in E3. injection E3 as <-. exists v, u'. split; [exact E1|]. split; [exact E4|]. eapply dlt_trans; eassumption. Qed.

Section Mono.
Context {P : Type} (limit : nat) (div : bool) (Box : list dbl -> Prop) (ws : list (list dbl)) (neigh : list (list nat)) (z0 : list dbl).
(** Every individual is the same or better on its own subproblem. *)
Definition no_worse (s s' : pop P) : Prop :=
  forall i w f f', nth_error ws i = Some w -> nth_error (po_f s) i = Some f -> nth_error (po_f s') i = Some f' -> f' = f \/ improves Weighted w z0 f' f.
Definition as_many (s s' : pop P) : Prop := length (po_f s') = length (po_f s).
Lemma step_no_worse n z s z' s' : length z = length z0 -> moead_step Weighted limit div Box ws neigh n z s z' s' -> length z' = length z0 /\ as_many s s' /\ no_worse s s'.
Proof.
  intros L (x & f & R & nb & _ & _ & (LZ & _) & (_ & _ & _ & LF & _ & IN & OUT) & BT & _). split; [congruence|]. split; [exact LF|]. intros i w g g' Ew Eg Eg'.
  destruct (in_dec Nat.eq_dec i R) as [Hi|Hi].
  - right. destruct (IN i Hi) as [_ E]. rewrite E in Eg'. injection Eg' as <-. destruct (BT i Hi) as (w' & h & Ew' & Eh & IM). rewrite Ew in Ew'. rewrite Eg in Eh. injection Ew' as <-. injection Eh as <-. eapply improves_any; [|exact IM]. congruence.
  - left. destruct (OUT i Hi) as [_ E]. congruence.
Qed.
Lemma no_worse_trans s s1 s2 : as_many s s1 -> no_worse s s1 -> no_worse s1 s2 -> no_worse s s2.
Proof.
  unfold as_many. intros L H K i w f f' Ew Ef Ef'. assert (Hi : i < length (po_f s1)) by (rewrite L; apply nth_error_Some; congruence). destruct (nth_ex (po_f s1) i Hi) as (g & Eg).
  destruct (H i w f g Ew Ef Eg) as [-> |H1]; destruct (K i w _ f' Ew Eg Ef') as [-> |K1]; auto. right. eapply improves_trans; eassumption.
Qed.
Lemma no_worse_refl s : no_worse s s.
Proof. intros i w f f' _ E1 E2. left. congruence. Qed.
Lemma steps_no_worse ns z s z' s' : moead_steps Weighted limit div Box ws neigh ns z s z' s' -> length z = length z0 -> length z' = length z0 /\ as_many s s' /\ no_worse s s'.
Proof.
  induction 1 as [z s|n ns z s z1 s1 z2 s2 H IH ST]; intros L; [split; [exact L|]; split; [reflexivity|apply no_worse_refl]|].
  destruct (IH L) as (L1 & A1 & N1). destruct (step_no_worse n z1 s1 z2 s2 L1 ST) as (L2 & A2 & N2). split; [exact L2|]. split; [unfold as_many in *; congruence|]. eapply no_worse_trans; eassumption.
Qed.
Lemma generations_no_worse NP k z s z' s' : moead_generations Weighted limit div Box ws neigh NP k z s z' s' -> length z = length z0 -> length z' = length z0 /\ as_many s s' /\ no_worse s s'.
Proof.
  induction 1 as [z s|k ns z s z1 s1 z2 s2 H IH PM ST]; intros L; [split; [exact L|]; split; [reflexivity|apply no_worse_refl]|].
  destruct (IH L) as (L1 & A1 & N1). destruct (steps_no_worse ns z1 s1 z2 s2 ST L1) as (L2 & A2 & N2). split; [exact L2|]. split; [unfold as_many in *; congruence|]. eapply no_worse_trans; eassumption.
Qed.
End Mono.
Lemma run_no_worse {P} limit div Box k gen (s s' : pop P) : moead_run Weighted limit div Box k gen s s' ->
  exists ws, weights_for (get_nf (po_prob s)) (length (po_id s)) ws /\ forall z0, length z0 = get_nf (po_prob s) ->
    forall i w f f', nth_error ws i = Some w -> nth_error (po_f s) i = Some f -> nth_error (po_f s') i = Some f' -> f' = f \/ improves Weighted w z0 f' f.
Proof.
  intros (ws & neigh & z & z' & HW & _ & _ & LZ & _ & MG). exists ws. split; [exact HW|]. intros z0 L0. destruct (generations_no_worse limit div Box ws neigh z0 _ _ _ _ _ _ MG) as (_ & _ & K); [congruence|exact K].
Qed.

(** ** The limit is not kept when it is below 2. *)
Section Limit.
Context {G P : Type} (shuf : forall A, list A -> G -> list A * G) (SC : shuffle_contract shuf) (a : moead_params).
Lemma two_overwritten (s0 : pop P) ws z x f neigh nb n (g : G) : valid_pop s0 -> weights_for (get_nf (po_prob s0)) (length (po_id s0)) ws -> me_dec a <> OtherMethod -> 0 < get_nf (po_prob s0) ->
  length z = get_nf (po_prob s0) -> evaluated (po_prob s0) x f -> me_limit a <= 1 -> me_div a = true ->
  n < length (po_id s0) -> nth_error neigh n = Some nb -> nb <> [] -> ~ In n nb -> (forall i, In i nb -> i < length (po_id s0)) ->
  (forall i, i < length (po_id s0) -> beaten (me_dec a) ws z s0 f i) ->
  ends_w False (moead_insert shuf a ws neigh z x f n false) (g, s0) (fun _ s' => exists i, i <> n /\ overwrites x f [i; n] s0 (snd s')) never.
Proof.
  intros V0 HW DM NF Lz EV HL HD Hn Nn NB NI HN BT. unfold moead_insert. apply ends_bind, ends_getp. apply ends_bind.
  eapply ends_weak; [apply (try_ok a s0 V0 ws HW DM NF z x f Lz EV [] (g, s0) n never (placed_start a s0 V0 ws z x f g) Hn)| |auto]. intros b s1 Hb. cbv beta.
  destruct b; [|exfalso; destruct Hb as [_ [[]|K]]; apply K, BT, Hn]. destruct Hb as [_ PL].
  apply ends_bind. eapply ends_lift_ok; [apply vget_ok; exact Nn|]. apply ends_bind. apply ends_eng with (Q1 := fun ks => Permutation (seq 0 (length nb)) ks).
  { intros g'. unfold rdraw. pose proof (SC nat (seq 0 (length nb)) g') as H. destruct (shuf nat _ g') as [ks g'']. exact H. }
  intros ks g1 PM. destruct ks as [|k ks].
  { apply Permutation_length in PM. rewrite seq_length in PM. destruct nb; [congruence|discriminate]. }
  assert (Hk : k < length nb) by (assert (In k (seq 0 (length nb))) by (apply (Permutation_in _ (Permutation_sym PM)); now left); apply in_seq in H; lia).
  cbn [moead_tries tick]. destruct (vget_in_range nb k Hk) as (i & Ei & Ni). apply nth_error_In in Ni. apply ends_bind. eapply ends_lift_ok; [exact Ei|]. apply ends_bind.
  assert (PL' : placed a s0 ws z x f [n] (g1, snd s1)) by exact PL.
  eapply ends_weak; [apply (try_ok a s0 V0 ws HW DM NF z x f Lz EV [n] _ i never PL' (HN i Ni))| |auto]. intros b s2 Hb. cbv beta.
  assert (IN : i <> n) by congruence.
  destruct b; [|exfalso; destruct Hb as [_ [[K|[]]|K]]; [congruence|apply K, BT, HN, Ni]]. destruct Hb as [_ PL2]. cbn [tick]. destruct (Nat.leb_spec (me_limit a) 2); [|lia]. rewrite HD. cbn [andb].
  apply ends_ret. exists i. split; [exact IN|]. apply PL2.
Qed.
End Limit.
