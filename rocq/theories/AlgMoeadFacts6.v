From Coq Require Import List Bool Arith ZArith Lia Permutation.
From Verif Require Import Dbl DblFacts IntDbl GenericFacts Outcome BaseFacts StdSort SpecOrder MultiObj SpecMultiObj SpecDiscrepancy Weights Problem SpecProblem Rng Generic SpecGeneric GenericFacts3
  SpecGenetic RmFacts GeneticOps GeneticFacts Population SpecPopulation Algo SpecAlgo AlgoFacts AlgoFacts2 AlgSga SpecSga SpecNsga2 AlgMoead SpecMoead AlgMoeadFacts2 AlgMoeadFacts4 AlgMoeadFacts5.
Import ListNotations.

Section R.
Context {G P : Type} (r : rng G) (RC : rng_contract r) (srt : sorter) (HS : sort_contract srt) (pw : dbl -> dbl -> dbl) (shuf : forall A, list A -> G -> list A * G) (SC : shuffle_contract shuf).
Context (binom : Z -> Z -> dbl) (BE : binomial_exact binom) (halton : nat -> nat -> list dbl) (HH : forall n i, length (halton n i) = n - 1 /\ Forall unit_dbl (halton n i)) (fuel : nat) (a : moead_params).
Notation evolve := (moead_evolve (P := P) r srt pw shuf binom halton fuel a).
Context (s : G * pop P) (p : problem) (EP : po_prob (snd s) = p) (V : valid_pop (snd s)) (MO : mo_problem p) (FD : fitness_defined p).
Context (HK : 2 <= me_neigh a <= length (po_id (snd s)) - 1) (DM : me_dec a <> OtherMethod) (HG : 0 < me_gen a).
Context (N49 : (Z.of_nat (length (po_id (snd s))) < 2 ^ 49)%Z) (N64 : (Z.of_nat (get_nf p) * Z.of_nat (length (po_id (snd s))) <= 2 ^ 64)%Z).
Context (DL : Forall is_double (p_lb p)) (DU : Forall is_double (p_ub p)).

Lemma select_any nb whole g : length nb = me_neigh a -> (forall i, In i nb -> i < length (po_id (snd s))) ->
  ends_w True (select_parents r fuel (length (po_id (snd s))) nb whole) g (fun ps _ => 2 <= length ps /\ forall i, In i ps -> i < length (po_id (snd s))) never.
Proof. intros L H. unfold select_parents. apply (select_ok r RC); [lia|intros ->; cbn in L; lia|exact H|intros i []]. Qed.
Lemma moead_evolve_any : ends_w True evolve s
  (fun _ s' => valid_pop (snd s') /\ moead_run (me_dec a) (me_limit a) (me_div a) (fun x => length x = get_nx p) (me_neigh a) (me_gen a) (snd s) (snd s') /\ evals (me_gen a * length (po_id (snd s))) (snd s) (snd s'))
  (moead_throws a p (length (po_id (snd s)))).
Proof.
  apply moead_evolve_gen; try assumption; auto.
  - apply child_any; try assumption. rewrite <- EP. apply V.
  - rewrite <- EP. pose proof V as (_ & (_ & _ & Fx & _) & _). exact Fx.
  - intros nb whole g _. apply select_any.
Qed.
Context (B1 : below_one r) (MB : moderate_bounds p) (HF : within dzero done (me_F a)) (PC : pow_contract pw) (HE : nonneg (me_eta a)) (FE : isfinite (me_eta a) = true).
Context (IB : forall x, In x (po_x (snd s)) -> in_box (p_lb p) (p_ub p) x).
Lemma box_len x : in_box (p_lb p) (p_ub p) x -> length x = get_nx p.
Proof. intros (L & _). exact L. Qed.
Lemma moead_evolve_box : ends_w True evolve s
  (fun _ s' => valid_pop (snd s') /\ moead_run (me_dec a) (me_limit a) (me_div a) (in_box (p_lb p) (p_ub p)) (me_neigh a) (me_gen a) (snd s) (snd s') /\ evals (me_gen a * length (po_id (snd s))) (snd s) (snd s'))
  (moead_throws a p (length (po_id (snd s)))).
Proof.
  apply moead_evolve_gen; try assumption; auto.
  - exact box_len.
  - apply child_box; try assumption. rewrite <- EP. apply V.
  - intros nb whole g _. apply select_any.
Qed.
End R.

(** ** A generator that counts: the parents are found with three draws. *)
Definition count_rng : rng nat := {| g_real := fun x _ g => (x, S g); g_int := fun lo hi g => ((lo + Z.of_nat g mod (hi - lo + 1))%Z, S g); g_norm := fun x _ g => (x, S g) |}.
Lemma count_contract : rng_contract count_rng.
Proof.
  constructor.
  - intros x y g F1 F2 H. cbn. split; [|now apply dlt_dle]. destruct x; try discriminate F1; unfold dle; cbn [dlt deq]; rewrite Z.eqb_refl; apply orb_true_r.
  - intros x y g D _. exact D.
  - intros x y g H. cbn. pose proof (Z.mod_pos_bound (Z.of_nat g) (y - x + 1) ltac:(lia)). lia.
Qed.
Lemma count_below : below_one count_rng.
Proof. intros g. reflexivity. Qed.
Section Count.
Context (NP : nat) (nb : list nat) (ND : NoDup nb) (LB : 2 <= length nb < NP) (IB : forall i, In i nb -> i < NP) (whole : bool).
Definition pick (g : nat) : nat := if whole then g mod NP else nth ((g mod NP) mod length nb) nb 0.
Lemma select_step k acc g : length acc < 2 -> select_loop count_rng (S k) NP nb whole acc g = select_loop count_rng k NP nb whole (if existsb (Nat.eqb (pick g)) acc then acc else acc ++ [pick g]) (S g).
Proof.
  intros H. cbn [select_loop]. destruct (Nat.leb_spec 2 (length acc)); [lia|]. unfold rbind, draw_int. destruct (Z.leb_spec 0 (Z.of_nat NP - 1)); [|lia]. unfold rdraw. cbn [count_rng g_int].
  replace (Z.to_nat (0 + Z.of_nat g mod (Z.of_nat NP - 1 - 0 + 1))) with (g mod NP) by (replace (Z.of_nat NP - 1 - 0 + 1)%Z with (Z.of_nat NP) by lia; rewrite Z.add_0_l, <- Nat2Z.inj_mod, Nat2Z.id; reflexivity).
  unfold pick. destruct whole; [reflexivity|]. unfold vget. rewrite (nth_error_nth' nb 0) by (apply Nat.mod_upper_bound; lia). reflexivity.
Qed.
Lemma ends_step k acc g Q E : length acc < 2 -> ends_w False (select_loop count_rng k NP nb whole (if existsb (Nat.eqb (pick g)) acc then acc else acc ++ [pick g])) (S g) Q E -> ends_w False (select_loop count_rng (S k) NP nb whole acc) g Q E.
Proof. intros H. unfold ends_w. rewrite select_step by exact H. auto. Qed.
Lemma pick_lt g : pick g < NP.
Proof. unfold pick. destruct whole; [apply Nat.mod_upper_bound; lia|]. apply IB, nth_In, Nat.mod_upper_bound. lia. Qed.
Lemma pick_neq g h : g mod NP <> h mod NP -> (g mod NP) mod length nb <> (h mod NP) mod length nb -> pick g <> pick h.
Proof.
  intros H K. unfold pick. destruct whole; [exact H|]. intros E. apply K. apply (proj1 (NoDup_nth nb 0) ND); [apply Nat.mod_upper_bound; lia|apply Nat.mod_upper_bound; lia|exact E].
Qed.
Lemma mod_succ m k : 0 < k -> S m mod k = (if Nat.eqb (S (m mod k)) k then 0 else S (m mod k)).
Proof.
  intros H. pose proof (Nat.div_mod m k ltac:(lia)) as E. pose proof (Nat.mod_upper_bound m k ltac:(lia)) as B. symmetry. destruct (Nat.eqb_spec (S (m mod k)) k) as [K|K].
  - apply (Nat.mod_unique _ _ (S (m / k))); lia.
  - apply (Nat.mod_unique _ _ (m / k)); lia.
Qed.
Lemma pick_two g : pick g <> pick (S g) \/ pick g <> pick (S (S g)).
Proof.
  pose proof (Nat.mod_upper_bound g NP ltac:(lia)) as B. pose proof (mod_succ g NP ltac:(lia)) as E1. pose proof (mod_succ (S g) NP ltac:(lia)) as E2.
  destruct (Nat.eqb_spec (S (g mod NP)) NP) as [K|K].
  - rewrite E1 in E2. destruct (Nat.eqb_spec 1 NP); [lia|]. destruct (Nat.eq_dec ((g mod NP) mod length nb) 0) as [Z0|Z0].
    + right. apply pick_neq; rewrite E2; [lia|]. rewrite Z0, (Nat.mod_small 1) by lia. discriminate.
    + left. apply pick_neq; rewrite E1; [lia|]. rewrite (Nat.mod_small 0) by lia. exact Z0.
  - left. apply pick_neq; rewrite E1; [lia|]. rewrite (mod_succ (g mod NP) (length nb)) by lia. pose proof (Nat.mod_upper_bound (g mod NP) (length nb) ltac:(lia)). destruct (Nat.eqb_spec (S ((g mod NP) mod length nb)) (length nb)); lia.
Qed.
Lemma select_count k g : ends_w False (select_parents count_rng (3 + k) NP nb whole) g (fun ps _ => 2 <= length ps /\ forall i, In i ps -> i < NP) never.
Proof.
  unfold select_parents. change (3 + k) with (S (S (S k))). apply ends_step; [cbn; lia|]. cbn [existsb app].
  apply ends_step; [cbn; lia|]. cbn [existsb app]. rewrite orb_false_r.
  assert (FIN : forall k' x y g', x < NP -> y < NP -> ends_w False (select_loop count_rng k' NP nb whole [x; y]) g' (fun ps _ => 2 <= length ps /\ forall i, In i ps -> i < NP) never).
  { intros k' x y g' Hx Hy. destruct k'; cbn [select_loop length Nat.leb]; apply ends_ret; (split; [cbn; lia|]); intros i [<-|[<-|[]]]; assumption. }
  destruct (Nat.eqb_spec (pick (S g)) (pick g)) as [E|E]; [|apply FIN; apply pick_lt].
  apply ends_step; [cbn; lia|]. cbn [existsb app]. rewrite orb_false_r.
  destruct (Nat.eqb_spec (pick (S (S g))) (pick g)) as [E'|E']; [|apply FIN; apply pick_lt]. exfalso. destruct (pick_two g); congruence.
Qed.
End Count.
