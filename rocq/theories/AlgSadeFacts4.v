From Coq Require Import List Bool Arith ZArith Lia.
From Verif Require Import Dbl DblFacts IntDbl Outcome BaseFacts StdSort Problem SpecProblem ProblemFacts Rng Generic SpecGeneric GenericFacts3 SpecGenetic RmFacts
  GeneticOps GeneticFacts Population SpecPopulation PopulationFacts PopulationFacts3 Algo SpecAlgo AlgoFacts AlgoFacts2 AlgDe AlgDeFacts AlgDeFacts2 AlgGwoFacts AlgSade SpecSade AlgSadeFacts AlgSadeFacts2 AlgSadeFacts3.
Import ListNotations.

Lemma put_upd {A} (l : list A) i v : i < length l -> put l i v (upd l i v).
Proof. intros H j. destruct (Nat.eqb_spec j i) as [->|N]; [now apply upd_same|now apply upd_other]. Qed.
Section S.
Context {G P : Type} (r : rng G) (RC : rng_contract r) (a : sade_params).
Definition stepped (s : G * pop P) (st : sst) (i : nat) (st' : sst) (s' : G * pop P) : Prop :=
  let p := po_prob (snd s) in
  (s_kept st' = s_kept st /\ po_x (snd s') = po_x (snd s) /\ po_f (snd s') = po_f (snd s)) \/
  exists ri v F CR t x f, seven_of (length (po_id (snd s))) ri /\ match sa_pool a with Fixed w => v = w | Among l => In v l end /\
    trial_of v F (get_nx p) (d_old (s_de st)) (d_gbIter (s_de st)) ri i t /\ put_back (p_lb p) (p_ub p) t x /\ evaluated p x f /\
    put (po_x (snd s)) i x (po_x (snd s')) /\ put (po_f (snd s)) i f (po_f (snd s')) /\
    put (k_F (s_kept st)) i F (k_F (s_kept st')) /\ put (k_CR (s_kept st)) i CR (k_CR (s_kept st')) /\
    match sa_pool a with Fixed _ => True | Among _ => put (k_V (s_kept st)) i v (k_V (s_kept st')) end.
Lemma sade_one_step (s : G * pop P) st i : pool_ok a -> valid_pop (snd s) -> plain_single (po_prob (snd s)) -> fitness_defined (po_prob (snd s)) ->
  7 <= length (po_id (snd s)) -> i < length (po_id (snd s)) -> state_fits a (snd s) st ->
  ends (sade_one r a (po_prob (snd s)) (length (po_id (snd s))) st i) s (stepped s st i) (fails (po_prob (snd s))).
Proof.
  intros PK V (NC & NF & NS) FD H7 Hi (L1 & L2 & EF & Lx & Lg & Lf1 & K1 & K2 & K3). pose proof V as (PO & (S1 & S2 & Fx & Ff & _) & _). set (p := po_prob (snd s)) in *. set (NP := length (po_id (snd s))) in *.
  assert (FU : full a (fun _ => True) (fun _ => True) NP (s_kept st)).
  { split; [exact K1|]. split; [exact K2|]. split; [destruct (sa_pool a); [exact I|apply K3]|]. split; [apply Forall_forall; auto|]. split; [apply Forall_forall; auto|]. unfold V_ok. destruct (sa_pool a); [exact I|apply K3]. }
  assert (FT : forall E, always (draw_F r) (fun _ => True) E) by (intros E; eapply always_weak; [apply (draw_F_range r RC E)|auto|auto]).
  destruct (prob_obj_facts p PO) as (NX & _). unfold sade_one.
  apply ends_bind. eapply ends_eng; [apply (seven_ok r RC NP _ H7)|]. intros ri g S7. cbv beta zeta.
  apply ends_bind. eapply ends_eng; [apply (adapt_ok r RC a (fun _ => True) (fun _ => True) FT (fun E => draw01_any r RC E) (fun _ => conj (fun _ => I) (fun _ => I)) PK st ri i NP _ FU S7 Hi)|].
  intros w g0 (PV & _). cbv beta zeta. pose proof (permitted_good a PK _ PV) as GV.
  apply ends_bind. eapply ends_eng; [apply (sade_trial_run r RC (fst (fst w)) (snd (fst w)) (snd w) (get_nx p)); [exact GV|lia|exact Lx|exact Lg|rewrite L1; exact S7|lia]|]. intros t0 g1 TR. cbv beta. pose proof TR as (Lt & _).
  apply ends_bind. eapply ends_eng; [apply (fbr_ok r RC p t0); auto; intros ND; right; auto|]. intros t g2 BF. cbv beta. assert (Lt' : length t = get_nx p) by (destruct BF; congruence).
  apply ends_bind. apply (ends_peval p); auto; [intros e He; now left|]. intros f EV. cbn [fst snd]. pose proof EV as (_ & Lf & _).
  rewrite NF in Lf. apply ends_bind. eapply ends_lift_ok; [apply obj_vget; exact Lf|].
  destruct (vget_in_range (po_f (snd s)) i ltac:(lia)) as (fi & Efi & Nfi). assert (Lfi : length fi = 1) by (rewrite <- NF; apply Ff; eapply nth_error_In; eauto).
  apply ends_bind. eapply ends_lift_ok; [unfold at2; rewrite EF, Efi; cbn [bind]; apply obj_vget; exact Lfi|].
  destruct (dle (obj f) (obj fi)) eqn:D.
  - apply ends_bind. eapply ends_lift_ok; [apply vset_in_range; rewrite EF; lia|]. apply ends_bind. eapply ends_lift_ok; [apply vset_in_range; lia|].
    apply ends_bind. apply ends_pset; cbn [snd fst]; [apply valid_fevals; exact V|cbn; exact Hi|exact Lt'|change (length f = get_nf p); rewrite NF; exact Lf|].
    intros c _ _. apply ends_bind. eapply ends_lift_ok; [apply vset_in_range; lia|]. apply ends_bind. eapply ends_lift_ok; [apply vset_in_range; lia|].
    apply ends_bind.
    assert (EV' : exists V', match sa_pool a with Fixed _ => rret (k_V (s_kept st)) | Among _ => rlift (vset (k_V (s_kept st)) i (fst (fst w))) end = rlift (G := G * pop P) (Ok V') /\
       match sa_pool a with Fixed _ => True | Among _ => put (k_V (s_kept st)) i (fst (fst w)) V' end).
    { destruct (sa_pool a) as [w'|l] eqn:EPL; [exists (k_V (s_kept st)); split; [reflexivity|exact I]|]. exists (upd (k_V (s_kept st)) i (fst (fst w))). split; [rewrite vset_in_range by lia; reflexivity|]. apply put_upd. lia. }
    destruct EV' as (V1 & EV1 & HV1). rewrite EV1. eapply ends_lift_ok; [reflexivity|].
    apply ends_bind. eapply ends_lift_ok; [apply obj_vget; exact Lf1|].
    destruct (dle (obj f) (obj (d_gbfit (s_de st)))); apply ends_ret; right; exists ri, (fst (fst w)), (snd (fst w)), (snd w), t0, t, f;
      cbn [s_kept k_F k_CR k_V snd fst setp po_x po_f with_fevals]; (split; [exact S7|]); (split; [exact PV|]); (split; [exact TR|]); (split; [exact BF|]); (split; [exact EV|]);
      (split; [apply put_upd; lia|]); (split; [apply put_upd; lia|]); (split; [apply put_upd; lia|]); (split; [apply put_upd; lia|]); exact HV1.
  - destruct (vget_in_range (d_old (s_de st)) i ltac:(lia)) as (xi & Exi & _).
    apply ends_bind. eapply ends_lift_ok; [exact Exi|]. apply ends_bind. eapply ends_lift_ok; [apply vset_in_range; lia|]. apply ends_ret. left. repeat split.
Qed.
End S.
Lemma reached_one a k' s' : sade_run a = (Ok k', s') -> @reached (list Z) (list Z) stream_rng (@isort) a k'.
Proof. intros E. eapply (R_evolve stream_rng (@isort) a _ (_, alg_pop7)); [apply R_new|exact alg_pop7_valid|exact AlgExamples.alg_problem_defined|exact E]. Qed.
Lemma step_fixed {G P} (r : rng G) (RC : rng_contract r) a v (s : G * pop P) st i : sa_pool a = Fixed v -> sade_ctor a = Ok (mkkept [] [] []) ->
  valid_pop (snd s) -> plain_single (po_prob (snd s)) -> fitness_defined (po_prob (snd s)) -> 7 <= length (po_id (snd s)) -> i < length (po_id (snd s)) -> state_fits a (snd s) st ->
  ends (sade_one r a (po_prob (snd s)) (length (po_id (snd s))) st i) s (fun st' s' => let p := po_prob (snd s) in
    (s_kept st' = s_kept st /\ po_x (snd s') = po_x (snd s) /\ po_f (snd s') = po_f (snd s)) \/
    exists ri F CR t x f, seven_of (length (po_id (snd s))) ri /\
      trial_of v F (get_nx p) (d_old (s_de st)) (d_gbIter (s_de st)) ri i t /\ put_back (p_lb p) (p_ub p) t x /\ evaluated p x f /\
      put (po_x (snd s)) i x (po_x (snd s')) /\ put (po_f (snd s)) i f (po_f (snd s')) /\
      put (k_F (s_kept st)) i F (k_F (s_kept st')) /\ put (k_CR (s_kept st)) i CR (k_CR (s_kept st'))) (fails (po_prob (snd s))).
Proof.
  intros EP CT V PS FD H7 Hi SF. assert (PK : pool_ok a) by (apply ctor_pool; [exact CT|rewrite EP; exact I]).
  eapply ends_weak; [apply (sade_one_step r RC a s st i PK V PS FD H7 Hi SF)| |auto]. intros st' s' [H|(ri & w & F & CR & t & x & f & A1 & A2 & A)]; [now left|]. right. rewrite EP in A2. subst w.
  exists ri, F, CR, t, x, f. destruct A as (B1 & B2 & B3 & B4 & B5 & B6 & B7 & _). repeat (split; [assumption|]). assumption.
Qed.
Lemma step_among {G P} (r : rng G) (RC : rng_contract r) a l (s : G * pop P) st i : sa_pool a = Among l -> l <> [] -> (Z.of_nat (length l) <= 2 ^ 64)%Z -> sade_ctor a = Ok (mkkept [] [] []) ->
  valid_pop (snd s) -> plain_single (po_prob (snd s)) -> fitness_defined (po_prob (snd s)) -> 7 <= length (po_id (snd s)) -> i < length (po_id (snd s)) -> state_fits a (snd s) st ->
  ends (sade_one r a (po_prob (snd s)) (length (po_id (snd s))) st i) s (fun st' s' => let p := po_prob (snd s) in
    (s_kept st' = s_kept st /\ po_x (snd s') = po_x (snd s) /\ po_f (snd s') = po_f (snd s)) \/
    exists ri v F CR t x f, seven_of (length (po_id (snd s))) ri /\ In v l /\
      trial_of v F (get_nx p) (d_old (s_de st)) (d_gbIter (s_de st)) ri i t /\ put_back (p_lb p) (p_ub p) t x /\ evaluated p x f /\
      put (po_x (snd s)) i x (po_x (snd s')) /\ put (po_f (snd s)) i f (po_f (snd s')) /\
      put (k_F (s_kept st)) i F (k_F (s_kept st')) /\ put (k_CR (s_kept st)) i CR (k_CR (s_kept st')) /\ put (k_V (s_kept st)) i v (k_V (s_kept st'))) (fails (po_prob (snd s))).
Proof.
  intros EP NE LL CT V PS FD H7 Hi SF. assert (PK : pool_ok a) by (apply ctor_pool; [exact CT|rewrite EP; auto]).
  pose proof (sade_one_step r RC a s st i PK V PS FD H7 Hi SF) as K. unfold stepped in K. rewrite EP in K. exact K.
Qed.
Lemma seven_fits : state_fits (mksade 1 (Among [3; 17]) 1 dzero dzero true) alg_pop7
  (mksst (mkdst (po_x alg_pop7) (po_f alg_pop7) (po_x alg_pop7) [Fin 2; Fin 2] [Fin 4] [Fin 2; Fin 2]) (mkkept (repeat done 7) (repeat dzero 7) (repeat 17 7)) done dzero done dzero).
Proof.
  unfold state_fits. cbn [s_de s_kept sa_pool k_V k_F k_CR d_old d_new d_fit d_gbIter d_gbfit]. split; [reflexivity|]. split; [reflexivity|]. split; [reflexivity|].
  split; [apply (proj1 (proj2 alg_pop7_valid))|]. do 5 (split; [reflexivity|]). intros v Hv. apply repeat_spec in Hv. subst v. cbn. auto.
Qed.
