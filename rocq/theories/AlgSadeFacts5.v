From Coq Require Import List Bool Arith ZArith Lia.
From Verif Require Import Dbl DblFacts IntDbl Outcome BaseFacts StdSort Problem SpecProblem ProblemFacts Rng Generic SpecGeneric GenericFacts3 SpecGenetic RmFacts
  GeneticOps GeneticFacts Population SpecPopulation PopulationFacts PopulationFacts3 Algo SpecAlgo AlgoFacts AlgoFacts2 AlgDe AlgDeFacts AlgDeFacts2 AlgSade SpecSade SpecSadeAdapt AlgSadeFacts AlgSadeFacts2 AlgSadeFacts3 AlgGwoFacts.
Import ListNotations.
Local Opaque one_z.
Section S.
Context {G : Type} (r : rng G) (RC : rng_contract r).
Lemma look_is (M : list dbl) NP ri j E : seven_of NP ri -> length M = NP -> j < 7 -> always (G := G) (rlift (bind (vget ri j) (vget M))) (fun v => v = nth (nth j ri 0) M NaN) E.
Proof.
  intros (L & _ & R) LM Hj. destruct (vget_in_range ri j ltac:(lia)) as (b & Eb & Nb). apply always_lift. rewrite Eb. cbn [bind].
  destruct (vget_in_range M b) as (v & -> & Nv); [rewrite LM; apply R; eapply nth_error_In; eauto|]. rewrite (nth_error_nth ri j 0 Nb). symmetry. now apply nth_error_nth.
Qed.
Lemma noise_is x y E : always (noise r x y) (fun v => exists z, v = push z x y) E.
Proof. unfold noise. eapply always_bind; [apply norm_any|]. intros z _. apply always_ret. now exists z. Qed.
Ltac steps := repeat (eapply always_bind; [first [apply noise_is|apply norm_any]|cbv beta; let H := fresh in intros ? H; try (destruct H as (? & ->))]); apply always_ret.
Lemma ide_F_is v i M g ri NP E : good_variant v -> seven_of NP ri -> length M = NP -> i < NP -> always (ide_F r v i M g ri) (made_by (ide_formula v) M g ri i) E.
Proof.
  intros GV. unfold ide_F. intros S7 LM Hi. destruct (vget_in_range M i ltac:(lia)) as (mi & Ei & Ni).
  eapply always_bind; [apply (always_vget _ _ mi (fun v => v = mi)); auto|]. intros m' ->. cbv zeta.
  do 7 (eapply always_bind; [apply (look_is M NP); auto; lia|cbv beta; intros ? ->]). unfold made_by. cbv zeta. rewrite (nth_error_nth M i NaN Ni). pattern v.
  apply good_cases; [exact GV|..]; cbv beta iota; steps; eexists; eexists; eexists; unfold ide_formula; cbn [strategy Nat.leb Nat.sub Nat.modulo Nat.divmod snd Nat.add Nat.div fst]; reflexivity.
  Unshelve. all: exact NaN.
Qed.
Lemma ide_CR_is v i M g ri NP E : good_variant v -> seven_of NP ri -> length M = NP -> i < NP -> always (ide_CR r v i M g ri) (made_by (ide_CR_formula v) M g ri i) E.
Proof.
  intros GV S7 LM Hi. pose proof (ide_F_is v i M g ri NP E GV S7 LM Hi) as K. revert S7 LM Hi. unfold ide_CR. intros S7 LM Hi. destruct (vget_in_range M i ltac:(lia)) as (mi & Ei & Ni).
  eapply always_bind; [apply (always_vget _ _ mi (fun v => v = mi)); auto|]. intros m' ->. cbv zeta.
  do 5 (eapply always_bind; [apply (look_is M NP); auto; lia|cbv beta; intros ? ->]). unfold made_by in *. cbv zeta in *. rewrite (nth_error_nth M i NaN Ni) in *. revert K. pattern v.
  apply good_cases; [exact GV|..]; cbv beta iota; intros K; first [exact K|steps; eexists; eexists; eexists; unfold ide_CR_formula; cbn [strategy Nat.leb Nat.sub Nat.modulo Nat.divmod snd Nat.add Nat.div fst]; reflexivity].
  Unshelve. all: exact NaN.
Qed.
Lemma sade_adapt_is a v st ri i NP : sa_pool a = Fixed v -> sade_ctor a = Ok (mkkept [] [] []) -> length (k_F (s_kept st)) = NP -> length (k_CR (s_kept st)) = NP -> seven_of NP ri -> i < NP ->
  always (adapt r a st ri i) (fun w => fst (fst w) = v /\ (sa_adptv a = 1 -> jde_new F_range (k_F (s_kept st)) i (snd (fst w)) /\ jde_new CR_range (k_CR (s_kept st)) i (snd w)) /\ (sa_adptv a = 2 -> made_by (ide_formula v) (k_F (s_kept st)) (s_iF st) ri i (snd (fst w)) /\ made_by (ide_CR_formula v) (k_CR (s_kept st)) (s_iCR st) ri i (snd w))) never.
Proof.
  intros EP CT LF LC S7 Hi. assert (GV : good_variant v). { pose proof (ctor_pool a CT) as K. rewrite EP in K. specialize (K Logic.I). unfold pool_ok in K. now rewrite EP in K. }
  unfold adapt, choose_variant. rewrite EP. eapply always_bind; [apply (always_ret v (fun x => x = v)); reflexivity|]. intros ? ->.
  destruct (Nat.eqb_spec (sa_adptv a) 1) as [E1|E1].
  - eapply always_bind; [apply (draw01_any r RC)|]. intros u _. eapply always_bind with (P := jde_new F_range (k_F (s_kept st)) i).
    { destruct (dlt u lit_0_9).
      - destruct (vget_in_range (k_F (s_kept st)) i ltac:(lia)) as (f & _ & Nf). apply (always_vget _ _ f); [exact Nf|]. left. symmetry. now apply nth_error_nth.
      - eapply always_weak; [apply (draw_F_range r RC never)| |intros e He; exact He]. intros x Hx. now right. }
    intros F HF. eapply always_bind; [apply (draw01_any r RC)|]. intros w _. eapply always_bind with (P := jde_new CR_range (k_CR (s_kept st)) i).
    { destruct (dlt w lit_0_9).
      - destruct (vget_in_range (k_CR (s_kept st)) i ltac:(lia)) as (f & _ & Nf). apply (always_vget _ _ f); [exact Nf|]. left. symmetry. now apply nth_error_nth.
      - eapply always_weak; [apply (draw01_in r RC never)| |intros e He; exact He]. intros x Hx. now right. }
    intros CR HCR. apply always_ret. cbn [fst snd]. split; [reflexivity|]. split; [auto|]. rewrite E1. discriminate.
  - eapply always_bind; [apply (ide_F_is v i _ _ ri NP); auto|]. intros F HF. eapply always_bind; [apply (ide_CR_is v i _ _ ri NP); auto|]. intros CR HCR.
    apply always_ret. cbn [fst snd]. split; [reflexivity|]. split; [congruence|auto].
Qed.
End S.
