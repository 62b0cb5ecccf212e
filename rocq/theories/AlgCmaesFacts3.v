From Coq Require Import List Bool Arith ZArith Lia Permutation.
From Verif Require Import Dbl DblFacts IntDbl Outcome StdSort Problem SpecProblem Rng SpecGeneric SpecGenetic Population SpecPopulation Algo SpecAlgo SpecNsga2 AlgoFacts AlgoFacts2 AlgGaco AlgGacoFacts3 AlgEigen AlgMem AlgCmaes SpecCmaes AlgCmaesFacts AlgCmaesFacts2.
Import ListNotations.

Lemma dsqrt_not_neg y : dlt (dsqrt y) dzero = false.
Proof.
  destruct y as [| |z|]; try reflexivity. unfold dsqrt. destruct (Z.ltb_spec z 0); [reflexivity|]. cbv zeta.
  match goal with |- dlt (rnd ?n ?d) _ = _ => destruct (rnd_pos n d) as [->|(w & -> & Hw)] end; [|reflexivity|reflexivity|].
  - pose proof one_z_pos. assert (0 <= z * one_z * 2 ^ 120)%Z by (apply Z.mul_nonneg_nonneg; [apply Z.mul_nonneg_nonneg; lia|apply Z.pow_nonneg; lia]). pose proof (Z.sqrt_nonneg (z * one_z * 2 ^ 120)). destruct (_ =? _)%Z; lia.
  - unfold dzero, dlt. apply Z.ltb_ge. exact Hw.
Qed.
Lemma dabs_not_neg y : dlt (dabs y) dzero = false.
Proof. destruct y as [| |z|]; try reflexivity. cbn. apply Z.ltb_ge. apply Z.abs_nonneg. Qed.
Lemma not_below_zero t y : t = NaN \/ dle t dzero = true -> dlt y dzero = false -> dlt y t = false.
Proof.
  intros [->|H] K; [destruct y; reflexivity|]. destruct y as [| |z|], t as [| |w|]; try reflexivity; try discriminate. apply dle_fin in H. cbn in *. rewrite Z.ltb_ge in *. lia.
Qed.

Section S.
Context {G P : Type} (r : rng G) (RC : rng_contract r) (srt : sorter) (SC : sort_contract srt) (K : eigen) (KC : eigen_contract K) (reseed : problem -> Z -> problem) (a : cmaes_params).
Notation ST := ((G * cmem) * pop P)%type.
Lemma cmaes_all_generations bfe (s : ST) : cmaes_ready (snd (fst s)) -> es_suits 5 (snd s) -> es_problem reseed bfe (po_prob (snd s)) ->
  (cm_ftol a = NaN \/ dle (cm_ftol a) dzero = true) -> (cm_xtol a = NaN \/ dle (cm_xtol a) dzero = true) ->
  ends (cmaes_evolve r srt K reseed a bfe) s (fun _ t => es_run reseed (forced (cm_force a) (po_prob (snd s))) (cm_gen a) (snd s) (snd t)) (es_throws reseed (po_prob (snd s))).
Proof.
  intros RK SU EP HF HX. destruct (Nat.eq_dec (cm_gen a) 0) as [E0|E0].
  - unfold ends_w. rewrite (cmaes_zero r srt K reseed a bfe s SU E0). rewrite E0. apply es_run_0. apply SU.
  - eapply ends_weak; [apply (cmaes_evolve_ok r RC srt SC K KC reseed a bfe s RK SU EP); lia| |intros e He; exact He]. intros [] t (_ & n & N1 & N2 & N3).
    destruct (Nat.eq_dec n (cm_gen a)) as [->|NE]; [exact N2|]. destruct (N3 ltac:(lia)) as [(b & w & fb & fw & _ & _ & _ & _ & D)|(z & bd & st & _ & _ & _ & D)].
    + rewrite (not_below_zero (cm_ftol a) _ HF (dabs_not_neg _)) in D. discriminate.
    + rewrite (not_below_zero (cm_xtol a) _ HX (dsqrt_not_neg _)) in D. discriminate.
Qed.
End S.

Lemma es_generation G P (r : rng G) : rng_contract r -> forall srt, sort_contract srt -> forall K, eigen_contract K -> forall reseed a bfe (s : (G * cmem) * pop P),
  cmem_sized (get_nx (po_prob (snd s))) (snd (fst s)) -> es_suits 5 (snd s) -> es_problem reseed bfe (po_prob (snd s)) ->
  ends (cm_generation r srt K reseed a bfe (cm_rates K a (length (po_id (snd s)) / 2) (get_nx (po_prob (snd s))))) s
    (fun go t => cmem_sized (get_nx (po_prob (snd s))) (snd (fst t)) /\
       if go then es_run reseed (forced (cm_force a) (po_prob (snd s))) 1 (snd s) (snd t) /\
                  cm_learns K (cm_force a) (po_prob (snd s)) (cm_weights K (length (po_id (snd s)) / 2)) (snd (fst s)) (snd t) (snd (fst t))
       else snd t = snd s /\ (flat_f srt (cm_ftol a) (snd s) \/ short_step K (cm_xtol a) (get_nx (po_prob (snd s))) (snd (fst t))))
    (es_throws reseed (po_prob (snd s))).
Proof.
  intros RC srt SC K KC reseed a bfe s R (V & _ & _ & HN & _) EP.
  eapply ends_weak; [apply (cm_generation_ok r RC srt SC K KC reseed a (po_prob (snd s)) bfe EP _ s [])| |intros e He; exact He]; auto.
  - intros _. reflexivity.
  - apply rates_len.
  - intros [|] t (Rt & Ht); (split; [exact Rt|]); [|exact Ht]. destruct Ht as (H1 & H2). split; [|exact H2].
    apply (es_run_step reseed (po_prob (snd s)) _ 0 (snd s) (snd s)); [reflexivity|apply es_run_0; exact V|exact H1].
Qed.
