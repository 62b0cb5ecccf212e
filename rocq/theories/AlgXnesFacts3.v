From Coq Require Import List Bool Arith ZArith Lia Permutation.
From Verif Require Import Dbl DblFacts IntDbl Outcome StdSort Problem SpecProblem Rng SpecGeneric SpecGenetic Population SpecPopulation Algo SpecAlgo SpecNsga2 AlgoFacts AlgoFacts2 AlgEigen AlgMem AlgCmaes SpecCmaes AlgCmaesFacts AlgCmaesFacts2 AlgCmaesFacts3 AlgXnes SpecXnes AlgXnesFacts AlgXnesFacts2.
Import ListNotations.
Section S.
Context {G P : Type} (r : rng G) (RC : rng_contract r) (srt : sorter) (SC : sort_contract srt) (K : eigen) (KC : eigen_contract K) (reseed : problem -> Z -> problem) (a : xnes_params).
Notation ST := ((G * xmem) * pop P)%type.
Lemma xnes_all_generations (s : ST) : xnes_ready (snd (fst s)) -> es_suits 4 (snd s) -> es_problem reseed None (po_prob (snd s)) -> never_nan reseed (po_prob (snd s)) ->
  (xn_ftol a = NaN \/ dle (xn_ftol a) dzero = true) -> (xn_xtol a = NaN \/ dle (xn_xtol a) dzero = true) ->
  ends (xnes_evolve r srt K reseed a) s (fun _ t => es_run reseed (forced (xn_force a) (po_prob (snd s))) (xn_gen a) (snd s) (snd t)) (es_throws reseed (po_prob (snd s))).
Proof.
  intros RK SU EP NN HF HX. destruct (Nat.eq_dec (xn_gen a) 0) as [E0|E0].
  - unfold ends_w. rewrite (xnes_zero r srt K reseed a s SU E0). rewrite E0. apply es_run_0. apply SU.
  - eapply ends_weak; [apply (xnes_evolve_ok r RC srt SC K KC reseed a s RK SU EP NN); lia| |intros e He; exact He]. intros [] t (_ & n & N1 & N2 & N3).
    destruct (Nat.eq_dec n (xn_gen a)) as [->|NE]; [exact N2|]. destruct (N3 ltac:(lia)) as [(b & w & fb & fw & _ & _ & _ & _ & D)|(z & st & _ & _ & D)].
    + rewrite (not_below_zero (xn_ftol a) _ HF (dabs_not_neg _)) in D. discriminate.
    + rewrite (not_below_zero (xn_xtol a) _ HX (dsqrt_not_neg _)) in D. discriminate.
Qed.
End S.
Lemma xn_generation_one G P (r : rng G) : rng_contract r -> forall srt, sort_contract srt -> forall K, eigen_contract K -> forall reseed a (s : (G * xmem) * pop P),
  xmem_sized (get_nx (po_prob (snd s))) (snd (fst s)) -> es_suits 4 (snd s) -> es_problem reseed None (po_prob (snd s)) -> never_nan reseed (po_prob (snd s)) ->
  ends (xn_generation r srt K reseed a) s
    (fun go t => xmem_sized (get_nx (po_prob (snd s))) (snd (fst t)) /\ es_run reseed (forced (xn_force a) (po_prob (snd s))) 1 (snd s) (snd t) /\
       if go then xlearns K (xn_force a) (po_prob (snd s)) (xn_rate_mu a) (xn_utilities K (length (po_id (snd s)))) (snd (fst s)) (snd t) (snd (fst t))
       else snd (fst t) = snd (fst s) /\ (flat_f srt (xn_ftol a) (snd t) \/ xshort_step K (xn_xtol a) (get_nx (po_prob (snd s))) (snd (fst t))))
    (es_throws reseed (po_prob (snd s))).
Proof.
  intros RC srt SC K KC reseed a s R (V & _ & _ & HN & _) EP NN.
  eapply ends_weak; [apply (xn_generation_ok r RC srt SC K KC reseed a (po_prob (snd s)) EP NN s [])| |intros e He; exact He]; auto; [intros _; reflexivity|].
  intros go t (Rt & Ht & Hg). split; [exact Rt|]. split; [|exact Hg].
  apply (es_run_step reseed (po_prob (snd s)) _ 0 (snd s) (snd s)); [reflexivity|apply es_run_0; exact V|exact Ht].
Qed.
