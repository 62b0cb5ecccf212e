(** C83 and C84: self-adaptive differential evolution, sade and de1220. *)
From Coq Require Import List Bool Arith ZArith.
From Verif Require Import Dbl Outcome StdSort Problem SpecProblem Rng GenericFacts3 SpecGeneric SpecGenetic Population SpecPopulation Algo SpecAlgo AlgDe AlgSade SpecSade
  AlgSadeFacts AlgSadeFacts2 AlgSadeFacts3 AlgSadeFacts4 AlgExamples SpecSadeAdapt AlgSadeFacts5.
Import ListNotations.

(** sade's constructor accepts exactly the variants 1 to 18 and the adaptation schemes 1 and 2;
    de1220's the lists of such variants. *)
Theorem C83_constructor : forall a v, sa_pool a = Fixed v ->
  (sade_ctor a = Ok (mkkept [] [] []) \/ sade_ctor a = Throw InvalidArgument) /\ (sade_ctor a = Ok (mkkept [] [] []) <-> 1 <= v <= 18 /\ (sa_adptv a = 1 \/ sa_adptv a = 2)).
Proof. exact ctor_sade. Qed.
Print Assumptions C83_constructor.
Theorem C84_constructor : forall a l, sa_pool a = Among l ->
  (sade_ctor a = Ok (mkkept [] [] []) \/ sade_ctor a = Throw InvalidArgument) /\ (sade_ctor a = Ok (mkkept [] [] []) <-> (forall v, In v l -> 1 <= v <= 18) /\ (sa_adptv a = 1 \/ sa_adptv a = 2)).
Proof. exact ctor_de1220. Qed.
Print Assumptions C84_constructor.
Example C84_constructor_nonvacuous : sade_ctor (mksade 1 (Among [2; 18]) 1 dzero dzero false) = Ok (mkkept [] [] []) /\ sade_ctor (mksade 1 (Among [2; 19]) 1 dzero dzero false) = Throw InvalidArgument.
Proof. exact (conj eq_refl eq_refl). Qed.

(** Unsuitable problems and populations are rejected before anything is changed; zero
    generations change nothing, not even what is kept. (Both algorithms.) *)
Theorem C83_rejects : forall G P (r : rng G) srt a k (s : G * pop P),
  ~ plain_single (po_prob (snd s)) \/ (0 < sa_gen a /\ length (po_id (snd s)) < 7) -> sade_evolve r srt a k s = (Throw InvalidArgument, s).
Proof. exact @sade_rejects. Qed.
Print Assumptions C83_rejects.
Theorem C83_no_generations : forall G P (r : rng G) srt a k (s : G * pop P),
  plain_single (po_prob (snd s)) -> sa_gen a = 0 -> sade_evolve r srt a k s = (Ok k, s).
Proof. exact @sade_zero. Qed.
Print Assumptions C83_no_generations.
Example C83_rejects_nonvacuous : plain_single alg_problem /\ length (po_id alg_pop) < 7.
Proof. exact (conj alg_problem_plain (le_S _ _ (le_n 6))). Qed.

(** Otherwise, whatever the random numbers and whatever is kept from earlier calls, evolve ends:
    in an exception of the user's fitness function (or one caused by bounds between which no
    number can be drawn), or with a population where every individual is the old one or an
    evaluated point of the box not worse than it, after a whole number of generations of NP
    evaluations; fewer than asked only if the population has become flat. *)
Theorem C83_evolve : forall G P (r : rng G), rng_contract r -> forall srt a v k (s : G * pop P), sa_pool a = Fixed v -> sade_ctor a = Ok (mkkept [] [] []) ->
  valid_pop (snd s) -> plain_single (po_prob (snd s)) -> fitness_defined (po_prob (snd s)) -> 0 < sa_gen a -> 7 <= length (po_id (snd s)) ->
  ends (sade_evolve r srt a k) s (sade_result srt a (in_box_or_nan (p_lb (po_prob (snd s))) (p_ub (po_prob (snd s)))) s) (fails (po_prob (snd s))).
Proof. exact @sade_any. Qed.
Print Assumptions C83_evolve.
(** de1220 needs an allowed variant; it keeps one for every individual. *)
Theorem C84_evolve : forall G P (r : rng G), rng_contract r -> forall srt a l k (s : G * pop P), sa_pool a = Among l -> l <> [] -> (Z.of_nat (length l) <= 2 ^ 64)%Z -> sade_ctor a = Ok (mkkept [] [] []) ->
  @reached G P r srt a k -> valid_pop (snd s) -> plain_single (po_prob (snd s)) -> fitness_defined (po_prob (snd s)) -> 0 < sa_gen a -> 7 <= length (po_id (snd s)) ->
  ends (sade_evolve r srt a k) s (fun k' s' => sade_result srt a (in_box_or_nan (p_lb (po_prob (snd s))) (p_ub (po_prob (snd s)))) s k' s' /\
    length (k_V k') = length (po_id (snd s)) /\ forall v, In v (k_V k') -> In v l) (fails (po_prob (snd s))).
Proof. exact @de1220_any. Qed.
Print Assumptions C84_evolve.
(** With no allowed variant the constructor succeeds and evolve reads outside of the empty list. *)
Theorem C84_empty_refuted : exists a, sade_ctor a = Ok (mkkept [] [] []) /\ sa_pool a = Among [] /\ 0 < sa_gen a /\
  forall G P (r : rng G) srt (s : G * pop P), rng_contract r -> valid_pop (snd s) -> plain_single (po_prob (snd s)) -> 7 <= length (po_id (snd s)) ->
    fst (sade_evolve r srt a (mkkept [] [] []) s) = UB.
Proof. exact de1220_empty. Qed.
Print Assumptions C84_empty_refuted.
(** With jDE (scheme 1) and bounds below 2^1019 the new points are in the box. *)
Theorem C83_evolve_in_box : forall G P (r : rng G), rng_contract r -> forall srt a v k (s : G * pop P), sa_pool a = Fixed v -> sade_ctor a = Ok (mkkept [] [] []) -> sa_adptv a = 1 ->
  @reached G P r srt a k -> valid_pop (snd s) -> plain_single (po_prob (snd s)) -> fitness_defined (po_prob (snd s)) -> 0 < sa_gen a -> 7 <= length (po_id (snd s)) ->
  (forall l, In l (p_lb (po_prob (snd s))) -> below_2p1019 l) -> (forall u, In u (p_ub (po_prob (snd s))) -> below_2p1019 u) ->
  (forall x, In x (po_x (snd s)) -> in_box (p_lb (po_prob (snd s))) (p_ub (po_prob (snd s))) x) ->
  ends (sade_evolve r srt a k) s (sade_result srt a (in_box (p_lb (po_prob (snd s))) (p_ub (po_prob (snd s)))) s) (fails (po_prob (snd s))).
Proof. exact @sade_box. Qed.
Print Assumptions C83_evolve_in_box.
Theorem C84_evolve_in_box : forall G P (r : rng G), rng_contract r -> forall srt a l k (s : G * pop P), sa_pool a = Among l -> l <> [] -> (Z.of_nat (length l) <= 2 ^ 64)%Z -> sade_ctor a = Ok (mkkept [] [] []) -> sa_adptv a = 1 ->
  @reached G P r srt a k -> valid_pop (snd s) -> plain_single (po_prob (snd s)) -> fitness_defined (po_prob (snd s)) -> 0 < sa_gen a -> 7 <= length (po_id (snd s)) ->
  (forall l, In l (p_lb (po_prob (snd s))) -> below_2p1019 l) -> (forall u, In u (p_ub (po_prob (snd s))) -> below_2p1019 u) ->
  (forall x, In x (po_x (snd s)) -> in_box (p_lb (po_prob (snd s))) (p_ub (po_prob (snd s))) x) ->
  ends (sade_evolve r srt a k) s (sade_result srt a (in_box (p_lb (po_prob (snd s))) (p_ub (po_prob (snd s)))) s) (fails (po_prob (snd s))).
Proof. exact @de1220_box. Qed.
Print Assumptions C84_evolve_in_box.
(** All hypotheses hold for this population of seven, and no exception is possible; a run. *)
Example C83_evolve_nonvacuous : valid_pop alg_pop7 /\ po_prob alg_pop7 = alg_problem /\ plain_single alg_problem /\ fitness_defined alg_problem /\
  sade_ctor (mksade 1 (Fixed 2) 1 dzero dzero true) = Ok (mkkept [] [] []) /\ sade_ctor (mksade 1 (Among [3; 17]) 2 dzero dzero true) = Ok (mkkept [] [] []) /\ 7 <= length (po_id alg_pop7) /\
  (Forall below_2p1019 (p_lb alg_problem) /\ Forall below_2p1019 (p_ub alg_problem)) /\
  (forall x, In x (po_x alg_pop7) -> in_box (p_lb alg_problem) (p_ub alg_problem) x) /\ (forall e, ~ fails alg_problem e) /\ rng_contract stream_rng.
Proof.
  exact (conj alg_pop7_valid (conj eq_refl (conj alg_problem_plain (conj alg_problem_defined (conj eq_refl (conj eq_refl (conj (le_n 7) (conj alg_problem_below
    (conj alg_pop7_in_box (conj alg_problem_no_fail stream_contract)))))))))).
Qed.
Example C84_evolve_nonvacuous : match fst (sade_run (mksade 1 (Among [3; 17]) 2 dzero dzero true)) with Ok k => k_V k | _ => [] end = [3; 3; 3; 3; 3; 3; 3].
Proof. vm_compute. reflexivity. Qed.

(** In every history of an algorithm object, jDE keeps every F between 0.1 and 1 and every CR
    between 0 and 1. *)
Theorem C83_ranges : forall G P (r : rng G), rng_contract r -> forall srt a v k, sa_pool a = Fixed v -> sade_ctor a = Ok (mkkept [] [] []) -> sa_adptv a = 1 ->
  @reached G P r srt a k -> Forall F_range (k_F k) /\ Forall CR_range (k_CR k).
Proof. exact @sade_ranges. Qed.
Print Assumptions C83_ranges.
(** So does de1220, and every kept variant is an allowed one, with both schemes. *)
Theorem C84_ranges : forall G P (r : rng G), rng_contract r -> forall srt a l k, sa_pool a = Among l -> l <> [] -> (Z.of_nat (length l) <= 2 ^ 64)%Z -> sade_ctor a = Ok (mkkept [] [] []) ->
  @reached G P r srt a k -> (forall v, In v (k_V k) -> In v l) /\ (sa_adptv a = 1 -> Forall F_range (k_F k) /\ Forall CR_range (k_CR k)).
Proof. exact @de1220_ranges. Qed.
Print Assumptions C84_ranges.
Example C83_ranges_nonvacuous : match fst (sade_run (mksade 1 (Fixed 2) 1 dzero dzero true)) with Ok k => Some (length (k_F k)) | _ => None end = Some 7.
Proof. vm_compute. reflexivity. Qed.
Example C84_ranges_nonvacuous : forall k' s', sade_run (mksade 1 (Among [3; 17]) 2 dzero dzero true) = (Ok k', s') -> @reached (list Z) (list Z) stream_rng (@isort) (mksade 1 (Among [3; 17]) 2 dzero dzero true) k'.
Proof. exact (reached_one _). Qed.

(** Without memory, or when the population has another size than the last one, the result
    does not depend on what is kept. (Both algorithms.) *)
Theorem C83_forgets : forall G P (r : rng G) srt a k k' (s : G * pop P), 0 < sa_gen a ->
  sa_memory a = false \/ (length (k_F k) <> length (po_id (snd s)) /\ length (k_F k') <> length (po_id (snd s))) ->
  sade_evolve r srt a k s = sade_evolve r srt a k' s.
Proof. exact @sade_forgets. Qed.
Print Assumptions C83_forgets.
Example C83_forgets_nonvacuous : 0 < sa_gen (mksade 1 (Fixed 2) 1 dzero dzero false) /\ sa_memory (mksade 1 (Fixed 2) 1 dzero dzero false) = false.
Proof. exact (conj (le_n 1) eq_refl). Qed.

(** The seven individuals used for a trial vector are different. *)
Theorem C83_seven_distinct : forall G (r : rng G), rng_contract r -> forall NP, 7 <= NP -> always (pick_seven r NP) (seven_of NP) never.
Proof. exact (fun G r RC NP => seven_ok r RC NP never). Qed.
Print Assumptions C83_seven_distinct.
Example C83_seven_distinct_nonvacuous : fst (pick_seven stream_rng 7 [3; 3; 0; 1; 0; 0; 0]%Z) = Ok [3; 6; 0; 1; 4; 2; 5].
Proof. vm_compute. reflexivity. Qed.
(** The trial vector, for all eighteen variants *)
Theorem C83_trial : forall G (r : rng G), rng_contract r -> forall v F CR dim old gb ri i,
  1 <= v <= 18 -> 1 <= dim -> (forall x, In x old -> length x = dim) -> length gb = dim -> seven_of (length old) ri -> i < length old ->
  always (sade_trial r v F CR dim old gb ri i) (trial_of v F dim old gb ri i) never.
Proof. exact (fun G r RC v F CR dim old gb ri i => sade_trial_run r RC v F CR dim old gb ri i never). Qed.
Print Assumptions C83_trial.
Example C83_trial_nonvacuous : fst (sade_trial stream_rng 2 dzero dzero 2 [[Fin 1; Fin 2]; [Fin 3; Fin 4]; [Fin 5; Fin 6]; [Fin 7; Fin 8]; [Fin 9; Fin 10]; [Fin 1; Fin 3]; [Fin 1; Fin 4]] [Fin 1; Fin 2] [4; 1; 0; 2; 3; 6; 5] 0 [1]%Z) = Ok [Fin 1; Fin 10].
Proof. vm_compute. reflexivity. Qed.
(** The parameters a trial vector is made with. jDE takes those kept for the individual or draws
    new ones in their ranges; iDE applies the formula of the variant to the kept parameters. *)
Theorem C83_adaptation : forall G (r : rng G), rng_contract r -> forall a v st ri i NP,
  sa_pool a = Fixed v -> sade_ctor a = Ok (mkkept [] [] []) -> length (k_F (s_kept st)) = NP -> length (k_CR (s_kept st)) = NP -> seven_of NP ri -> i < NP ->
  always (adapt r a st ri i) (fun w => fst (fst w) = v /\
    (sa_adptv a = 1 -> jde_new F_range (k_F (s_kept st)) i (snd (fst w)) /\ jde_new CR_range (k_CR (s_kept st)) i (snd w)) /\
    (sa_adptv a = 2 -> made_by (ide_formula v) (k_F (s_kept st)) (s_iF st) ri i (snd (fst w)) /\ made_by (ide_CR_formula v) (k_CR (s_kept st)) (s_iCR st) ri i (snd w))) never.
Proof. exact @sade_adapt_is. Qed.
Print Assumptions C83_adaptation.
Example C83_adaptation_nonvacuous : seven_of 7 [4; 1; 0; 2; 3; 6; 5] /\ sade_ctor (mksade 1 (Fixed 17) 2 dzero dzero true) = Ok (mkkept [] [] []).
Proof. split; [|reflexivity]. split; [reflexivity|]. split; [repeat constructor; cbn; intuition discriminate|]. intros x Hx. cbn in Hx. repeat (destruct Hx as [<-|Hx]; [repeat constructor|]). destruct Hx. Qed.
(** One individual: either it stays and its parameters stay, or it is replaced by a trial vector
    (put back into the box) and the parameters kept for it are those the trial was made with. *)
Theorem C83_step : forall G P (r : rng G), rng_contract r -> forall a v (s : G * pop P) st i, sa_pool a = Fixed v -> sade_ctor a = Ok (mkkept [] [] []) ->
  valid_pop (snd s) -> plain_single (po_prob (snd s)) -> fitness_defined (po_prob (snd s)) -> 7 <= length (po_id (snd s)) -> i < length (po_id (snd s)) -> state_fits a (snd s) st ->
  ends (sade_one r a (po_prob (snd s)) (length (po_id (snd s))) st i) s (fun st' s' => let p := po_prob (snd s) in
    (s_kept st' = s_kept st /\ po_x (snd s') = po_x (snd s) /\ po_f (snd s') = po_f (snd s)) \/
    exists ri F CR t x f, seven_of (length (po_id (snd s))) ri /\
      trial_of v F (get_nx p) (d_old (s_de st)) (d_gbIter (s_de st)) ri i t /\ put_back (p_lb p) (p_ub p) t x /\ evaluated p x f /\
      put (po_x (snd s)) i x (po_x (snd s')) /\ put (po_f (snd s)) i f (po_f (snd s')) /\
      put (k_F (s_kept st)) i F (k_F (s_kept st')) /\ put (k_CR (s_kept st)) i CR (k_CR (s_kept st'))) (fails (po_prob (snd s))).
Proof. exact @step_fixed. Qed.
Print Assumptions C83_step.
Theorem C84_step : forall G P (r : rng G), rng_contract r -> forall a l (s : G * pop P) st i, sa_pool a = Among l -> l <> [] -> (Z.of_nat (length l) <= 2 ^ 64)%Z -> sade_ctor a = Ok (mkkept [] [] []) ->
  valid_pop (snd s) -> plain_single (po_prob (snd s)) -> fitness_defined (po_prob (snd s)) -> 7 <= length (po_id (snd s)) -> i < length (po_id (snd s)) -> state_fits a (snd s) st ->
  ends (sade_one r a (po_prob (snd s)) (length (po_id (snd s))) st i) s (fun st' s' => let p := po_prob (snd s) in
    (s_kept st' = s_kept st /\ po_x (snd s') = po_x (snd s) /\ po_f (snd s') = po_f (snd s)) \/
    exists ri v F CR t x f, seven_of (length (po_id (snd s))) ri /\ In v l /\
      trial_of v F (get_nx p) (d_old (s_de st)) (d_gbIter (s_de st)) ri i t /\ put_back (p_lb p) (p_ub p) t x /\ evaluated p x f /\
      put (po_x (snd s)) i x (po_x (snd s')) /\ put (po_f (snd s)) i f (po_f (snd s')) /\
      put (k_F (s_kept st)) i F (k_F (s_kept st')) /\ put (k_CR (s_kept st)) i CR (k_CR (s_kept st')) /\ put (k_V (s_kept st)) i v (k_V (s_kept st'))) (fails (po_prob (snd s))).
Proof. exact @step_among. Qed.
Print Assumptions C84_step.
Example C84_step_nonvacuous : state_fits (mksade 1 (Among [3; 17]) 1 dzero dzero true) alg_pop7
  (mksst (mkdst (po_x alg_pop7) (po_f alg_pop7) (po_x alg_pop7) [Fin 2; Fin 2] [Fin 4] [Fin 2; Fin 2]) (mkkept (repeat done 7) (repeat dzero 7) (repeat 17 7)) done dzero done dzero).
Proof. exact seven_fits. Qed.
