From Coq Require Import List Bool Arith ZArith Lia Permutation.
From Verif Require Import Dbl DblFacts IntDbl Outcome BaseFacts StdSort Compare SpecOrder CompareFacts DominanceFacts MultiObj SpecMultiObj FndsFacts CrowdFacts MultiObjFacts MultiObjFacts2 MultiObjFacts3 Problem SpecProblem Rng Generic SpecGeneric GenericFacts
  SpecGenetic RmFacts GeneticOps GeneticFacts GeneticFacts2 Population SpecPopulation PopulationFacts ProblemFacts ProblemFacts2 Algo SpecAlgo AlgoFacts AlgoFacts2 AlgDeFacts AlgSga SpecSga AlgSgaFacts2 AlgSgaFacts4 AlgNsga2 SpecNsga2 AlgNsga2Facts AlgNsga2Facts2.
Import ListNotations.

Lemma mo_obj p : get_nc p = 0 -> p_nobj p = get_nf p.
Proof. unfold get_nf, get_nc. lia. Qed.

Section Run.
Context {G P : Type} (r : rng G) (RC : rng_contract r) (srt : sorter) (HS : sort_contract srt) (pw : dbl -> dbl -> dbl) (shuf : forall A, list A -> G -> list A * G) (SC : shuffle_contract shuf) (a : nsga2_params).

(** The operators keep Pre. *)
Record varies (p : problem) (Pre : list dbl -> Prop) : Prop := {
  va_sbx : forall x y, Pre x -> Pre y -> always (sbx_crossover_impl r pw x y (p_lb p) (p_ub p) (p_nix p) (ns_cr a) (ns_eta_c a)) (fun cs => Pre (fst cs) /\ Pre (snd cs)) never;
  va_mut : forall c, Pre c -> always (polynomial_mutation_impl r pw c (p_lb p) (p_ub p) (p_nix p) (ns_m a) (ns_eta_m a)) Pre (mo_fails p);
  va_len : forall x, Pre x -> length x = get_nx p }.

Definition ranked (n : nat) (rk : list nat * list dbl) : Prop := length (fst rk) = n /\ length (snd rk) = n.
Definition shuffled (n : nat) (sh : list nat) : Prop := Permutation (seq 0 n) sh.

Lemma pair_ok p Pre X rk sh i : varies p Pre -> (forall x, In x X -> Pre x) -> ranked (length X) rk -> shuffled (length X) sh -> i + 3 < length X ->
  always (nsga2_pair r pw a X (p_lb p) (p_ub p) (p_nix p) (fst rk) (snd rk) sh i) (fun cs => Pre (fst cs) /\ Pre (snd cs)) (mo_fails p).
Proof.
  intros VA HX (R1 & R2) HSH Hi. pose proof (Permutation_length HSH) as LS. rewrite seq_length in LS.
  assert (T : forall k, k < length X -> exists v, vget sh k = Ok v /\ v < length X). { intros k Hk. destruct (vget_in_range sh k ltac:(lia)) as (v & Ev & Nv). exists v. split; [exact Ev|]. apply nth_error_In in Nv. apply (Permutation_in _ (Permutation_sym HSH)), in_seq in Nv. lia. }
  assert (W : forall u v, u < length X -> v < length X -> always (tournament r u v (fst rk) (snd rk)) (fun k => k < length X) (mo_fails p)).
  { intros u v Hu Hv. destruct (nth_ex (fst rk) u ltac:(lia)) as (ru & N1). destruct (nth_ex (fst rk) v ltac:(lia)) as (rv & N2). destruct (nth_ex (snd rk) u ltac:(lia)) as (cu & N3). destruct (nth_ex (snd rk) v ltac:(lia)) as (cv & N4).
    eapply always_weak; [exact (tournament_ok r RC u v (fst rk) (snd rk) ru rv cu cv N1 N2 N3 N4)| |contradiction]. intros k ([-> | ->] & _); assumption. }
  unfold nsga2_pair. destruct (T i ltac:(lia)) as (a1 & -> & H1). destruct (T (i + 1) ltac:(lia)) as (a2 & -> & H2). destruct (T (i + 2) ltac:(lia)) as (b1 & -> & H3). destruct (T (i + 3) ltac:(lia)) as (b2 & -> & H4).
  eapply always_bind; [apply (always_lift _ (fun v => v = a1)); reflexivity|]. intros ? ->. eapply always_bind; [apply (always_lift _ (fun v => v = a2)); reflexivity|]. intros ? ->.
  eapply always_bind; [apply W; assumption|]. intros k1 K1. eapply always_bind; [apply (always_lift _ (fun v => v = b1)); reflexivity|]. intros ? ->. eapply always_bind; [apply (always_lift _ (fun v => v = b2)); reflexivity|]. intros ? ->.
  eapply always_bind; [apply W; assumption|]. intros k2 K2. destruct (vget_in_range X k1 K1) as (x1 & -> & N1). destruct (vget_in_range X k2 K2) as (x2 & -> & N2).
  eapply always_bind; [apply (always_lift _ (fun v => v = x1)); reflexivity|]. intros ? ->. eapply always_bind; [apply (always_lift _ (fun v => v = x2)); reflexivity|]. intros ? ->.
  eapply always_bind; [eapply always_weak; [apply (va_sbx _ _ VA); apply HX; eapply nth_error_In; eauto|intros cs H; exact H|contradiction]|]. intros cs (P1 & P2).
  eapply always_bind; [apply (va_mut _ _ VA); exact P1|]. intros c1 Q1. eapply always_bind; [apply (va_mut _ _ VA); exact P2|]. intros c2 Q2. apply always_ret. split; assumption.
Qed.

(** ** The sequential breeding *)
(** st holds X0, F0 and n more evaluated points that Pre allows. *)
Definition bred p (Pre : list dbl -> Prop) (X0 F0 : list (list dbl)) n (st : list (list dbl) * list (list dbl)) : Prop :=
  exists X F, st = (X0 ++ X, F0 ++ F) /\ length X = n /\ Forall2 (evaluated p) X F /\ forall x, In x X -> Pre x.
Lemma two_ok p (Pre : list dbl -> Prop) X0 F0 n st (m : RM G (list dbl * list dbl)) (s : G * pop P) : (forall x, Pre x -> length x = get_nx p) -> fitness_defined p -> po_prob (snd s) = p ->
  always m (fun cs => Pre (fst cs) /\ Pre (snd cs)) (mo_fails p) -> bred p Pre X0 F0 n st ->
  ends (nsga2_two m st) s (fun st' s' => bred p Pre X0 F0 (n + 2) st' /\ evals 2 (snd s) (snd s') /\ exists g c, s' = (g, with_fevals (snd s) c)) (mo_fails p).
Proof.
  intros VL FD EP Hm (X & F & -> & LX & EV & HX). unfold nsga2_two. apply ends_bind. apply (ends_eng m s _ _ _ Hm). intros cs g (P1 & P2).
  apply ends_bind. apply (ends_peval p); [exact EP|exact FD|apply VL, P1|intros e He; now left|]. intros f1 E1. apply ends_bind. cbn [fst snd].
  apply (ends_peval p); [exact EP|exact FD|apply VL, P2|intros e He; now left|]. intros f2 E2. apply ends_ret. cbn [fst snd]. split; [|split].
  - exists (X ++ [fst cs; snd cs]), (F ++ [f1; f2]). rewrite <- !app_assoc. split; [reflexivity|]. split; [rewrite app_length; cbn; lia|]. split; [apply Forall2_app; auto|].
    intros x Hx. apply in_app_or in Hx. destruct Hx as [Hx|[<-|[<-|[]]]]; auto.
  - apply (evals_S 1). apply (evals_S 0). apply evals_0.
  - exists g. eexists. reflexivity.
Qed.
Lemma breed_ok p Pre rk sh1 sh2 (s : G * pop P) : varies p Pre -> fitness_defined p -> po_prob (snd s) = p -> valid_pop (snd s) -> (forall x, In x (po_x (snd s)) -> Pre x) ->
  ranked (length (po_id (snd s))) rk -> shuffled (length (po_id (snd s))) sh1 -> shuffled (length (po_id (snd s))) sh2 -> mo_size (length (po_id (snd s))) ->
  ends (nsga2_breed r pw a None rk sh1 sh2) s (fun st s' => bred p Pre (po_x (snd s)) (po_f (snd s)) (length (po_id (snd s))) st /\ evals (length (po_id (snd s))) (snd s) (snd s') /\ exists g c, s' = (g, with_fevals (snd s) c)) (mo_fails p).
Proof.
  intros VA FD EP V HX RK S1 S2 (_ & k & HN). pose proof V as (_ & (L1 & L2 & _) & _). unfold nsga2_breed. apply ends_bind, ends_getp. cbv zeta. rewrite EP.
  assert (Ek : length (po_id (snd s)) / 4 = k) by (rewrite HN, Nat.mul_comm; apply Nat.div_mul; lia). rewrite Ek.
  eapply ends_weak; [apply (ends_seq _ (fun h st (t : G * pop P) => bred p Pre (po_x (snd s)) (po_f (snd s)) (4 * h) st /\ evals (4 * h) (snd s) (snd t) /\ exists g c, t = (g, with_fevals (snd s) c)) (mo_fails p) k 0)| |auto].
  - split; [exists [], []; rewrite !app_nil_r; repeat split; auto; intros x []|]. split; [apply evals_0|]. exists (fst s), (po_fevals (snd s)). destruct s as [g []]. reflexivity.
  - intros h st t Hh (B & CE & g & c & Et). assert (EPt : po_prob (snd t) = p) by (rewrite Et; exact EP).
    assert (PK : forall sh, shuffled (length (po_id (snd s))) sh -> always (nsga2_pair r pw a (po_x (snd s)) (p_lb p) (p_ub p) (p_nix p) (fst rk) (snd rk) sh (4 * h)) (fun cs => Pre (fst cs) /\ Pre (snd cs)) (mo_fails p)) by (intros sh H; apply pair_ok; [exact VA|exact HX|rewrite <- L1; exact RK|rewrite <- L1; exact H|lia]).
    unfold nsga2_seq. apply ends_bind. eapply ends_weak; [apply (two_ok p Pre _ _ (4 * h) st _ t (va_len _ _ VA) FD EPt (PK sh1 S1) B)| |auto]. intros st1 t1 (B1 & C1 & g1 & c1 & E1). rewrite Et in E1. cbn [snd] in E1.
    assert (EPt1 : po_prob (snd t1) = p) by (rewrite E1; exact EP). eapply ends_weak; [apply (two_ok p Pre _ _ (4 * h + 2) st1 _ t1 (va_len _ _ VA) FD EPt1 (PK sh2 S2) B1)| |auto]. intros st2 t2 (B2 & C2 & g2 & c2 & E2).
    replace (4 * (h + 1)) with (4 * h + 2 + 2) by lia. split; [exact B2|]. split; [eapply evals_trans; [eapply evals_trans; [exact CE|exact C1]|exact C2]|]. exists g2, c2. rewrite E2, E1. reflexivity.
  - intros st t. cbn [Nat.add]. rewrite <- HN. exact (fun H => H).
Qed.

(** ** The survivors *)
Lemma nsga2_insert_ok (Box : list dbl -> Prop) X F (s : G * pop P) p (E : exn -> Prop) : po_prob (snd s) = p -> valid_pop (snd s) -> 2 <= get_nf p -> length X = length (po_id (snd s)) -> Forall2 (evaluated p) X F -> (forall x, In x X -> Box x) ->
  ends (nsga2_insert srt (po_x (snd s) ++ X) (po_f (snd s) ++ F)) s (fun _ s' => valid_pop (snd s') /\ mo_step p Box (snd s) (combine X F) (snd s') /\ po_fevals (snd s') = po_fevals (snd s)) E.
Proof.
  intros EP V NF LX EV BX. set (s0 := snd s) in *. set (NP := length (po_id s0)) in *. pose proof V as (PO & (S1 & S2 & Fx & Ff & _) & _). fold NP in S1.
  pose proof (Forall2_len _ _ _ EV) as LXF. set (XN := po_x s0 ++ X). set (FN := po_f s0 ++ F). assert (LXN : length XN = NP + NP) by (unfold XN; rewrite app_length; lia). assert (LFN : length FN = NP + NP) by (unfold FN; rewrite app_length; lia).
  assert (GX : forall x, In x XN -> length x = get_nx p). { intros x Hx. apply in_app_or in Hx. destruct Hx as [Hx|Hx]; [rewrite <- EP; now apply Fx|]. apply In_nth_error in Hx. destruct Hx as (i & Hi). destruct (nth_ex F i) as (f & Nf); [rewrite <- LXF; apply nth_error_Some; congruence|]. pose proof (Forall2_at _ _ _ EV i x f Hi Nf) as (H & _). exact H. }
  assert (GF : uniform FN (get_nf p)). { intros f Hf. apply in_app_or in Hf. destruct Hf as [Hf|Hf]; [rewrite <- EP; now apply Ff|]. apply In_nth_error in Hf. destruct Hf as (i & Hi). destruct (nth_ex X i) as (x & Nx); [rewrite LXF; apply nth_error_Some; congruence|]. pose proof (Forall2_at _ _ _ EV i x f Nx Hi) as (_ & H & _). exact H. }
  assert (EC : combine XN FN = individuals s0 ++ combine X F) by (unfold XN, FN; apply combine_app; lia).
  assert (LI : length (individuals s0) = NP) by (unfold individuals; rewrite combine_length; lia).
  assert (ES : map snd (individuals s0 ++ combine X F) = FN) by (rewrite <- EC; clear - LXN LFN; assert (L : length XN = length FN) by lia; clear LXN LFN; revert L; generalize FN; induction XN as [|x l IH]; intros [|f m] H; try discriminate; [reflexivity|]; cbn; f_equal; apply IH; now injection H).
  unfold nsga2_insert. apply ends_bind, ends_getp. fold s0 NP. destruct (select_best_ok srt FN (get_nf p) NP HS GF NF) as (best & Eb & Hb). rewrite Eb. apply ends_bind. eapply ends_lift_ok; [reflexivity|].
  pose proof Hb as (_ & RB & LB & _). rewrite LFN in RB, LB. rewrite Nat.min_l in LB by lia.
  eapply ends_weak; [apply (ends_seq _ (fun j _ (t : G * pop P) => valid_pop (snd t) /\ po_prob (snd t) = p /\ po_id (snd t) = po_id s0 /\ po_fevals (snd t) = po_fevals s0 /\ forall k b, k < j -> nth_error best k = Some b -> nth_error (po_x (snd t)) k = nth_error XN b /\ nth_error (po_f (snd t)) k = nth_error FN b) E NP 0)| |auto].
  - split; [exact V|]. split; [exact EP|]. split; [reflexivity|]. split; [reflexivity|]. intros; lia.
  - intros j u t Hj (Vt & Et & It & Ft & Ht). destruct (vget_in_range best j ltac:(lia)) as (b & Eb' & Nb). pose proof (RB b ltac:(eapply nth_error_In; eauto)) as Hb'.
    destruct (vget_in_range XN b ltac:(lia)) as (x & Ex & Nx). destruct (vget_in_range FN b ltac:(lia)) as (f & Ef & Nf).
    apply ends_bind. eapply ends_lift_ok; [exact Eb'|]. apply ends_bind. eapply ends_lift_ok; [exact Ex|]. apply ends_bind. eapply ends_lift_ok; [exact Ef|].
    pose proof Vt as (_ & (T1 & T2 & _) & _). rewrite It in T1. fold NP in T1.
    apply ends_pset; [exact Vt|rewrite It; fold NP; lia|rewrite Et; apply GX; eapply nth_error_In; eauto|rewrite Et; apply GF; eapply nth_error_In; eauto|]. intros c _ V'. cbn [snd]. split; [exact V'|]. split; [exact Et|]. split; [exact It|]. split; [exact Ft|].
    intros k b' Hk Nb'. cbn [setp po_x po_f]. destruct (Nat.eq_dec k j) as [->|N].
    + rewrite !upd_same by lia. replace b' with b by congruence. now rewrite Nx, Nf.
    + rewrite !upd_other by exact N. apply Ht; [lia|exact Nb'].
  - intros u t (Vt & Et & It & Ft & Ht). cbn [Nat.add] in Ht. split; [exact Vt|]. split; [|exact Ft]. pose proof Vt as (_ & (T1 & T2 & _) & _). rewrite It in T1. fold NP in T1.
    split; [congruence|]. split; [exact It|]. split; [rewrite LI, combine_length; lia|]. split.
    + intros q Hq. apply combine_in_nth in Hq. destruct Hq as (i & H1 & H2). split; [exact (Forall2_at _ _ _ EV i _ _ H1 H2)|apply BX; eapply nth_error_In; eauto].
    + exists best. rewrite ES, LI. split; [exact Hb|]. rewrite <- EC.
      assert (LT : length best = length (individuals (snd t))) by (unfold individuals; rewrite combine_length; lia).
      assert (K : forall k b q, nth_error best k = Some b -> nth_error (individuals (snd t)) k = Some q -> nth_error (combine XN FN) b = Some q).
      { intros k b q Nb Nq. assert (Hk : k < NP) by (rewrite <- LB; apply nth_error_Some; congruence). pose proof (RB b ltac:(eapply nth_error_In; eauto)) as Hb'. destruct (nth_ex XN b ltac:(lia)) as (x & Nx). destruct (nth_ex FN b ltac:(lia)) as (f & Nf). destruct (Ht k b Hk Nb) as [H1 H2].
        rewrite <- Nq. unfold individuals. rewrite (combine_nth_error _ _ b x f Nx Nf). symmetry. apply combine_nth_error; congruence. }
      clear - LT K. revert K LT. generalize (individuals (snd t)). generalize (combine XN FN). intros C. induction best as [|b l IH]; intros [|q m] K LT; try discriminate; constructor.
      * exact (K 0 b q eq_refl eq_refl).
      * apply IH; [|now injection LT]. intros k b' q' H1 H2. exact (K (S k) b' q' H1 H2).
Qed.

(** ** A generation *)
Lemma ranking_ready F M : uniform F M -> 2 <= M -> 2 <= length F -> exists rk, nsga2_ranking srt F = Ok rk /\ ranked (length F) rk.
Proof.
  intros U HM HN. destruct (nsga2_ranking_ok srt F M HS U HM HN) as (fr & rank & cd & E & _ & (L & _) & Lc & _). exists (rank, cd). split; [exact E|]. split; assumption.
Qed.
Lemma shuffle_ok n sh E : shuffled n sh -> always (rdraw (shuf nat sh)) (shuffled n) E.
Proof. intros H g. unfold rdraw. pose proof (SC nat sh g) as K. destruct (shuf nat sh g) as [l g']. cbn [fst] in *. eapply perm_trans; eassumption. Qed.
Lemma mo_step_pre p (Pre : list dbl -> Prop) (s s' : pop P) born : valid_pop s' -> mo_step p Pre s born s' -> (forall x, In x (po_x s) -> Pre x) -> forall x, In x (po_x s') -> Pre x.
Proof.
  intros V' (_ & _ & _ & HB & sel & _ & HF) HP x Hx. pose proof V' as (_ & (S1 & S2 & _) & _). apply In_nth_error in Hx. destruct Hx as (k & Nk). assert (Hk : k < length (po_x s')) by (apply nth_error_Some; congruence).
  destruct (nth_ex (po_f s') k ltac:(lia)) as (f & Nf). pose proof (combine_nth_error _ _ k x f Nk Nf) as Nq. change (combine (po_x s') (po_f s')) with (individuals s') in Nq.
  assert (Hb : k < length sel) by (rewrite (Forall2_len _ _ _ HF); apply nth_error_Some; congruence). destruct (nth_ex sel k Hb) as (b & Nb). pose proof (Forall2_at _ _ _ HF k b _ Nb Nq) as H. cbv beta in H.
  apply nth_error_In, in_app_or in H. destruct H as [H|H]; [|exact (proj2 (HB _ H))]. apply in_combine_l in H. auto.
Qed.
Lemma nsga2_generation_ok p Pre sh (s : G * pop P) : varies p Pre -> po_prob (snd s) = p -> valid_pop (snd s) -> mo_problem p -> fitness_defined p -> mo_size (length (po_id (snd s))) -> (forall x, In x (po_x (snd s)) -> Pre x) ->
  shuffled (length (po_id (snd s))) (fst sh) -> shuffled (length (po_id (snd s))) (snd sh) ->
  ends (nsga2_generation r srt pw shuf a None sh) s (fun sh' s' => valid_pop (snd s') /\ (exists born, mo_step p Pre (snd s) born (snd s')) /\ evals (length (po_id (snd s))) (snd s) (snd s') /\
    shuffled (length (po_id (snd s))) (fst sh') /\ shuffled (length (po_id (snd s))) (snd sh')) (mo_fails p).
Proof.
  intros VA EP V MP FD MS HP H1 H2. pose proof V as (PO & (L1 & L2 & Fx & Ff & _) & _). pose proof MP as (_ & _ & NF & _). pose proof MS as (M5 & _). unfold nsga2_generation. apply ends_bind, ends_getp.
  apply ends_bind. apply (ends_eng _ _ _ _ _ (shuffle_ok _ _ _ H1)). intros sh1 g1 K1. apply ends_bind. apply (ends_eng _ _ _ _ _ (shuffle_ok _ _ _ H2)). intros sh2 g2 K2. cbn [fst snd].
  destruct (ranking_ready (po_f (snd s)) (get_nf p)) as (rk & Erk & RK); [intros f Hf; rewrite <- EP; now apply Ff|exact NF|lia|]. replace (length (po_f (snd s))) with (length (po_id (snd s))) in RK by lia. apply ends_bind. eapply ends_lift_ok; [exact Erk|].
  apply ends_bind. eapply ends_weak; [apply (breed_ok p Pre rk sh1 sh2 (g2, snd s) VA FD EP V HP RK K1 K2 MS)| |auto]. intros st s2 ((X & F & -> & LX & EV & HX) & CE & g & c & E2). cbn [fst snd] in *.
  apply ends_bind. change (po_x (snd s)) with (po_x (with_fevals (snd s) c)). change (po_f (snd s)) with (po_f (with_fevals (snd s) c)).
  assert (ES : snd s2 = with_fevals (snd s) c) by (rewrite E2; reflexivity). rewrite <- ES.
  eapply ends_weak; [apply (nsga2_insert_ok Pre X F s2 p (mo_fails p)); [rewrite ES; exact EP|rewrite ES; apply valid_fevals; exact V|exact NF|rewrite ES; exact LX|exact EV|exact HX]| |auto].
  intros u s3 (V3 & ST & FE). apply ends_ret. split; [exact V3|]. split; [exists (combine X F); rewrite ES in ST; exact ST|]. split; [|split; assumption]. unfold evals in *. rewrite FE. exact CE.
Qed.
Lemma some_equal_false lb ub : (forall i l u, nth_error lb i = Some l -> nth_error ub i = Some u -> deq l u = false) -> some_bound_is_equal lb ub = false.
Proof.
  intros H. unfold some_bound_is_equal. destruct (existsb _ _) eqn:E; [|reflexivity]. apply existsb_exists in E. destruct E as (q & Hq & D). apply combine_in_nth in Hq. destruct Hq as (i & H1 & H2). rewrite (H i _ _ H1 H2) in D. discriminate.
Qed.
Lemma some_equal_iff lb ub : some_bound_is_equal lb ub = false <-> (forall i l u, nth_error lb i = Some l -> nth_error ub i = Some u -> deq l u = false).
Proof.
  split.
  - intros H i l u H1 H2. destruct (deq l u) eqn:D; [|reflexivity]. rewrite <- H. symmetry. apply existsb_exists. exists (l, u). split; [|exact D]. eapply nth_error_In. apply combine_nth_error; eassumption.
  - intros H. apply some_equal_false. exact H.
Qed.
Lemma nsga2_evolve_ok p Pre (s : G * pop P) : varies p Pre -> po_prob (snd s) = p -> valid_pop (snd s) -> mo_problem p -> fitness_defined p -> mo_size (length (po_id (snd s))) -> (forall x, In x (po_x (snd s)) -> Pre x) ->
  ends (nsga2_evolve r srt pw shuf a None) s (fun _ s' => valid_pop (snd s') /\ mo_generations p Pre (ns_gen a) (snd s) (snd s') /\ evals (ns_gen a * length (po_id (snd s))) (snd s) (snd s')) (mo_fails p).
Proof.
  intros VA EP V MP FD MS HP. pose proof V as (PO & _). rewrite EP in PO. pose proof MP as (SS & NC & NF & NB). pose proof MS as (M5 & k & HN). unfold nsga2_evolve. apply ends_bind, ends_getp. cbv zeta. rewrite EP.
  destruct (prob_obj_lens p PO) as [LL LU]. rewrite some_equal_false by exact NB. rewrite SS, NC. cbn [Nat.eqb negb]. destruct (Nat.ltb_spec (get_nf p) 2); [lia|]. destruct (Nat.ltb_spec (length (po_id (snd s))) 5); [lia|]. cbn [orb].
  assert (EM : length (po_id (snd s)) mod 4 = 0) by (rewrite HN, Nat.mul_comm; apply Nat.mod_mul; lia). rewrite EM. cbn [Nat.eqb negb]. apply ends_bind. set (NP := length (po_id (snd s))) in *.
  eapply ends_weak; [apply (ends_seq _ (fun n sh (t : G * pop P) => po_prob (snd t) = p /\ po_id (snd t) = po_id (snd s) /\ valid_pop (snd t) /\ (forall x, In x (po_x (snd t)) -> Pre x) /\ shuffled NP (fst sh) /\ shuffled NP (snd sh) /\ mo_generations p Pre n (snd s) (snd t) /\ evals (n * NP) (snd s) (snd t)) (mo_fails p) (ns_gen a) 0)| |auto].
  - split; [exact EP|]. split; [reflexivity|]. split; [exact V|]. split; [exact HP|]. split; [apply Permutation_refl|]. split; [apply Permutation_refl|]. split; [constructor|]. apply evals_0.
  - intros n sh t Hn (Et & It & Vt & Pt & A1 & A2 & Gt & Ct). assert (NT : length (po_id (snd t)) = NP) by (rewrite It; reflexivity).
    eapply ends_weak; [apply (nsga2_generation_ok p Pre sh t VA Et Vt MP FD); [rewrite NT; exact MS|exact Pt|rewrite NT; exact A1|rewrite NT; exact A2]| |auto]. intros sh' t' (V' & (born & EL) & CE & B1 & B2). rewrite NT in *. pose proof EL as (Q1 & Q2 & _).
    split; [congruence|]. split; [congruence|]. split; [exact V'|]. split; [eapply mo_step_pre; eauto|]. split; [exact B1|]. split; [exact B2|]. rewrite Nat.add_1_r. split; [econstructor; eauto|].
    replace (S n * NP) with (n * NP + NP) by lia. eapply evals_trans; eassumption.
  - intros sh t (_ & _ & Vt & _ & _ & _ & Gt & Ct). apply ends_ret. cbn [Nat.add] in *. auto.
Qed.
End Run.
