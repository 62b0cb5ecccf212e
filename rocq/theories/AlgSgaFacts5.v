From Coq Require Import String List Bool Arith ZArith Lia Permutation.
From Verif Require Import Dbl DblFacts IntDbl Outcome BaseFacts StdSort Compare SpecOrder CompareFacts Problem SpecProblem Rng Generic SpecGeneric GenericFacts GenericFacts2 GenericFacts3 SpecGenetic RmFacts
  GeneticOps GeneticFacts GeneticFacts3 Population SpecPopulation PopulationFacts ProblemFacts Algo SpecAlgo AlgoFacts AlgoFacts2 AlgDeFacts AlgSea AlgSeaFacts AlgSga SpecSga AlgSgaFacts AlgSgaFacts2 AlgSgaFacts3 AlgSgaFacts4 AlgPsoFacts4.
Import ListNotations.

Section E.
Context {G P : Type} (r : rng G) (RC : rng_contract r) (srt : sorter) (HS : sort_contract srt) (pw : dbl -> dbl -> dbl) (reseed : problem -> Z -> problem)
  (shuf : forall A, list A -> G -> list A * G) (HSh : shuffle_contract shuf) (binom : nat -> dbl -> G -> nat * G) (HB : binomial_contract binom) (a : sga_params).

Lemma sga_rejects (s : G * pop P) : let n := length (po_id (snd s)) in
  get_nc (po_prob (snd s)) <> 0 \/ get_nf (po_prob (snd s)) <> 1 \/ n < 2 \/ n < sg_ps a \/ (sg_cross a = SBX /\ Nat.even n = false) ->
  sga_evolve r srt pw reseed shuf binom a s = (Throw InvalidArgument, s).
Proof.
  intros n H. unfold sga_evolve, rbind, getp. cbv zeta. fold n. destruct (Nat.eqb_spec (get_nc (po_prob (snd s))) 0) as [H1|H1]; [|reflexivity]. destruct (Nat.eqb_spec (get_nf (po_prob (snd s))) 1) as [H2|H2]; [|reflexivity]. cbn [negb].
  destruct (Nat.ltb_spec n 2); [reflexivity|]. destruct (Nat.ltb_spec n (sg_ps a)); [reflexivity|]. destruct H as [H|[H|[H|[H|[-> H]]]]]; try contradiction; try lia.
  assert (E : n mod 2 =? 0 = false); [|rewrite E; reflexivity]. apply Nat.eqb_neq. intros K. apply Nat.mod_divides in K; [|lia]. destruct K as [c K]. rewrite K, Nat.even_mul in H. discriminate.
Qed.

(** ** Stochastic problems *)
Lemma sga_stochastic_ok (s : G * pop P) p : po_prob (snd s) = p -> valid_pop (snd s) -> stays_fine reseed p -> (forall ks, draws_ok a (fold_left reseed ks p)) -> ready a (length (po_id (snd s))) -> 0 < sg_gen a ->
  ends (sga_evolve r srt pw reseed shuf binom a) s
    (fun _ s' => valid_pop (snd s') /\ (exists ks, length ks = sg_gen a /\ po_prob (snd s') = fold_left reseed ks p) /\ po_id (snd s') = po_id (snd s) /\
       evals (sg_gen a * (2 * length (po_id (snd s)))) (snd s) (snd s') /\
       forall i, In i (individuals (snd s')) -> evaluated (po_prob (snd s')) (fst i) (snd i))
    (fun e => exists ks, fails (fold_left reseed ks p) e).
Proof.
  intros EP V SF DO RD HG. pose proof (SF []) as (PO & _ & _ & NC & NF & NO & _). cbn [fold_left] in *. pose proof RD as (H2 & Hps & HEV & _). unfold sga_evolve. apply ends_bind, ends_getp. cbv zeta. rewrite EP, NC, NF. cbn [Nat.eqb negb].
  destruct (Nat.ltb_spec (length (po_id (snd s))) 2); [lia|]. destruct (Nat.ltb_spec (length (po_id (snd s))) (sg_ps a)); [lia|].
  assert (EB : (match sg_cross a with SBX => true | _ => false end) && negb (length (po_id (snd s)) mod 2 =? 0) = false).
  { destruct (sg_cross a); try reflexivity. specialize (HEV eq_refl). apply Nat.even_spec in HEV. destruct HEV as [h ->]. rewrite Nat.mul_comm, Nat.mod_mul by lia. reflexivity. }
  rewrite EB. set (E := fun e => exists ks, fails (fold_left reseed ks p) e). set (n := length (po_id (snd s))) in *.
  set (J := fun i (_ : unit) (s' : G * pop P) => valid_pop (snd s') /\ (exists ks, length ks = i /\ po_prob (snd s') = fold_left reseed ks p) /\ po_id (snd s') = po_id (snd s) /\ evals (i * (2 * n)) (snd s) (snd s') /\ (0 < i -> forall q, In q (individuals (snd s')) -> evaluated (po_prob (snd s')) (fst q) (snd q))).
  eapply ends_weak with (E := E) (Q := J (0 + sg_gen a)); [|intros st s' (A1 & A2 & A3 & A4 & A5); split; [exact A1|]; split; [exact A2|]; split; [exact A3|]; split; [exact A4|]; apply A5; exact HG|auto].
  apply (ends_seq _ J E (sg_gen a) 0).
  { split; [exact V|]. split; [exists []; split; [reflexivity|exact EP]|]. split; [reflexivity|]. split; [apply evals_0|]. intros; lia. }
  intros i st s1 _ (V1 & (ks & LK & P1) & I1 & E1 & _). unfold sga_generation, sea_reseed.
  pose proof (SF ks) as SFk. cbv zeta in SFk. rewrite <- P1 in SFk. destruct SFk as (PO1 & LB1 & UB1 & NC1 & NF1 & NO1 & ST1 & FD1).
  apply ends_bind, ends_bind, ends_getp. rewrite ST1. apply ends_bind. eapply ends_eng; [apply (draw_int_ok r RC 0 (2 ^ 32 - 1)); lia|]. intros k g _. cbv beta.
  set (q := reseed (po_prob (snd s1)) k). assert (EQ : q = fold_left reseed (ks ++ [k]) p) by (rewrite fold_left_app; cbn [fold_left]; unfold q; now rewrite P1).
  pose proof (SF (ks ++ [k])) as SFk. cbv zeta in SFk. rewrite <- EQ in SFk. destruct SFk as (PO2 & LB2 & UB2 & NC2 & NF2 & NO2 & ST2 & FD2).
  apply ends_bind. unfold set_problem at 1, ends_w at 1. cbn [fst snd]. set (s2 := {| po_prob := q |}).
  assert (NX : get_nx q = get_nx (po_prob (snd s1))) by (unfold get_nx; congruence).
  assert (V2 : valid_pop s2).
  { destruct V1 as (_ & (T1 & T2 & T3 & T4 & T5) & CS). split; [exact PO2|]. split.
    - split; [exact T1|]. split; [exact T2|]. cbn [s2 po_prob po_x po_f po_id]. split; [rewrite NX; exact T3|]. split; [rewrite NF2; rewrite <- NF1; exact T4|exact T5].
    - unfold champion_shape in *. cbn [s2 po_prob po_cx po_cf]. rewrite NX, NF2. rewrite NF1 in CS. exact CS. }
  change (length (po_id (snd s1))) with (length (po_id (snd (g, s2)))).
  eapply ends_weak; [apply (reeval_ok (g, s2) q eq_refl V2 FD2)| |intros e He; exists (ks ++ [k]); left; rewrite <- EQ; exact He].
  intros [] s3 (V3 & P3 & I3 & X3 & E3 & H3). cbv beta. cbn [snd] in *. change (po_id s2) with (po_id (snd s1)) in *. change (po_x s2) with (po_x (snd s1)) in *.
  assert (DOq : draws_ok a q) by (rewrite EQ; apply DO). assert (L3 : length (po_id (snd s3)) = n) by (rewrite I3, I1; reflexivity).
  assert (HE : forall e, fails q e -> E e) by (intros e He; exists (ks ++ [k]); rewrite <- EQ; exact He).
  apply ends_bind. eapply ends_weak; [apply (offspring_ok r RC srt HS pw shuf HSh binom HB a q (fun _ => True) (in_box_or_nan (p_lb q) (p_ub q)) s3 (breeding_any r RC pw a q PO2 DOq) P3 V3 NF2); [rewrite L3; exact RD|auto]| |intros e He; apply HE; right; exact He].
  intros X s4 (E4 & LX & HX). apply ends_bind. eapply ends_weak; [apply (evaluate_ok False X q E FD2); [intros e He; apply HE; now left|intros x Hx; destruct (HX x Hx) as (L & _); rewrite L; apply (prob_obj_lens q PO2)|rewrite E4; exact P3|rewrite E4; exact V3]| |auto].
  intros F s5 (EV & V5 & CE & m & E5). assert (S5 : snd s5 = with_fevals (snd s3) m) by (rewrite E5; cbn [snd]; now rewrite E4).
  eapply ends_weak; [apply (insert_ok srt HS False (fun _ => True) X F s5 q E); [rewrite S5; exact P3|exact V5|exact NF2|rewrite S5; exact LX|exact EV|auto]| |auto].
  intros u s6 (V6 & EL & FE). rewrite S5 in EL. pose proof EL as (Q1 & Q2 & _ & born & dead & _ & HBn & PM & _). cbn [with_fevals po_prob po_id] in Q1, Q2.
  split; [exact V6|]. split; [exists (ks ++ [k]); split; [rewrite app_length; cbn; lia|congruence]|]. split; [congruence|]. split.
  - replace ((i + 1) * (2 * n)) with (i * (2 * n) + (n + n)) by lia. eapply evals_trans; [exact E1|]. rewrite I1 in E3. fold n in E3. eapply evals_trans; [exact E3|]. rewrite E4, LX, L3 in CE. unfold evals in *. rewrite FE. exact CE.
  - intros _ w Hw. assert (Iw : In w (born ++ individuals (snd s3))) by (eapply Permutation_in; [apply Permutation_sym; exact PM|apply in_or_app; now left]). rewrite Q1, P3. apply in_app_or in Iw. destruct Iw as [Iw|Iw]; [apply (HBn w Iw)|].
    apply combine_in_nth in Iw. destruct Iw as (j & N1 & N2). eapply H3; eauto.
Qed.

(** ** Undefined behaviour *)
Lemma ends_never {S A} (m : RM S A) s (Q : A -> Prop) : always m Q never -> ends m s (fun x _ => Q x) (fun _ => False).
Proof. intros H. eapply ends_always; [exact H|auto]. Qed.
Lemma fold_ub {St T} (f : T -> nat -> RM St T) (I : nat -> T -> Prop) k0 : forall n b t s, b <= k0 < b + n -> I b t ->
  (forall i t s, b <= i -> i < k0 -> I i t -> match fst (f t i s) with Ok t' => I (i + 1) t' | UB => True | _ => False end) -> (forall t s, I k0 t -> fst (f t k0 s) = UB) -> fst (rfold f t (seq b n) s) = UB.
Proof.
  induction n as [|n IH]; intros b t s Hk HI HS1 HU; [lia|]. cbn [seq rfold]. destruct (Nat.eq_dec b k0) as [->|N]; [apply ub_first; apply HU; exact HI|]. unfold rbind. specialize (HS1 b t s (le_n b) ltac:(lia) HI) as K. destruct (f t b s) as [[t'| | |] s']; cbn [fst] in K; try contradiction; [|reflexivity].
  rewrite Nat.add_1_r in K. apply (IH (S b) t' s'); [lia|exact K|intros i t0 s0 H1 H2 H3; apply HS1; [lia|exact H2|exact H3]|exact HU].
Qed.
(** Selection and crossover done, the mutation of the first individual is undefined. *)
Lemma first_mutation_ub (s : G * pop P) p : po_prob (snd s) = p -> valid_pop (snd s) -> plain_single p -> 0 < sg_gen a -> 2 <= length (po_id (snd s)) -> 1 <= sg_ps a <= length (po_id (snd s)) -> (sg_cross a = SBX -> Nat.even (length (po_id (snd s))) = true) ->
  (forall X order g, length X = length (po_id (snd s)) -> (forall x, In x X -> length x = get_nx p) -> perm_of (get_nx p) order -> fst (mutate_step r pw shuf binom a (get_nx p) (get_nx p - p_nix p) (p_lb p) (p_ub p) (X, order) 0 g) = UB) ->
  fst (sga_evolve r srt pw reseed shuf binom a s) = UB.
Proof.
  intros EP V (NC & NF & NS) HG H2 Hps HEV HU. pose proof V as (PO & (S1 & S2 & Fx & Ff & _) & _). rewrite EP in *. destruct (prob_obj_lens p PO) as [L1 L2]. pose proof (prob_obj_facts p PO) as (NX & _).
  unfold sga_evolve. apply (ub_bind _ _ _ (fun q s' => q = snd s /\ s' = s)); [apply ends_getp; auto|]. intros ? ? [-> ->]. cbv zeta. rewrite EP, NC, NF. cbn [Nat.eqb negb].
  destruct (Nat.ltb_spec (length (po_id (snd s))) 2); [lia|]. destruct (Nat.ltb_spec (length (po_id (snd s))) (sg_ps a)); [lia|].
  assert (EB : (match sg_cross a with SBX => true | _ => false end) && negb (length (po_id (snd s)) mod 2 =? 0) = false).
  { destruct (sg_cross a); try reflexivity. specialize (HEV eq_refl). apply Nat.even_spec in HEV. destruct HEV as [h ->]. rewrite Nat.mul_comm, Nat.mod_mul by lia. reflexivity. }
  rewrite EB. destruct (sg_gen a) as [|gens]; [lia|]. cbn [seq rfold]. apply ub_first. unfold sga_generation.
  apply (ub_bind _ _ _ (fun _ s' => s' = s)); [apply reseed_none; [rewrite EP; exact NS|reflexivity]|]. intros ? ? ->. apply ub_first. unfold sga_offspring.
  apply (ub_bind _ _ _ (fun q s' => q = snd s /\ s' = s)); [apply ends_getp; auto|]. intros ? ? [-> ->]. cbv zeta. rewrite EP.
  apply (ub_bind _ _ _ (fun sel s' => length sel = length (po_id (snd s)) /\ (forall k, In k sel -> k < length (po_x (snd s))) /\ snd s' = snd s)).
  { eapply ends_eng; [apply (select_ok r RC srt HS a (po_f (snd s)) (fun _ => False)); [intros f Hf; rewrite <- NF; now apply Ff|rewrite <- S2, <- S1; exact Hps]|]. intros sel g (LS & RS & _). split; [lia|]. split; [intros k Hk; specialize (RS k Hk); lia|reflexivity]. }
  intros sel s1 (LS & RS & Es1). destruct (sel_pick (po_x (snd s)) sel RS) as (X1 & E1 & LX1 & IX1).
  apply (ub_bind _ _ _ (fun X s' => X = X1 /\ s' = s1)); [eapply ends_lift_ok; [exact E1|auto]|]. intros ? ? [-> ->]. assert (LX : length X1 = length (po_id (snd s))) by lia.
  apply (ub_bind _ _ _ (fun X s' => length X = length X1 /\ (forall x, In x X -> length x = get_nx p))).
  { eapply ends_eng; [apply (cross_keeps r RC pw shuf HSh a X1 (p_lb p) (p_ub p) (p_nix p) (get_nx p) (fun _ => True) (fun _ => False)); [lia|intros x Hx; apply IX1 in Hx; split; [now apply Fx|exact I]|lia|rewrite LX; exact HEV|auto|]|].
    - intros x y _ _ Lx Ly. eapply always_weak; [apply (sbx_exchange r RC pw x y (p_lb p) (p_ub p) (p_nix p) (sg_cr a) (sg_eta a)); [lia|lia|lia|apply (prob_obj_bounds p PO)]| |contradiction]. intros cs (K1 & K2 & _). split; (split; [lia|exact I]).
    - intros X g (K1 & K2). split; [exact K1|]. intros x Hx. apply K2, Hx. }
  intros X2 s2 (LX2 & HX2). unfold eng. set (m := sga_mutate _ _ _ _ _ _ _ _ _). assert (MU : forall g, fst (m g) = UB); [|specialize (MU (fst s2)); destruct (m (fst s2)) as [o g]; cbn in *; exact MU].
  intros g. unfold m, sga_mutate. destruct X2 as [|x0 X2]; [cbn in LX2; lia|]. apply (ub_bind _ _ _ (fun w g' => w = x0)); [apply ends_ret; reflexivity|]. intros ? g' ->. cbv zeta. rewrite (HX2 x0 (or_introl eq_refl)). apply ub_first. cbn [length seq rfold]. apply ub_first. apply HU; [lia|exact HX2|apply perm_of_seq].
Qed.
Lemma nan_probability_ub (s : G * pop P) p : po_prob (snd s) = p -> valid_pop (snd s) -> plain_single p -> 0 < sg_gen a -> 2 <= length (po_id (snd s)) -> 1 <= sg_ps a <= length (po_id (snd s)) -> (sg_cross a = SBX -> Nat.even (length (po_id (snd s))) = true) -> sg_m a = NaN ->
  fst (sga_evolve r srt pw reseed shuf binom a s) = UB.
Proof.
  intros EP V PS HG H2 Hps HEV EM. apply (first_mutation_ub s p); auto. intros X order g _ _ _. unfold mutate_step.
  apply (ub_bind _ _ _ (fun _ _ => True)); [eapply ends_always; [apply (draw_always _ (fun _ => True)); auto|auto]|]. intros o g1 _. apply ub_first. unfold draw_count. rewrite EM. reflexivity.
Qed.
Lemma raw_int_bad x : ~ fits_int x -> (isfinite x = true -> integral x) -> raw_int x = UB.
Proof.
  intros NF IN. destruct x as [| |z|]; try reflexivity. destruct (IN eq_refl) as (k & Ek). injection Ek as ->. cbn [raw_int]. unfold Z_of_d. rewrite Z.quot_mul by (pose proof one_z_pos; lia).
  destruct (Z.leb_spec (- 2 ^ 31) k), (Z.ltb_spec k (2 ^ 31)); try reflexivity. exfalso. apply NF. exists k. split; [reflexivity|lia].
Qed.
Lemma raw_int_or x : (exists k, raw_int x = Ok k) \/ raw_int x = UB.
Proof. unfold raw_int. destruct x as [| |z|]; auto. destruct (_ && _); eauto. Qed.
Lemma draw_gene_or l u g : dle l u = true -> match fst (draw_gene r l u g) with Ok _ => True | UB => True | _ => False end.
Proof.
  intros LU. unfold draw_gene, rbind, rlift. destruct (raw_int_or l) as [(k & E1)|E1]; rewrite E1; [|exact I]. destruct (raw_int_or u) as [(k' & E2)|E2]; rewrite E2; [|exact I].
  unfold draw_int, rdraw. destruct (k <=? k')%Z; [|exact I]. destruct (g_int r k k' g). exact I.
Qed.
Lemma int_cast_ub (s : G * pop P) p i l u : po_prob (snd s) = p -> valid_pop (snd s) -> plain_single p -> drawable p -> 0 < sg_gen a -> 2 <= length (po_id (snd s)) -> 1 <= sg_ps a <= length (po_id (snd s)) -> (sg_cross a = SBX -> Nat.even (length (po_id (snd s))) = true) ->
  sg_m a = done -> (forall n g, fst (binom n done g) = n) -> sg_mut a <> Gaussian -> get_nx p - p_nix p <= i -> nth_error (p_lb p) i = Some l -> nth_error (p_ub p) i = Some u -> ~ (fits_int l /\ fits_int u) ->
  fst (sga_evolve r srt pw reseed shuf binom a s) = UB.
Proof.
  intros EP V PS DR HG H2 Hps HEV EM BF NG Hi Nl Nu NFI. pose proof V as (PO & _). rewrite EP in PO. destruct (prob_obj_lens p PO) as [L1 L2]. pose proof (prob_obj_facts p PO) as (NX & _). apply (first_mutation_ub s p); auto. intros X order g LX HX PM. unfold mutate_step. cbn [fst snd].
  apply (ub_bind _ _ _ (fun o _ => Permutation order o)); [eapply ends_always; [apply (draw_always _ (fun o => Permutation order o)); intros; apply HSh|auto]|]. intros o g1 Po.
  assert (PO' : perm_of (get_nx p) o). { destruct PM as (A1 & A2 & A3). split; [rewrite <- (Permutation_length Po); exact A1|]. split; [eapply Permutation_NoDup; eauto|]. intros k Hk. apply A3. eapply Permutation_in; [apply Permutation_sym; exact Po|exact Hk]. }
  apply (ub_bind _ _ _ (fun N _ => N = get_nx p)); [eapply ends_always; [|intros N g' HN; exact HN]; unfold draw_count; rewrite EM; change (dle dzero done && dle done done) with true; apply (draw_always _ (fun N => N = get_nx p)); intros; apply BF|]. intros N g2 ->.
  destruct X as [|x0 X]; [cbn in LX; lia|]. apply (ub_bind _ _ _ (fun w g' => w = x0)); [apply ends_ret; reflexivity|]. intros ? g3 ->. apply ub_first. unfold mutate_genes. apply ub_first. assert (Lx : length x0 = get_nx p) by (apply HX; now left).
  assert (HIi : i < get_nx p) by (rewrite <- L1; apply nth_error_Some; congruence). destruct (In_nth_error _ _ (perm_of_in _ _ i PO' HIi)) as (k0 & Nk0). destruct PO' as (B1 & B2 & B3). assert (Hk0 : k0 < get_nx p) by (rewrite <- B1; apply nth_error_Some; congruence).
  apply (fold_ub _ (fun _ c => length c = get_nx p) k0); [lia|exact Lx| |].
  - intros j c g' _ Hj Lc. destruct (nth_ex o j ltac:(lia)) as (q & Nq). assert (Hq : q < get_nx p) by (apply B3; eapply nth_error_In; eauto). destruct (nth_ex c q ltac:(lia)) as (v & Nv). destruct (nth_ex (p_lb p) q ltac:(lia)) as (l' & Nl'). destruct (nth_ex (p_ub p) q ltac:(lia)) as (u' & Nu').
    unfold rbind, rlift. unfold vget at 1. rewrite Nq. unfold vget at 1. rewrite Nv. unfold vget at 1. rewrite Nl'. unfold vget at 1. rewrite Nu'.
    assert (MG : match fst (mutated_gene r pw a (get_nx p - p_nix p) q v l' u' g') with Ok _ => True | UB => True | _ => False end).
    { pose proof (prob_obj_ord p PO q l' u' Nl' Nu') as LU. unfold mutated_gene. destruct (sg_mut a); [congruence| |].
      - destruct (q <? get_nx p - p_nix p); [|apply draw_gene_or; exact LU]. pose proof (urr_ok r RC l' u' LU g') as K. destruct (fst (uniform_real_from_range r l' u' g')) eqn:EU; auto. destruct K as [_ K]. apply K. eapply DR; eauto.
      - destruct (q <? get_nx p - p_nix p); [|apply draw_gene_or; exact LU]. unfold rbind. pose proof (draw01_any r RC (fun _ => False) g') as K. destruct (draw01 r g') as [[w| | |] g'']; cbn [fst] in K; try contradiction. exact I. }
    destruct (mutated_gene _ _ _ _ _ _ _ _ g') as [[w| | |] g'']; cbn [fst] in MG; try contradiction; [|exact I]. cbn [fst]. unfold vset. destruct (Nat.ltb_spec q (length c)); [|lia]. now rewrite upd_len.
  - intros c g' Lc. destruct (nth_ex c i ltac:(lia)) as (v & Nv). unfold rbind, rlift. unfold vget at 1. rewrite Nk0. unfold vget at 1. rewrite Nv. unfold vget at 1. rewrite Nl. unfold vget at 1. rewrite Nu.
    assert (DG : fst (draw_gene r l u g') = UB).
    { destruct (prob_obj_bounds p PO) as (_ & _ & _ & _ & GB). rewrite L1 in GB. destruct (GB i l u Hi Nl Nu) as [Gl Gu]. unfold draw_gene, rbind, rlift. destruct (raw_int_or l) as [(k & E1)|E1]; rewrite E1; [|reflexivity].
      destruct (raw_int_or u) as [(k' & E2)|E2]; rewrite E2; [|reflexivity]. exfalso. apply NFI. split.
      - destruct l as [| |z|]; try discriminate. destruct (Gl eq_refl) as (kk & Ek). injection Ek as ->. exists kk. split; [reflexivity|]. cbn [raw_int] in E1. unfold Z_of_d in E1. rewrite Z.quot_mul in E1 by (pose proof one_z_pos; lia). destruct (Z.leb_spec (- 2 ^ 31) kk), (Z.ltb_spec kk (2 ^ 31)); try discriminate. lia.
      - destruct u as [| |z|]; try discriminate. destruct (Gu eq_refl) as (kk & Ek). injection Ek as ->. exists kk. split; [reflexivity|]. cbn [raw_int] in E2. unfold Z_of_d in E2. rewrite Z.quot_mul in E2 by (pose proof one_z_pos; lia). destruct (Z.leb_spec (- 2 ^ 31) kk), (Z.ltb_spec kk (2 ^ 31)); try discriminate. lia. }
    unfold mutated_gene. destruct (Nat.ltb_spec i (get_nx p - p_nix p)); [lia|]. destruct (sg_mut a); [congruence|destruct (draw_gene r l u g') as [o' g'']; cbn [fst] in DG; subst o'; reflexivity..].
Qed.
End E.
