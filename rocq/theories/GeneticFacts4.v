(** Genetic operators: the public functions. *)
From Coq Require Import List Bool Arith ZArith Lia.
From Verif Require Import Dbl DblFacts IntDbl Outcome BaseFacts Rng Problem SpecProblem ProblemFacts Generic SpecGeneric GenericFacts GenericFacts2 GenericFacts3 GeneticOps SpecGenetic RmFacts GeneticFacts GeneticFacts2 GeneticFacts3.
Import ListNotations.

Section P.
Context {G : Type} (r : rng G) (pw : dbl -> dbl -> dbl).
Lemma sbx_rejects p1 p2 lb ub nix p_cr eta : ~ sbx_args p1 p2 lb ub nix p_cr eta -> forall g, sbx_crossover r pw p1 p2 lb ub nix p_cr eta g = (Throw InvalidArgument, g).
Proof. intros H. destruct (sbx_public r pw p1 p2 lb ub nix p_cr eta) as [[X _]|[_ E]]; [contradiction|exact E]. Qed.
Lemma sbx_is_impl p1 p2 lb ub nix p_cr eta : sbx_args p1 p2 lb ub nix p_cr eta -> forall g, sbx_crossover r pw p1 p2 lb ub nix p_cr eta g = sbx_crossover_impl r pw p1 p2 lb ub nix p_cr eta g.
Proof. intros H. destruct (sbx_public r pw p1 p2 lb ub nix p_cr eta) as [[_ E]|[X _]]; [exact E|contradiction]. Qed.
Lemma mut_rejects dv lb ub nix p_m eta : ~ mut_args dv lb ub nix p_m eta -> forall g, polynomial_mutation r pw dv lb ub nix p_m eta g = (Throw InvalidArgument, g).
Proof. intros H. destruct (mut_public r pw dv lb ub nix p_m eta) as [[X _]|[_ E]]; [contradiction|exact E]. Qed.
Lemma mut_is_impl dv lb ub nix p_m eta : mut_args dv lb ub nix p_m eta -> forall g, polynomial_mutation r pw dv lb ub nix p_m eta g = polynomial_mutation_impl r pw dv lb ub nix p_m eta g.
Proof. intros H. destruct (mut_public r pw dv lb ub nix p_m eta) as [[_ E]|[X _]]; [exact E|contradiction]. Qed.
Context (RC : rng_contract r).
Lemma sbx_accepts p1 p2 lb ub nix p_cr eta : sbx_args p1 p2 lb ub nix p_cr eta ->
  always (sbx_crossover r pw p1 p2 lb ub nix p_cr eta) (fun cs => length (fst cs) = length p1 /\ length (snd cs) = length p1 /\
    exchanged p1 p2 (length p1 - nix) (fst cs) (snd cs) /\ kept_where_fixed p1 lb ub nix (fst cs) /\ kept_where_fixed p2 lb ub nix (snd cs)) never.
Proof.
  intros A. eapply always_eq; [apply sbx_is_impl; exact A|]. destruct A as ((_ & B1 & _ & B2 & _) & L1 & L2 & _). rewrite L1. apply sbx_exchange; auto.
Qed.
Lemma sbx_box p1 p2 lb ub nix p_cr eta : pow_contract pw -> sbx_args p1 p2 lb ub nix p_cr eta -> in_box lb ub p1 -> in_box lb ub p2 -> integral_tail nix p1 -> integral_tail nix p2 ->
  (forall l, In l lb -> moderate l) -> (forall u, In u ub -> moderate u) -> nonneg eta ->
  always (sbx_crossover r pw p1 p2 lb ub nix p_cr eta) (fun cs => in_box lb ub (fst cs) /\ in_box lb ub (snd cs) /\ integral_tail nix (fst cs) /\ integral_tail nix (snd cs)) never.
Proof.
  intros PC A B1 B2 I1 I2 ML MU NE. eapply always_eq; [apply sbx_is_impl; exact A|]. apply (sbx_impl_ok r RC pw PC); auto; [split; [exact B1|split; [exact B2|split; assumption]]|apply A|apply A].
Qed.
Lemma sbx_box_nan p1 p2 lb ub nix p_cr eta : sbx_args p1 p2 lb ub nix p_cr eta -> in_box lb ub p1 -> in_box lb ub p2 ->
  always (sbx_crossover r pw p1 p2 lb ub nix p_cr eta) (fun cs => in_box_or_nan lb ub (fst cs) /\ in_box_or_nan lb ub (snd cs)) never.
Proof. intros A B1 B2. eapply always_eq; [apply sbx_is_impl; exact A|]. apply (sbx_or_nan r RC pw); auto. apply A. Qed.
Lemma sbx_never p1 p2 lb ub nix p_cr eta : sbx_args p1 p2 lb ub nix p_cr eta -> dle p_cr dzero = true -> always (sbx_crossover r pw p1 p2 lb ub nix p_cr eta) (fun cs => cs = (p1, p2)) never.
Proof. intros A H. eapply always_eq; [apply sbx_is_impl; exact A|]. apply (sbx_zero r RC pw); auto. Qed.
Lemma mut_box dv lb ub nix p_m eta : pow_contract pw -> mut_args dv lb ub nix p_m eta -> Forall is_double lb -> Forall is_double ub -> in_box lb ub dv -> integral_tail nix dv ->
  (forall l, In l lb -> moderate l) -> (forall u, In u ub -> moderate u) -> nonneg eta ->
  always (polynomial_mutation r pw dv lb ub nix p_m eta) (fun c => in_box lb ub c /\ integral_tail nix c) (fun e => e = InvalidArgument /\ ~ ints_fit nix lb ub).
Proof.
  intros PC A D1 D2 B I ML MU NE. eapply always_eq; [apply mut_is_impl; exact A|]. apply (mutation_impl_ok r RC pw PC); auto; [apply A|split; auto|apply A].
Qed.
Lemma mut_box_nan dv lb ub nix p_m eta : mut_args dv lb ub nix p_m eta -> Forall is_double lb -> Forall is_double ub -> in_box lb ub dv ->
  always (polynomial_mutation r pw dv lb ub nix p_m eta) (in_box_or_nan lb ub) (fun e => e = InvalidArgument).
Proof. intros A D1 D2 B. eapply always_eq; [apply mut_is_impl; exact A|]. apply (mutation_or_nan r RC pw); auto. apply A. Qed.
Lemma mut_never dv lb ub nix p_m eta : mut_args dv lb ub nix p_m eta -> dle p_m dzero = true -> always (polynomial_mutation r pw dv lb ub nix p_m eta) (fun c => c = dv) never.
Proof. intros A H. eapply always_eq; [apply mut_is_impl; exact A|]. destruct A as ((_ & B1 & _ & B2 & _) & L1 & _). apply (mut_zero r RC pw); auto. Qed.
Lemma mut_keeps dv lb ub nix p_m eta : mut_args dv lb ub nix p_m eta -> Forall is_double lb -> Forall is_double ub ->
  always (polynomial_mutation r pw dv lb ub nix p_m eta) (fun c => length c = length dv /\ kept_where_fixed dv lb ub nix c) (fun e => e = InvalidArgument).
Proof. intros A D1 D2. eapply always_eq; [apply mut_is_impl; exact A|]. destruct A as (GB & L1 & _). rewrite L1. apply (mut_fixed r RC pw); auto. Qed.
End P.

Lemma tournament_random i j rank crowd k : nth_error rank i = Some k -> nth_error rank j = Some k ->
  forall ci cj, nth_error crowd i = Some ci -> nth_error crowd j = Some cj -> dlt ci cj = false -> dlt cj ci = false ->
  (exists g, fst (tournament stream_rng i j rank crowd g) = Ok i) /\ (exists g, fst (tournament stream_rng i j rank crowd g) = Ok j).
Proof.
  intros E1 E2 ci cj E3 E4 L1 L2.
  assert (T : forall g, fst (tournament stream_rng i j rank crowd g) = fst (rbind (draw01 stream_rng) (fun v => rret (if dlt v dhalf then i else j)) g)).
  { intros g. unfold tournament, rlift, vget, dgt. unfold rbind at 1. rewrite E1. unfold rbind at 1. rewrite E2, Nat.ltb_irrefl. unfold rbind at 1. rewrite E3. unfold rbind at 1. rewrite E4, L1, L2. reflexivity. }
  split; [exists [0%Z]|exists [1%Z]]; rewrite T; unfold rbind.
  - assert (D : draw01 stream_rng [0%Z] = (Ok dzero, [])) by (vm_compute; reflexivity). rewrite D. unfold rret. rewrite lt0h. reflexivity.
  - assert (D : draw01 stream_rng [1%Z] = (Ok done, [])) by (vm_compute; reflexivity). rewrite D. unfold rret. replace (dlt done dhalf) with false by (vm_compute; reflexivity). reflexivity.
Qed.

(** ** Examples *)
Lemma moderate_small k : (Z.abs k <= 1000)%Z -> moderate (dint k).
Proof.
  intros H. exists (k * one_z)%Z. split; [reflexivity|]. rewrite Z.abs_mul. rewrite (Z.abs_eq one_z) by (pose proof one_z_pos; lia).
  assert (E : (2 ^ 2096 = 2 ^ 1022 * one_z)%Z) by (vm_compute; reflexivity). rewrite E. apply Z.mul_le_mono_nonneg_r; [pose proof one_z_pos; lia|].
  eapply Z.le_trans; [exact H|]. vm_compute. discriminate.
Qed.
Definition ex_lb : list dbl := [dint 0; dint 0]. Definition ex_ub : list dbl := [dint 4; dint 3].
Definition ex_p1 : list dbl := [dint 1; dint 2]. Definition ex_p2 : list dbl := [dint 3; dint 0].
Lemma ex_box p : p = ex_p1 \/ p = ex_p2 -> in_box ex_lb ex_ub p /\ integral_tail 1 p.
Proof.
  intros H. split.
  - split; [destruct H as [-> | ->]; reflexivity|]. split; [destruct H as [-> | ->]; reflexivity|].
    intros [|[|[|i]]] l u v E1 E2 E3; try discriminate; injection E1 as <-; injection E2 as <-; destruct H as [-> | ->]; injection E3 as <-; vm_compute; split; reflexivity.
  - intros [|[|[|i]]] v _ E; destruct H as [-> | ->]; try discriminate; injection E as <-; eexists; reflexivity.
Qed.
Lemma ex_good : good_bounds ex_lb ex_ub 1.
Proof.
  split; [discriminate|]. split; [reflexivity|]. split; [|split; [cbn; lia|]].
  - intros [|[|[|i]]] l u E1 E2; try discriminate; injection E1 as <-; injection E2 as <-; (split; [discriminate|split; [discriminate|vm_compute; reflexivity]]).
  - intros [|[|[|i]]] l u _ E1 E2; try discriminate; injection E1 as <-; injection E2 as <-; split; intros _; eexists; reflexivity.
Qed.
Lemma ex_finite : finite_bounds ex_lb ex_ub.
Proof. split; intros x [<-|[<-|[]]]; reflexivity. Qed.
Lemma ex_mod : (forall l, In l ex_lb -> moderate l) /\ (forall u, In u ex_ub -> moderate u).
Proof. split; intros x [<-|[<-|[]]]; apply moderate_small; lia. Qed.
Lemma ex_dbl : Forall is_double ex_lb /\ Forall is_double ex_ub.
Proof. split; repeat constructor; apply is_double_int; vm_compute; reflexivity. Qed.
Lemma ex_sbx_args : sbx_args ex_p1 ex_p2 ex_lb ex_ub 1 done done.
Proof. split; [exact ex_good|]. split; [reflexivity|]. split; [reflexivity|]. split; [exact ex_finite|]. split; reflexivity. Qed.
Lemma ex_mut_args : mut_args ex_p1 ex_lb ex_ub 1 done done.
Proof. split; [exact ex_good|]. split; [reflexivity|]. split; [exact ex_finite|]. split; reflexivity. Qed.
Lemma sbx_run : fst (sbx_crossover stream_rng pow_toy ex_p1 ex_p2 ex_lb ex_ub 1 done done []) = Ok ([dint 2; dint 0], [dint 2; dint 2]).
Proof. vm_compute. reflexivity. Qed.
Lemma mut_run : fst (polynomial_mutation stream_rng pow_toy ex_p1 ex_lb ex_ub 1 done done []) = Ok [dint 1; dint 0].
Proof. vm_compute. reflexivity. Qed.
Lemma sbx_example : rng_contract stream_rng /\ pow_contract pow_toy /\ sbx_args ex_p1 ex_p2 ex_lb ex_ub 1 done done /\ nonneg done /\
  in_box ex_lb ex_ub ex_p1 /\ in_box ex_lb ex_ub ex_p2 /\ integral_tail 1 ex_p1 /\ integral_tail 1 ex_p2 /\
  (forall l, In l ex_lb -> moderate l) /\ (forall u, In u ex_ub -> moderate u) /\
  fst (sbx_crossover stream_rng pow_toy ex_p1 ex_p2 ex_lb ex_ub 1 done done []) = Ok ([dint 2; dint 0], [dint 2; dint 2]).
Proof.
  destruct (ex_box ex_p1 (or_introl eq_refl)), (ex_box ex_p2 (or_intror eq_refl)), ex_mod.
  refine (conj stream_contract (conj pow_toy_contract (conj ex_sbx_args (conj _ (conj _ (conj _ (conj _ (conj _ (conj _ (conj _ sbx_run)))))))))); try assumption. reflexivity.
Qed.
Lemma mut_example : mut_args ex_p1 ex_lb ex_ub 1 done done /\ Forall is_double ex_lb /\ Forall is_double ex_ub /\
  fst (polynomial_mutation stream_rng pow_toy ex_p1 ex_lb ex_ub 1 done done []) = Ok [dint 1; dint 0].
Proof. destruct ex_dbl. exact (conj ex_mut_args (conj H (conj H0 mut_run))). Qed.
