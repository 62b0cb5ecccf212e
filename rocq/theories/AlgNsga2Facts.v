From Coq Require Import List Bool Arith ZArith Lia Permutation.
From Verif Require Import Dbl DblFacts IntDbl Outcome BaseFacts StdSort Compare SpecOrder CompareFacts MultiObj SpecMultiObj FndsFacts CrowdFacts MultiObjFacts MultiObjFacts2 Problem SpecProblem Rng Generic SpecGeneric GenericFacts GenericFacts2 GenericFacts3
  SpecGenetic RmFacts GeneticOps GeneticFacts GeneticFacts2 GeneticFacts3 Population SpecPopulation PopulationFacts ProblemFacts Algo SpecAlgo AlgoFacts AlgoFacts2 AlgSga SpecSga AlgSgaFacts4 AlgNsga2 SpecNsga2.
Import ListNotations.

(** ** The genetic operators on arbitrary vectors: gene i of a child is one that Okg allows, if
    those of the parents are and everything in the bounds is. *)
Section Ops.
Context {G : Type} (r : rng G) (RC : rng_contract r) (pw : dbl -> dbl -> dbl) (lb ub : list dbl) (nix : nat) (GB : good_bounds lb ub nix) (Okg : nat -> dbl -> Prop)
  (HO : forall i l u v, nth_error lb i = Some l -> nth_error ub i = Some u -> v = NaN \/ within l u v -> Okg i v).
Definition okx (x : list dbl) : Prop := length x = length lb /\ forall i v, nth_error x i = Some v -> Okg i v.
Lemma okx_upd x i v : okx x -> Okg i v -> okx (upd x i v).
Proof.
  intros [L H] K. split; [now rewrite upd_len|]. intros j w Nw. destruct (Nat.eq_dec j i) as [->|N].
  - assert (i < length x) by (rewrite <- (upd_len x i v); apply nth_error_Some; congruence). rewrite upd_same in Nw by assumption. congruence.
  - rewrite upd_other in Nw by exact N. eauto.
Qed.
Lemma ub_length : length ub = length lb. Proof. destruct GB as (_ & H & _). congruence. Qed.
Lemma sbx_keeps p1 p2 p_cr eta : okx p1 -> okx p2 -> always (sbx_crossover_impl r pw p1 p2 lb ub nix p_cr eta) (fun cs => okx (fst cs) /\ okx (snd cs)) never.
Proof.
  intros B1 B2. pose proof GB as (_ & _ & LU & NX & _). pose proof ub_length as UL. unfold sbx_crossover_impl. pose proof B1 as (L1 & P1). pose proof B2 as (L2 & P2). rewrite L1.
  eapply always_bind; [apply draw01_ok; auto|]. intros v _. destruct (dlt v p_cr); [|apply always_ret; split; assumption].
  eapply always_bind.
  - apply (always_fold _ (fun cs => okx (fst cs) /\ okx (snd cs))); [|split; assumption]. intros cs i Hi (C1 & C2). apply in_seq in Hi. unfold sbx_gene. pose proof C1 as (K1 & _). pose proof C2 as (K2 & _).
    destruct (nth_ex p1 i) as (a & Ea); [lia|]. destruct (nth_ex p2 i) as (b & Eb); [lia|]. destruct (nth_ex lb i) as (l & El); [lia|]. destruct (nth_ex ub i) as (u & Eu); [lia|].
    eapply always_bind; [apply draw01_ok; auto|]. intros v' _.
    eapply always_bind; [eapply always_vget with (Q := eq a); eauto|]. intros ? <-.
    eapply always_bind; [eapply always_vget with (Q := eq b); eauto|]. intros ? <-.
    eapply always_bind; [eapply always_vget with (Q := eq l); eauto|]. intros ? <-.
    eapply always_bind; [eapply always_vget with (Q := eq u); eauto|]. intros ? <-.
    destruct (dlt v' dhalf && dgt (dabs (dsub a b)) d1em14 && dneq l u); [|apply always_ret; split; auto].
    destruct (if dlt a b then (a, b) else (b, a)) as [y1 y2].
    eapply always_bind; [apply draw01_ok; auto|]. intros r01 _.
    assert (DL : dle l u = true) by (exact (proj2 (proj2 (LU _ _ _ El Eu)))).
    assert (V1 : forall t, fst (sbx_values pw y1 y2 l u eta t) = NaN \/ within l u (fst (sbx_values pw y1 y2 l u eta t))) by (intros; now apply stick_or_nan).
    assert (V2 : forall t, snd (sbx_values pw y1 y2 l u eta t) = NaN \/ within l u (snd (sbx_values pw y1 y2 l u eta t))) by (intros; now apply stick_or_nan).
    specialize (V1 r01). specialize (V2 r01). destruct (sbx_values pw y1 y2 l u eta r01) as [c1 c2]. cbn [fst snd] in V1, V2.
    eapply always_bind; [apply draw01_ok; auto|]. intros w _.
    set (dd := if dlt w dhalf then (c1, c2) else (c2, c1)).
    assert (D : (fst dd = NaN \/ within l u (fst dd)) /\ (snd dd = NaN \/ within l u (snd dd))) by (unfold dd; destruct (dlt w dhalf); auto).
    destruct dd as [d1 d2]. cbn [fst snd] in D. destruct D as [D1 D2].
    eapply always_bind; [eapply always_vset with (Q := eq (upd (fst cs) i d1)); [lia|reflexivity]|]. intros ? <-.
    eapply always_bind; [eapply always_vset with (Q := eq (upd (snd cs) i d2)); [lia|reflexivity]|]. intros ? <-.
    apply always_ret. split; cbn [fst snd]; apply okx_upd; eauto.
  - intros cs Hcs. destruct (Nat.ltb_spec 0 nix); [|now apply always_ret].
    assert (DI : always (draw_int r (Z.of_nat (length lb - nix)) (Z.of_nat (length lb) - 1)) (fun k => (Z.of_nat (length lb - nix) <= k <= Z.of_nat (length lb) - 1)%Z) never).
    { intros g. unfold draw_int. destruct (Z.leb_spec (Z.of_nat (length lb - nix)) (Z.of_nat (length lb) - 1)); [|lia].
      unfold rdraw. pose proof (int_in r RC _ _ g H0) as I. destruct (g_int r _ _ g). exact I. }
    eapply always_bind; [exact DI|]. intros s1 H1. eapply always_bind; [exact DI|]. intros s2 H2. cbv beta in H1, H2.
    apply (always_fold _ (fun cs => okx (fst cs) /\ okx (snd cs))); [|exact Hcs]. intros s j Ha (C1 & C2). apply in_seq in Ha. unfold sbx_swap.
    pose proof C1 as (K1 & _). pose proof C2 as (K2 & _).
    destruct (nth_ex p1 j) as (a & Ea); [lia|]. destruct (nth_ex p2 j) as (b & Eb); [lia|].
    eapply always_bind; [eapply always_vget with (Q := eq b); eauto|]. intros ? <-.
    eapply always_bind; [eapply always_vget with (Q := eq a); eauto|]. intros ? <-.
    eapply always_bind; [eapply always_vset with (Q := eq (upd (fst s) j b)); [lia|reflexivity]|]. intros ? <-.
    eapply always_bind; [eapply always_vset with (Q := eq (upd (snd s) j a)); [lia|reflexivity]|]. intros ? <-.
    apply always_ret. split; cbn [fst snd]; apply okx_upd; eauto.
Qed.
Lemma mutation_keeps c p_m eta (E : exn -> Prop) : Forall is_double lb -> Forall is_double ub -> okx c -> (~ ints_fit nix lb ub -> E InvalidArgument) ->
  always (polynomial_mutation_impl r pw c lb ub nix p_m eta) okx E.
Proof.
  intros DL DU B HE. pose proof GB as (_ & _ & LU & NX & IB). pose proof ub_length as UL. unfold polynomial_mutation_impl. assert (LEN : length c = length lb) by apply B. rewrite LEN.
  eapply always_bind.
  - apply (always_fold _ okx); [|exact B]. intros s j Ha C. apply in_seq in Ha. pose proof C as (K & _). unfold mutate_gene.
    destruct (nth_ex s j) as (y & Ey); [lia|]. destruct (nth_ex lb j) as (l & El); [lia|]. destruct (nth_ex ub j) as (u & Eu); [lia|].
    eapply always_bind; [eapply always_weak; [apply draw01_ok; auto|intros a Hx; exact Hx|intros e []]|]. intros v _.
    eapply always_bind; [eapply always_vget with (Q := eq l); eauto|]. intros ? <-.
    eapply always_bind; [eapply always_vget with (Q := eq u); eauto|]. intros ? <-.
    destruct (dlt v p_m && dneq l u); [|apply always_ret; auto].
    eapply always_bind; [eapply always_vget with (Q := eq y); eauto|]. intros ? <-.
    eapply always_bind; [eapply always_weak; [apply draw01_ok; auto|intros a Hx; exact Hx|intros e []]|]. intros rr _.
    apply always_vset; [lia|]. apply okx_upd; [exact C|]. eapply HO; eauto. apply stick_or_nan. exact (proj2 (proj2 (LU _ _ _ El Eu))).
  - intros c' Hc. apply (always_fold _ okx); [|exact Hc]. intros s j Ha C. apply in_seq in Ha. pose proof C as (K & _). unfold mutate_int.
    destruct (nth_ex lb j) as (l & El); [lia|]. destruct (nth_ex ub j) as (u & Eu); [lia|].
    eapply always_bind; [eapply always_weak; [apply draw01_ok; auto|intros a Hx; exact Hx|intros e []]|]. intros v _.
    destruct (dlt v p_m); [|apply always_ret; auto].
    eapply always_bind; [eapply always_vget with (Q := eq l); eauto|]. intros ? <-.
    eapply always_bind; [eapply always_vget with (Q := eq u); eauto|]. intros ? <-.
    apply (always_bind _ _ (within l u)).
    + intros g. rewrite Forall_forall in DL, DU. destruct (uniform_int_full r RC l u g) as [(m & E1 & E2 & E3 & _)|[E1 E2]].
      * exact (proj2 (proj2 (LU j l u El Eu))). * apply DL. eapply nth_error_In; eauto. * apply DU. eapply nth_error_In; eauto.
      * exact (proj1 (IB j l u ltac:(lia) El Eu)). * exact (proj2 (IB j l u ltac:(lia) El Eu)).
      * rewrite E1. auto.
      * rewrite E1. apply HE. intros F. apply E2. exact (F j l u ltac:(lia) El Eu).
    + intros m W. apply always_vset; [lia|]. apply okx_upd; eauto.
Qed.
End Ops.
