(** Genetic operators: exchange of integer genes, zero probabilities, counterexample. *)
From Coq Require Import List Bool Arith ZArith Lia.
From Verif Require Import Dbl DblFacts IntDbl Outcome BaseFacts Rng Problem SpecProblem ProblemFacts Generic SpecGeneric GenericFacts GenericFacts2 GenericFacts3 GeneticOps SpecGenetic RmFacts GeneticFacts GeneticFacts2.
Import ListNotations.

Section X.
Context {G : Type} (r : rng G) (RC : rng_contract r) (pw : dbl -> dbl -> dbl).

Definition inv2 (p1 p2 lb ub : list dbl) (nix : nat) (cs : list dbl * list dbl) : Prop :=
  length (fst cs) = length lb /\ length (snd cs) = length lb /\ exchanged p1 p2 (length lb - nix) (fst cs) (snd cs) /\
  kept_where_fixed p1 lb ub nix (fst cs) /\ kept_where_fixed p2 lb ub nix (snd cs).
Lemma sbx_gene_inv p1 p2 lb ub nix eta cs i : length p1 = length lb -> length p2 = length lb -> length ub = length lb -> i < length lb - nix ->
  inv2 p1 p2 lb ub nix cs -> always (sbx_gene r pw p1 p2 lb ub eta cs i) (inv2 p1 p2 lb ub nix) never.
Proof.
  intros L1 L2 LU Hi (K1 & K2 & X & F1 & F2). unfold sbx_gene.
  destruct (nth_ex p1 i) as (a & Ea); [lia|]. destruct (nth_ex p2 i) as (b & Eb); [lia|]. destruct (nth_ex lb i) as (l & El); [lia|]. destruct (nth_ex ub i) as (u & Eu); [lia|].
  assert (C0 : inv2 p1 p2 lb ub nix cs) by (split; [exact K1|]; split; [exact K2|]; split; [exact X|]; split; assumption).
  eapply always_bind; [apply draw01_ok; exact RC|]. intros v' _.
  eapply always_bind; [eapply always_vget with (Q := eq a); eauto|]. intros ? <-.
  eapply always_bind; [eapply always_vget with (Q := eq b); eauto|]. intros ? <-.
  eapply always_bind; [eapply always_vget with (Q := eq l); eauto|]. intros ? <-.
  eapply always_bind; [eapply always_vget with (Q := eq u); eauto|]. intros ? <-.
  destruct (dlt v' dhalf && dgt (dabs (dsub a b)) d1em14 && dneq l u) eqn:EC; [|apply always_ret; exact C0].
  apply andb_true_iff in EC. destruct EC as [_ NE].
  destruct (if dlt a b then (a, b) else (b, a)) as [y1 y2].
  eapply always_bind; [apply draw01_ok; exact RC|]. intros r01 _.
  destruct (sbx_values pw y1 y2 l u eta r01) as [c1 c2].
  eapply always_bind; [apply draw01_ok; exact RC|]. intros w _.
  destruct (if dlt w dhalf then (c1, c2) else (c2, c1)) as [d1 d2].
  eapply always_bind; [eapply always_vset with (Q := eq (upd (fst cs) i d1)); [lia|reflexivity]|]. intros ? <-.
  eapply always_bind; [eapply always_vset with (Q := eq (upd (snd cs) i d2)); [lia|reflexivity]|]. intros ? <-.
  apply always_ret. split; cbn [fst snd]; [now rewrite upd_length|]. split; [now rewrite upd_length|]. split; [|split].
  - intros j Hj. rewrite !nth_error_upd_neq by lia. apply X. exact Hj.
  - intros j l' u' Hj E1 E2 E3. destruct (Nat.eq_dec j i) as [->|N]; [rewrite El in E1; rewrite Eu in E2; injection E1 as <-; injection E2 as <-; unfold dneq in NE; rewrite E3 in NE; discriminate|].
    rewrite nth_error_upd_neq by auto. eapply F1; eauto.
  - intros j l' u' Hj E1 E2 E3. destruct (Nat.eq_dec j i) as [->|N]; [rewrite El in E1; rewrite Eu in E2; injection E1 as <-; injection E2 as <-; unfold dneq in NE; rewrite E3 in NE; discriminate|].
    rewrite nth_error_upd_neq by auto. eapply F2; eauto.
Qed.
Lemma sbx_swap_inv p1 p2 lb ub nix cs j : length p1 = length lb -> length p2 = length lb -> length lb - nix <= j < length lb ->
  inv2 p1 p2 lb ub nix cs -> always (G := G) (sbx_swap p1 p2 cs j) (inv2 p1 p2 lb ub nix) never.
Proof.
  intros L1 L2 Hj (K1 & K2 & X & F1 & F2). unfold sbx_swap.
  destruct (nth_ex p1 j) as (a & Ea); [lia|]. destruct (nth_ex p2 j) as (b & Eb); [lia|].
  eapply always_bind; [eapply always_vget with (Q := eq b); eauto|]. intros ? <-.
  eapply always_bind; [eapply always_vget with (Q := eq a); eauto|]. intros ? <-.
  eapply always_bind; [eapply always_vset with (Q := eq (upd (fst cs) j b)); [lia|reflexivity]|]. intros ? <-.
  eapply always_bind; [eapply always_vset with (Q := eq (upd (snd cs) j a)); [lia|reflexivity]|]. intros ? <-.
  apply always_ret. split; cbn [fst snd]; [now rewrite upd_length|]. split; [now rewrite upd_length|]. split; [|split].
  - intros k Hk. destruct (Nat.eq_dec k j) as [->|N]; [right; rewrite !nth_error_upd_eq by lia; split; congruence|].
    rewrite !nth_error_upd_neq by auto. apply X. exact Hk.
  - intros k l' u' Hk E1 E2 E3. rewrite nth_error_upd_neq by lia. eapply F1; eauto.
  - intros k l' u' Hk E1 E2 E3. rewrite nth_error_upd_neq by lia. eapply F2; eauto.
Qed.
Lemma sbx_exchange p1 p2 lb ub nix p_cr eta : length p1 = length lb -> length p2 = length lb -> length ub = length lb -> nix <= length lb ->
  always (sbx_crossover_impl r pw p1 p2 lb ub nix p_cr eta) (inv2 p1 p2 lb ub nix) never.
Proof.
  intros L1 L2 LU NX. unfold sbx_crossover_impl. rewrite L1.
  assert (C0 : inv2 p1 p2 lb ub nix (p1, p2)).
  { split; [exact L1|]. split; [exact L2|]. split; [intros j _; left; split; reflexivity|]. split; intros j l u _ _ _ _; reflexivity. }
  eapply always_bind; [apply draw01_ok; exact RC|]. intros v _. destruct (dlt v p_cr); [|apply always_ret; exact C0].
  eapply always_bind.
  - apply (always_fold _ (inv2 p1 p2 lb ub nix)); [|exact C0]. intros s a Ha Hs. apply in_seq in Ha. apply sbx_gene_inv; auto. lia.
  - intros cs Hcs. destruct (Nat.ltb_spec 0 nix); [|now apply always_ret].
    assert (DI : always (draw_int r (Z.of_nat (length lb - nix)) (Z.of_nat (length lb) - 1)) (fun k => (Z.of_nat (length lb - nix) <= k <= Z.of_nat (length lb) - 1)%Z) never).
    { intros g. unfold draw_int. destruct (Z.leb_spec (Z.of_nat (length lb - nix)) (Z.of_nat (length lb) - 1)); [|lia].
      unfold rdraw. pose proof (int_in r RC _ _ g H0) as I. destruct (g_int r _ _ g). exact I. }
    eapply always_bind; [exact DI|]. intros s1 H1. eapply always_bind; [exact DI|]. intros s2 H2. cbv beta in H1, H2.
    apply (always_fold _ (inv2 p1 p2 lb ub nix)); [|exact Hcs]. intros s a Ha Hs. apply in_seq in Ha. apply sbx_swap_inv; auto. lia.
Qed.

(** ** Zero probabilities *)
Lemma draw01_not_below p : dle p dzero = true -> always (draw01 r) (fun v => dlt v p = false) never.
Proof.
  intros H. eapply always_weak; [apply draw01_ok; exact RC|intros v (z & -> & Hz)|intros e []].
  apply dle_dlt_false. eapply dle_trans; [exact H|]. apply dle_fin. lia.
Qed.
Lemma sbx_zero p1 p2 lb ub nix p_cr eta : dle p_cr dzero = true -> always (sbx_crossover_impl r pw p1 p2 lb ub nix p_cr eta) (fun cs => cs = (p1, p2)) never.
Proof. intros H. unfold sbx_crossover_impl. eapply always_bind; [apply draw01_not_below; exact H|]. intros v Hv. cbv beta in Hv. rewrite Hv. now apply always_ret. Qed.
Lemma mut_zero c lb ub nix p_m eta : length c = length lb -> length ub = length lb -> nix <= length lb -> dle p_m dzero = true -> always (polynomial_mutation_impl r pw c lb ub nix p_m eta) (fun c' => c' = c) never.
Proof.
  intros L1 L2 NX H. unfold polynomial_mutation_impl. eapply always_bind.
  - apply (always_fold _ (fun c' => c' = c)); [|reflexivity]. intros s j Hj ->. apply in_seq in Hj. unfold mutate_gene.
    eapply always_bind; [apply draw01_not_below; exact H|]. intros v Hv. cbv beta in Hv.
    destruct (nth_ex lb j) as (l & El); [lia|]. destruct (nth_ex ub j) as (u & Eu); [lia|].
    eapply always_bind; [eapply always_vget with (Q := eq l); eauto|]. intros ? <-.
    eapply always_bind; [eapply always_vget with (Q := eq u); eauto|]. intros ? <-.
    rewrite Hv. cbn [andb]. now apply always_ret.
  - intros c' ->. apply (always_fold _ (fun c' => c' = c)); [|reflexivity]. intros s j Hj ->. unfold mutate_int.
    eapply always_bind; [apply draw01_not_below; exact H|]. intros v Hv. cbv beta in Hv. rewrite Hv. now apply always_ret.
Qed.
(** Mutation leaves the continuous genes with equal bounds. *)
Lemma mut_fixed c lb ub nix p_m eta : length c = length lb -> good_bounds lb ub nix -> Forall is_double lb -> Forall is_double ub ->
  always (polynomial_mutation_impl r pw c lb ub nix p_m eta) (fun c' => length c' = length lb /\ kept_where_fixed c lb ub nix c') (fun e => e = InvalidArgument).
Proof.
  intros L1 GB DL DU. pose proof GB as (_ & L2 & LU & NX & IB). unfold polynomial_mutation_impl. rewrite L1.
  set (I := fun c' => length c' = length lb /\ kept_where_fixed c lb ub nix c').
  assert (C0 : I c) by (split; [exact L1|intros j l u _ _ _ _; reflexivity]).
  eapply always_bind.
  - apply (always_fold _ I); [|exact C0]. intros s j Ha (K & F). apply in_seq in Ha. unfold mutate_gene.
    destruct (nth_ex s j) as (y & Ey); [lia|]. destruct (nth_ex lb j) as (l & El); [lia|]. destruct (nth_ex ub j) as (u & Eu); [lia|].
    eapply always_bind; [eapply always_weak; [apply draw01_ok; exact RC|intros a Hx; exact Hx|intros e []]|]. intros v _.
    eapply always_bind; [eapply always_vget with (Q := eq l); eauto|]. intros ? <-.
    eapply always_bind; [eapply always_vget with (Q := eq u); eauto|]. intros ? <-.
    destruct (dlt v p_m && dneq l u) eqn:EC; [|apply always_ret; split; assumption]. apply andb_true_iff in EC. destruct EC as [_ NE].
    eapply always_bind; [eapply always_vget with (Q := eq y); eauto|]. intros ? <-.
    eapply always_bind; [eapply always_weak; [apply draw01_ok; exact RC|intros a Hx; exact Hx|intros e []]|]. intros rr _.
    apply always_vset; [lia|]. split; [now rewrite upd_length|]. intros k l' u' Hk E1 E2 E3.
    destruct (Nat.eq_dec k j) as [->|N]; [rewrite El in E1; rewrite Eu in E2; injection E1 as <-; injection E2 as <-; unfold dneq in NE; rewrite E3 in NE; discriminate|].
    rewrite nth_error_upd_neq by auto. eapply F; eauto.
  - intros c' Hc. apply (always_fold _ I); [|exact Hc]. intros s j Ha (K & F). apply in_seq in Ha. unfold mutate_int.
    destruct (nth_ex lb j) as (l & El); [lia|]. destruct (nth_ex ub j) as (u & Eu); [lia|].
    eapply always_bind; [eapply always_weak; [apply draw01_ok; exact RC|intros a Hx; exact Hx|intros e []]|]. intros v _.
    destruct (dlt v p_m); [|apply always_ret; split; assumption].
    eapply always_bind; [eapply always_vget with (Q := eq l); eauto|]. intros ? <-.
    eapply always_bind; [eapply always_vget with (Q := eq u); eauto|]. intros ? <-.
    apply (always_bind _ _ (fun _ => True)).
    + intros g. rewrite Forall_forall in DL, DU. destruct (uniform_int_full r RC l u g) as [(m & E1 & _)|[E1 _]].
      * exact (proj2 (proj2 (LU j l u El Eu))). * apply DL. eapply nth_error_In; eauto. * apply DU. eapply nth_error_In; eauto.
      * exact (proj1 (IB j l u ltac:(lia) El Eu)). * exact (proj2 (IB j l u ltac:(lia) El Eu)).
      * rewrite E1. exact Logic.I.
      * rewrite E1. reflexivity.
    + intros m _. apply always_vset; [lia|]. split; [now rewrite upd_length|]. intros k l' u' Hk E1 E2 E3. rewrite nth_error_upd_neq by lia. eapply F; eauto.
Qed.
End X.

(** ** Counterexample: the width of the box overflows *)
Definition dhuge : dbl := Fin (2 ^ 2097).
Lemma huge_values pw : pow_contract pw -> fst (sbx_values pw (dneg dhuge) dhuge (dneg dhuge) dhuge done dzero) = NaN.
Proof.
  intros PC. unfold sbx_values. cbn [fst].
  replace (dsub (dneg dhuge) (dneg dhuge)) with dzero by (vm_compute; reflexivity).
  replace (dsub dhuge (dneg dhuge)) with PInf by (vm_compute; reflexivity).
  replace (dadd done (ddiv (dmul dtwo dzero) PInf)) with done by (vm_compute; reflexivity).
  unfold sbx_betaq. rewrite (pow_one pw PC).
  replace (dsub dtwo done) with done by (vm_compute; reflexivity).
  replace (dlt dzero (ddiv done done)) with true by (vm_compute; reflexivity).
  replace (dmul dzero done) with dzero by (vm_compute; reflexivity).
  rewrite (pow_zero pw PC) by (vm_compute; reflexivity). vm_compute. reflexivity.
Qed.
Lemma one_args l u p e : l <> NaN -> u <> NaN -> isfinite l = true -> isfinite u = true -> dle l u = true -> isfinite p = true -> isfinite e = true ->
  sbx_args [l] [u] [l] [u] 0 p e.
Proof.
  intros N1 N2 F1 F2 LE P E. split; [|split; [reflexivity|split; [reflexivity|split; [|split; assumption]]]].
  - split; [discriminate|]. split; [reflexivity|]. split.
    + intros [|[|i]] l' u' H1 H2; try discriminate. injection H1 as <-. injection H2 as <-. split; [|split]; assumption.
    + split; [apply Nat.le_0_l|]. intros [|[|i]] l' u' H H1 H2; try discriminate. inversion H.
  - split; intros x [<-|[]]; assumption.
Qed.
Lemma huge_args : sbx_args [dneg dhuge] [dhuge] [dneg dhuge] [dhuge] 0 done done.
Proof. apply one_args; try reflexivity; discriminate. Qed.
Lemma sbx_one {G} (r : rng G) pw a b l u p e z g c1 c2 : draw01 r g = (Ok z, g) -> dlt z p = true -> dlt z dhalf = true -> dgt (dabs (dsub a b)) d1em14 = true -> dneq l u = true ->
  dlt a b = true -> sbx_values pw a b l u e z = (c1, c2) -> sbx_crossover_impl r pw [a] [b] [l] [u] 0 p e g = (Ok ([c1], [c2]), g).
Proof.
  intros D H1 H2 H3 H4 H5 H6. unfold sbx_crossover_impl. cbn [length Nat.sub seq Nat.ltb Nat.leb rfold].
  unfold sbx_gene, rlift, rbind, vget, vset, rret. rewrite D. cbv beta iota. rewrite H1, D. cbn [nth_error fst snd length Nat.ltb Nat.leb].
  rewrite H2, H3, H4, H5. cbn [andb]. rewrite D. cbv beta iota. rewrite H6, D. cbv beta iota. rewrite H2. reflexivity.
Qed.
Lemma draw01_stream : draw01 stream_rng [] = (Ok dzero, []).
Proof. vm_compute. reflexivity. Qed.
Lemma huge_gap : dgt (dabs (dsub (dneg dhuge) dhuge)) d1em14 = true.
Proof. vm_compute. reflexivity. Qed.
Lemma lt01 : dlt dzero done = true. Proof. vm_compute. reflexivity. Qed.
Lemma lt0h : dlt dzero dhalf = true. Proof. vm_compute. reflexivity. Qed.
Lemma huge_neq : dneq (dneg dhuge) dhuge = true. Proof. vm_compute. reflexivity. Qed.
Lemma huge_lt : dlt (dneg dhuge) dhuge = true. Proof. vm_compute. reflexivity. Qed.
Lemma sbx_nan_refuted : forall pw, pow_contract pw -> exists (g : list Z) c2,
  fst (sbx_crossover stream_rng pw [dneg dhuge] [dhuge] [dneg dhuge] [dhuge] 0 done done g) = Ok ([NaN], c2).
Proof.
  intros pw PC. exists []. pose proof (huge_values pw PC) as HV.
  destruct (sbx_public stream_rng pw [dneg dhuge] [dhuge] [dneg dhuge] [dhuge] 0 done done) as [[_ E]|[H _]]; [|exfalso; exact (H huge_args)].
  destruct (sbx_values pw (dneg dhuge) dhuge (dneg dhuge) dhuge done dzero) as [c1 c2] eqn:EV. cbn [fst] in HV. subst c1.
  exists [c2]. rewrite E.
  pose proof (sbx_one stream_rng pw (dneg dhuge) dhuge (dneg dhuge) dhuge done done dzero [] NaN c2 draw01_stream lt01 lt0h huge_gap huge_neq huge_lt EV) as K.
  rewrite K. reflexivity.
Qed.

(** ** An instance of the pow contract *)
Definition pow_toy (x y : dbl) : dbl :=
  match x, y with
  | NaN, _ => NaN | _, NaN => done
  | _, _ => if deq x done then done else if deq x dzero && dlt dzero y then dzero else done
  end.
Lemma pow_toy_contract : pow_contract pow_toy.
Proof.
  assert (O : dle dzero done = true) by (vm_compute; reflexivity). assert (O1 : dle done done = true) by (vm_compute; reflexivity).
  assert (O0 : dle dzero dzero = true) by (vm_compute; reflexivity).
  assert (R : forall x y, x <> NaN -> pow_toy x y = done \/ pow_toy x y = dzero).
  { intros x y H. unfold pow_toy. destruct x; try congruence; destruct y; auto; destruct (deq _ done); auto; destruct (_ && _); auto. }
  split.
  - intros x y H _. destruct (R x y) as [->| ->]; auto. intros ->. discriminate.
  - intros x y H _. destruct (R x y) as [->| ->]; auto. intros ->. discriminate.
  - intros x y H _ _. destruct (R x y) as [->| ->]; auto. intros ->. discriminate.
  - intros y. unfold pow_toy, done. destruct y; auto; replace (deq (Fin one_z) (Fin one_z)) with true by (vm_compute; reflexivity); reflexivity.
  - intros y H. unfold pow_toy, dzero. destruct y; try discriminate; replace (deq (Fin 0) done) with false by (vm_compute; reflexivity); replace (deq (Fin 0) (Fin 0)) with true by (vm_compute; reflexivity); fold dzero; rewrite H; reflexivity.
Qed.
