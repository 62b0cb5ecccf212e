(** Mutation, selection, argument checks and counterexamples. *)
From Coq Require Import List Bool Arith ZArith Lia.
From Verif Require Import Dbl DblFacts IntDbl Outcome BaseFacts Rng Problem SpecProblem ProblemFacts Generic SpecGeneric GenericFacts GenericFacts2 GenericFacts3 GeneticOps SpecGenetic RmFacts GeneticFacts.
Import ListNotations.

Lemma ddiv_unit x w : (0 <= x <= w)%Z -> (0 < w)%Z -> exists z, ddiv (Fin x) (Fin w) = Fin z /\ (0 <= z <= one_z)%Z.
Proof.
  intros H K. cbn [ddiv]. destruct (Z.eqb_spec w 0); [lia|]. destruct (Z.ltb_spec w 0); [lia|]. pose proof one_z_pos.
  apply rnd_between; [lia|apply dbl0|apply dbl1|nia].
Qed.
Lemma half_z : dhalf = Fin (2 ^ 1073). Proof. unfold dhalf. reflexivity. Qed.
Lemma half_twice : (2 * 2 ^ 1073 = one_z)%Z.
Proof. unfold one_z. replace 1074%Z with (1 + 1073)%Z by reflexivity. rewrite Z.pow_add_r by lia. reflexivity. Qed.

Local Opaque one_z dhalf d1em14 Z.pow.
Section F.
Context {G : Type} (r : rng G) (RC : rng_contract r) (pw : dbl -> dbl -> dbl) (PC : pow_contract pw).

Lemma sub_mono_finite x y z : (Z.abs (y - x) <= 2 ^ 2097)%Z -> (x <= y <= z)%Z -> (Z.abs (z - x) <= 2 ^ 2097)%Z ->
  exists a b, dsub (Fin y) (Fin x) = Fin a /\ dsub (Fin z) (Fin x) = Fin b /\ (0 <= a <= b)%Z.
Proof.
  intros H1 H2 H3. cbn [dsub dneg dadd]. change (y + - x)%Z with (y - x)%Z. change (z + - x)%Z with (z - x)%Z.
  destruct (rnd_finite _ H1) as (a & Ea), (rnd_finite _ H3) as (b & Eb). exists a, b. split; auto. split; auto.
  pose proof (rnd_mono (y - x) (z - x) 1 ltac:(lia) ltac:(lia)) as M. rewrite Ea, Eb in M. apply dle_fin in M. split; [|lia].
  pose proof (rnd_nonneg (y - x) 1 ltac:(lia) ltac:(lia)) as N. rewrite Ea in N. apply nonneg_cases in N. destruct N as [N|(q & E & Q)]; [discriminate|]. injection E as ->. auto.
Qed.

Lemma mutate_value_ok y l u eta z : moderate l -> moderate u -> within l u y -> dneq l u = true -> nonneg eta -> isfinite eta = true -> (0 <= z <= one_z)%Z ->
  within l u (mutate_value pw y l u eta (Fin z)).
Proof.
  intros Ml Mu W NE HE FE HZ. assert (LU : dle l u = true) by (destruct W; eapply dle_trans; eauto).
  destruct (moderate_between l u y Ml Mu W) as (zl & zu & zy & -> & -> & -> & Hy & Bl & Bu & By).
  assert (LT : (zl < zu)%Z). { unfold dneq in NE. cbn in NE. apply negb_true_iff in NE. apply Z.eqb_neq in NE. lia. }
  destruct (moderate_sub zu zl Bu Bl) as [S1 _]. destruct (moderate_sub zy zl By Bl) as [S2 _]. destruct (moderate_sub zu zy Bu By) as [S3 _].
  destruct (dsub_pos_finite zl zu LT S1) as (w & Ew & Hw).
  destruct (sub_mono_finite zl zy zu S2 Hy S1) as (a & w' & Ea & Ew' & Ha). rewrite Ew in Ew'. injection Ew' as <-.
  assert (exists b, dsub (Fin zu) (Fin zy) = Fin b /\ (0 <= b <= w)%Z) as (b & Eb & Hb).
  { destruct (sub_mono_finite (- zu) (- zy) (- zl)) as (b & w' & Eb & Ew' & Hb); try lia. cbn [dsub dneg dadd] in *.
    rewrite Z.opp_involutive in *. rewrite (Z.add_comm (- zy)) in Eb. rewrite (Z.add_comm (- zl)) in Ew'. exists b. split; auto. rewrite Ew in Ew'. injection Ew' as ->. auto. }
  unfold mutate_value. rewrite Ea, Eb, Ew.
  destruct (ddiv_unit a w Ha Hw) as (d1 & E1 & H1). destruct (ddiv_unit b w Hb Hw) as (d2 & E2 & H2). rewrite E1, E2.
  destruct (one_minus d1 H1) as (x1 & F1 & X1). destruct (one_minus d2 H2) as (x2 & F2 & X2). rewrite F1, F2.
  pose proof (eta_plus eta HE FE) as EP. destruct (one_div_eta _ EP) as [D1 D2].
  assert (EPN : dle dzero (dadd eta done) = true) by (eapply dle_trans; [|exact EP]; reflexivity).
  assert (PB : forall x, (0 <= x <= one_z)%Z -> exists p, pw (Fin x) (dadd eta done) = Fin p /\ (0 <= p <= one_z)%Z).
  { intros x Hx. apply between_fin; [apply (pow_nonneg pw PC)|apply (pow_small pw PC)]; auto; try (apply dle_fin; lia). apply dle_not_nan in EPN. tauto. }
  destruct (PB x1 X1) as (p1 & G1 & P1). destruct (PB x2 X2) as (p2 & G2 & P2). rewrite G1, G2.
  pose proof one_z_pos as OP. pose proof half_twice as HT.
  assert (FIN : forall dq, dq <> NaN -> within (Fin zl) (Fin zu) (stick1 (dadd (Fin zy) (dmul dq (Fin w))) (Fin zl) (Fin zu))).
  { intros dq Hq. apply (stick1_spec _ _ _ LU). apply dadd_fin_not_nan. now apply dmul_pos_not_nan. }
  apply FIN. destruct (dlt (Fin z) dhalf) eqn:EH.
  - rewrite half_z in EH. cbn [dlt] in EH. apply Z.ltb_lt in EH.
    assert (exists t, dmul dtwo (Fin z) = Fin t /\ (0 <= t <= one_z)%Z) as (t & Et & Ht).
    { rewrite dtwo_eq. cbn [dmul]. apply rnd_between; [lia|apply dbl0|apply dbl1|nia]. }
    rewrite Et. destruct (one_minus t Ht) as (q & Eq & Hq). rewrite Eq. destruct (mul_unit1 q p1 Hq P1) as (s & Es & Hs). rewrite Es.
    assert (V : nonneg (dadd (Fin t) (Fin s))) by (apply dadd_nonneg; apply nonneg_fin; lia).
    pose proof (pow_nonneg pw PC _ _ V D2) as PV. fold (nonneg (pw (dadd (Fin t) (Fin s)) (ddiv done (dadd eta done)))) in PV. apply nonneg_cases in PV. destruct PV as [->|(k & -> & _)]; [discriminate|apply rnd_not_nan].
  - rewrite half_z in EH. cbn [dlt] in EH. apply Z.ltb_ge in EH.
    destruct (one_minus z HZ) as (t & Et & Ht). rewrite Et. destruct (twice_unit t Ht) as (t2 & Et2 & Ht2). rewrite Et2.
    assert (exists q, dsub (Fin z) dhalf = Fin q /\ (0 <= q <= one_z)%Z) as (q & Eq & Hq).
    { rewrite half_z. cbn [dsub dneg dadd]. apply rnd_between; [lia|apply dbl0|apply dbl1|lia]. }
    rewrite Eq. destruct (twice_unit q Hq) as (q2 & Eq2 & Hq2). rewrite Eq2.
    assert (V : nonneg (dadd (Fin t2) (dmul (Fin q2) (Fin p2)))) by (apply dadd_nonneg; [apply nonneg_fin; lia|apply nonneg_dmul_fin; lia]).
    pose proof (pow_nonneg pw PC _ _ V D2) as PV. unfold done at 1. apply sub_nonneg_not_nan. exact PV.
Qed.

Definition good1 (lb ub : list dbl) (nix : nat) (c : list dbl) : Prop := in_box lb ub c /\ integral_tail nix c.
Lemma mutate_gene_ok lb ub nix p_m eta c j : (forall l, In l lb -> moderate l) -> (forall u, In u ub -> moderate u) -> nonneg eta -> isfinite eta = true ->
  j < length lb - nix -> good1 lb ub nix c -> always (mutate_gene r pw lb ub p_m eta c j) (good1 lb ub nix) never.
Proof.
  intros ML MU HE FE Hj (C & I). pose proof C as (K & K' & B). unfold mutate_gene.
  destruct (nth_ex c j) as (y & Ey); [lia|]. destruct (nth_ex lb j) as (l & El); [lia|]. destruct (nth_ex ub j) as (u & Eu); [lia|].
  eapply always_bind; [apply draw01_ok; auto|]. intros v _.
  eapply always_bind; [eapply always_vget with (Q := eq l); eauto|]. intros ? <-.
  eapply always_bind; [eapply always_vget with (Q := eq u); eauto|]. intros ? <-.
  destruct (dlt v p_m && dneq l u) eqn:EC; [|apply always_ret; split; auto]. apply andb_true_iff in EC. destruct EC as [_ EC].
  eapply always_bind; [eapply always_vget with (Q := eq y); eauto|]. intros ? <-.
  eapply always_bind; [apply draw01_ok; auto|]. intros ? (z & -> & HZ).
  apply always_vset; [lia|]. split.
  - eapply in_box_upd; eauto. apply mutate_value_ok; auto; [apply ML; eapply nth_error_In; eauto|apply MU; eapply nth_error_In; eauto|eauto].
  - apply integral_tail_upd; auto. left. lia.
Qed.
Lemma int_checks_tt l u : dle l u = true -> (isfinite l = true -> integral l) -> (isfinite u = true -> integral u) -> int_checks true true true l u = int_checks true true false l u.
Proof.
  intros H Il Iu. unfold int_checks. destruct (isfinite l) eqn:Fl, (isfinite u) eqn:Fu; cbn [negb andb orb throw_if bind]; auto.
  assert (T : forall x, integral x -> dneq (dtrunc x) x = false).
  { intros x (k & ->). cbn [dtrunc]. rewrite Z.quot_mul by apply one_z_nz. unfold dneq. cbn. now rewrite Z.eqb_refl. }
  rewrite (T l), (T u) by auto. reflexivity.
Qed.
Lemma uniform_int_full l u g : dle l u = true -> is_double l -> is_double u -> (isfinite l = true -> integral l) -> (isfinite u = true -> integral u) ->
  (exists v, fst (uniform_integral_from_range r l u g) = Ok v /\ within l u v /\ integral v /\ ok_int l u) \/
  (fst (uniform_integral_from_range r l u g) = Throw InvalidArgument /\ ~ ok_int l u).
Proof.
  intros H Dl Du Il Iu. destruct (uniform_int_spec r RC l u true g H Dl Du Il Iu) as [X|X]; [left|right];
  unfold uniform_integral_from_range, uniform_integral_impl in *; rewrite int_checks_tt by auto; exact X.
Qed.
Lemma mutate_int_ok lb ub nix p_m c j (E : exn -> Prop) : good_bounds lb ub nix -> Forall is_double lb -> Forall is_double ub ->
  length lb - nix <= j < length lb -> good1 lb ub nix c -> (~ ints_fit nix lb ub -> E InvalidArgument) -> always (mutate_int r lb ub p_m c j) (good1 lb ub nix) E.
Proof.
  intros (_ & _ & LU & _ & IB) DL DU Hj (C & I) HE. pose proof C as (K & K' & B). unfold mutate_int.
  destruct (nth_ex lb j) as (l & El); [lia|]. destruct (nth_ex ub j) as (u & Eu); [lia|].
  eapply always_bind; [eapply always_weak; [apply draw01_ok; auto|intros a Ha; exact Ha|intros e []]|]. intros v _.
  destruct (dlt v p_m); [|apply always_ret; split; auto].
  eapply always_bind; [eapply always_vget with (Q := eq l); eauto|]. intros ? <-.
  eapply always_bind; [eapply always_vget with (Q := eq u); eauto|]. intros ? <-.
  apply (always_bind _ _ (fun m => within l u m /\ integral m)).
  - intros g. rewrite Forall_forall in DL, DU. destruct (uniform_int_full l u g) as [(m & E1 & E2 & E3 & _)|[E1 E2]].
    + exact (proj2 (proj2 (LU j l u El Eu))). + apply DL. eapply nth_error_In; eauto. + apply DU. eapply nth_error_In; eauto.
    + exact (proj1 (IB j l u ltac:(lia) El Eu)). + exact (proj2 (IB j l u ltac:(lia) El Eu)).
    + rewrite E1. auto.
    + rewrite E1. apply HE. intros F. apply E2. exact (F j l u ltac:(lia) El Eu).
  - intros m (W & Im). apply always_vset; [lia|]. split; [eapply in_box_upd; eauto|apply integral_tail_upd; auto].
Qed.
Lemma mutation_impl_ok c lb ub nix p_m eta (E : exn -> Prop) : good_bounds lb ub nix -> Forall is_double lb -> Forall is_double ub -> good1 lb ub nix c ->
  (forall l, In l lb -> moderate l) -> (forall u, In u ub -> moderate u) -> nonneg eta -> isfinite eta = true -> (~ ints_fit nix lb ub -> E InvalidArgument) ->
  always (polynomial_mutation_impl r pw c lb ub nix p_m eta) (good1 lb ub nix) E.
Proof.
  intros GB DL DU GC ML MU HE FE HX. unfold polynomial_mutation_impl. assert (LEN : length c = length lb) by apply GC. rewrite LEN.
  assert (NX : nix <= length lb) by apply GB.
  eapply always_bind.
  - apply (always_fold _ (good1 lb ub nix)); [|exact GC]. intros s a Ha Hs. apply in_seq in Ha.
    eapply always_weak with (Q := good1 lb ub nix) (E := never); [apply mutate_gene_ok; auto; lia|auto|intros e []].
  - intros c' Hc. apply (always_fold _ (good1 lb ub nix)); [|exact Hc]. intros s a Ha Hs. apply in_seq in Ha. apply mutate_int_ok; auto. lia.
Qed.

(** ** Without assumptions on the size of the bounds, on eta or on pow *)
Definition goodn2 (lb ub : list dbl) (cs : list dbl * list dbl) : Prop := in_box_or_nan lb ub (fst cs) /\ in_box_or_nan lb ub (snd cs).
Lemma sbx_or_nan p1 p2 lb ub nix p_cr eta : in_box lb ub p1 -> in_box lb ub p2 -> good_bounds lb ub nix ->
  always (sbx_crossover_impl r pw p1 p2 lb ub nix p_cr eta) (goodn2 lb ub) never.
Proof.
  intros B1 B2 (_ & _ & LU & NX & _). unfold sbx_crossover_impl. assert (LEN : length p1 = length lb) by apply B1. rewrite LEN.
  assert (WK : forall x, in_box lb ub x -> in_box_or_nan lb ub x).
  { intros x (X1 & X2 & X3). split; auto. split; auto. intros. right. eauto. }
  assert (G0 : goodn2 lb ub (p1, p2)) by (split; apply WK; auto).
  eapply always_bind; [apply draw01_ok; auto|]. intros v _. destruct (dlt v p_cr); [|apply always_ret; exact G0].
  pose proof B1 as (L1 & L1' & P1). pose proof B2 as (L2 & L2' & P2).
  eapply always_bind.
  - apply (always_fold _ (goodn2 lb ub)); [|exact G0]. intros cs i Hi (C1 & C2). apply in_seq in Hi. unfold sbx_gene.
    pose proof C1 as (K1 & K1' & _). pose proof C2 as (K2 & K2' & _).
    destruct (nth_ex p1 i) as (a & Ea); [lia|]. destruct (nth_ex p2 i) as (b & Eb); [lia|]. destruct (nth_ex lb i) as (l & El); [lia|]. destruct (nth_ex ub i) as (u & Eu); [lia|].
    eapply always_bind; [apply draw01_ok; auto|]. intros v' _.
    eapply always_bind; [eapply always_vget with (Q := eq a); eauto|]. intros ? <-.
    eapply always_bind; [eapply always_vget with (Q := eq b); eauto|]. intros ? <-.
    eapply always_bind; [eapply always_vget with (Q := eq l); eauto|]. intros ? <-.
    eapply always_bind; [eapply always_vget with (Q := eq u); eauto|]. intros ? <-.
    destruct (dlt v' dhalf && dgt (dabs (dsub a b)) d1em14 && dneq l u); [|apply always_ret; split; auto].
    destruct (if dlt a b then (a, b) else (b, a)) as [y1 y2].
    eapply always_bind; [apply draw01_ok; auto|]. intros r01 _.
    assert (DL : dle l u = true) by (exact (proj2 (proj2 (LU _ _ _ El Eu)))).
    assert (V1 : forall t, fst (sbx_values pw y1 y2 l u eta t) = NaN \/ within l u (fst (sbx_values pw y1 y2 l u eta t))) by (intros; now apply stick_or_nan).
    assert (V2 : forall t, snd (sbx_values pw y1 y2 l u eta t) = NaN \/ within l u (snd (sbx_values pw y1 y2 l u eta t))) by (intros; now apply stick_or_nan).
    specialize (V1 r01). specialize (V2 r01). destruct (sbx_values pw y1 y2 l u eta r01) as [c1 c2]. cbn [fst snd] in V1, V2.
    eapply always_bind; [apply draw01_ok; auto|]. intros w _.
    set (dd := if dlt w dhalf then (c1, c2) else (c2, c1)).
    assert (D : (fst dd = NaN \/ within l u (fst dd)) /\ (snd dd = NaN \/ within l u (snd dd))) by (unfold dd; destruct (dlt w dhalf); auto).
    destruct dd as [d1 d2]. cbn [fst snd] in D. destruct D as [D1 D2].
    eapply always_bind; [eapply always_vset with (Q := eq (upd (fst cs) i d1)); [lia|reflexivity]|]. intros ? <-.
    eapply always_bind; [eapply always_vset with (Q := eq (upd (snd cs) i d2)); [lia|reflexivity]|]. intros ? <-.
    apply always_ret. split; cbn [fst snd]; eapply in_box_nan_upd; eauto.
  - intros cs Hcs. destruct (Nat.ltb_spec 0 nix); [|now apply always_ret].
    assert (DI : always (draw_int r (Z.of_nat (length lb - nix)) (Z.of_nat (length lb) - 1)) (fun k => (Z.of_nat (length lb - nix) <= k <= Z.of_nat (length lb) - 1)%Z) never).
    { intros g. unfold draw_int. destruct (Z.leb_spec (Z.of_nat (length lb - nix)) (Z.of_nat (length lb) - 1)); [|lia].
      unfold rdraw. pose proof (int_in r RC _ _ g H0) as I. destruct (g_int r _ _ g). exact I. }
    eapply always_bind; [exact DI|]. intros s1 H1. eapply always_bind; [exact DI|]. intros s2 H2. cbv beta in H1, H2.
    apply (always_fold _ (goodn2 lb ub)); [|exact Hcs]. intros s j Ha (C1 & C2). apply in_seq in Ha. unfold sbx_swap.
    pose proof C1 as (K1 & K1' & _). pose proof C2 as (K2 & K2' & _).
    destruct (nth_ex p1 j) as (a & Ea); [lia|]. destruct (nth_ex p2 j) as (b & Eb); [lia|]. destruct (nth_ex lb j) as (l & El); [lia|]. destruct (nth_ex ub j) as (u & Eu); [lia|].
    eapply always_bind; [eapply always_vget with (Q := eq b); eauto|]. intros ? <-.
    eapply always_bind; [eapply always_vget with (Q := eq a); eauto|]. intros ? <-.
    eapply always_bind; [eapply always_vset with (Q := eq (upd (fst s) j b)); [lia|reflexivity]|]. intros ? <-.
    eapply always_bind; [eapply always_vset with (Q := eq (upd (snd s) j a)); [lia|reflexivity]|]. intros ? <-.
    apply always_ret. split; cbn [fst snd]; eapply in_box_nan_upd; eauto; right; eauto.
Qed.
Lemma mutation_or_nan c lb ub nix p_m eta : good_bounds lb ub nix -> Forall is_double lb -> Forall is_double ub -> in_box lb ub c ->
  always (polynomial_mutation_impl r pw c lb ub nix p_m eta) (in_box_or_nan lb ub) (fun e => e = InvalidArgument).
Proof.
  intros GB DL DU B. pose proof GB as (_ & _ & LU & NX & IB). unfold polynomial_mutation_impl. assert (LEN : length c = length lb) by apply B. rewrite LEN.
  assert (G0 : in_box_or_nan lb ub c). { destruct B as (X1 & X2 & X3). split; auto. split; auto. intros. right. eauto. }
  eapply always_bind.
  - apply (always_fold _ (in_box_or_nan lb ub)); [|exact G0]. intros s j Ha C. apply in_seq in Ha. pose proof C as (K & K' & _). unfold mutate_gene.
    destruct (nth_ex s j) as (y & Ey); [lia|]. destruct (nth_ex lb j) as (l & El); [lia|]. destruct (nth_ex ub j) as (u & Eu); [lia|].
    eapply always_bind; [eapply always_weak; [apply draw01_ok; auto|intros a Hx; exact Hx|intros e []]|]. intros v _.
    eapply always_bind; [eapply always_vget with (Q := eq l); eauto|]. intros ? <-.
    eapply always_bind; [eapply always_vget with (Q := eq u); eauto|]. intros ? <-.
    destruct (dlt v p_m && dneq l u); [|apply always_ret; auto].
    eapply always_bind; [eapply always_vget with (Q := eq y); eauto|]. intros ? <-.
    eapply always_bind; [eapply always_weak; [apply draw01_ok; auto|intros a Hx; exact Hx|intros e []]|]. intros rr _.
    apply always_vset; [lia|]. eapply in_box_nan_upd; eauto. apply stick_or_nan. exact (proj2 (proj2 (LU _ _ _ El Eu))).
  - intros c' Hc. apply (always_fold _ (in_box_or_nan lb ub)); [|exact Hc]. intros s j Ha C. apply in_seq in Ha. pose proof C as (K & K' & _). unfold mutate_int.
    destruct (nth_ex lb j) as (l & El); [lia|]. destruct (nth_ex ub j) as (u & Eu); [lia|].
    eapply always_bind; [eapply always_weak; [apply draw01_ok; auto|intros a Hx; exact Hx|intros e []]|]. intros v _.
    destruct (dlt v p_m); [|apply always_ret; auto].
    eapply always_bind; [eapply always_vget with (Q := eq l); eauto|]. intros ? <-.
    eapply always_bind; [eapply always_vget with (Q := eq u); eauto|]. intros ? <-.
    apply (always_bind _ _ (within l u)).
    + intros g. rewrite Forall_forall in DL, DU. destruct (uniform_int_full l u g) as [(m & E1 & E2 & E3 & _)|[E1 E2]].
      * exact (proj2 (proj2 (LU j l u El Eu))). * apply DL. eapply nth_error_In; eauto. * apply DU. eapply nth_error_In; eauto.
      * exact (proj1 (IB j l u ltac:(lia) El Eu)). * exact (proj2 (IB j l u ltac:(lia) El Eu)).
      * rewrite E1. auto.
      * rewrite E1. reflexivity.
    + intros m W. apply always_vset; [lia|]. eapply in_box_nan_upd; eauto.
Qed.

(** ** The public functions *)
Lemma all_finite_spec lb ub : length lb = length ub -> (all_finite lb ub = true <-> finite_bounds lb ub).
Proof.
  unfold all_finite, finite_bounds. revert ub. induction lb as [|l lb IH]; intros [|u ub] LE; try discriminate; cbn.
  - split; [intros _; split; intros ? []|reflexivity].
  - injection LE as LE. rewrite andb_true_iff, andb_true_iff, (IH ub LE). split.
    + intros ((A & B) & C & D). split; intros x [<-|Hx]; auto.
    + intros (A & B). auto 10.
Qed.
Lemma rlift_throw {A} (m : outcome unit) (f : unit -> RM G A) g : m = Throw InvalidArgument -> rbind (rlift m) f g = (Throw InvalidArgument, g).
Proof. intros ->. reflexivity. Qed.
Lemma rlift_ok {A} (m : outcome unit) (f : unit -> RM G A) g : m = Ok tt -> rbind (rlift m) f g = f tt g.
Proof. intros ->. reflexivity. Qed.
Lemma throw_neg b : throw_if (negb b) InvalidArgument = (if b then Ok tt else Throw InvalidArgument).
Proof. destruct b; reflexivity. Qed.
Ltac step H := first [rewrite rlift_ok by H | rewrite rlift_throw by H].
Lemma sbx_public p1 p2 lb ub nix p_cr eta :
  (sbx_args p1 p2 lb ub nix p_cr eta /\ forall g, sbx_crossover r pw p1 p2 lb ub nix p_cr eta g = sbx_crossover_impl r pw p1 p2 lb ub nix p_cr eta g) \/
  (~ sbx_args p1 p2 lb ub nix p_cr eta /\ forall g, sbx_crossover r pw p1 p2 lb ub nix p_cr eta g = (Throw InvalidArgument, g)).
Proof.
  unfold sbx_crossover. destruct (check_problem_bounds_spec lb ub nix) as [[E GB]|[E GB]]; [|right; split; [unfold sbx_args; tauto|intros g; now rewrite rlift_throw]].
  destruct (Nat.eqb_spec (length p1) (length p2)) as [L1|L1]; [|right; split; [unfold sbx_args; intros X; apply L1; destruct X as (_ & X1 & X2 & _); lia|intros g; rewrite rlift_ok by auto; now rewrite rlift_throw]].
  destruct (Nat.eqb_spec (length p1) (length lb)) as [L2|L2]; [|right; split; [unfold sbx_args; intros X; apply L2; tauto|intros g; do 2 rewrite rlift_ok by auto; now rewrite rlift_throw]].
  pose proof (all_finite_spec lb ub ltac:(apply GB)) as AF.
  destruct (all_finite lb ub); [|right; split; [unfold sbx_args; intros X; destruct X as (_ & _ & _ & X & _); apply AF in X; discriminate|intros g; do 3 rewrite rlift_ok by auto; now rewrite rlift_throw]].
  destruct (isfinite p_cr) eqn:F1; [|right; split; [unfold sbx_args; intros X; destruct X as (_ & _ & _ & _ & X & _); congruence|intros g; do 4 rewrite rlift_ok by auto; now rewrite rlift_throw]].
  destruct (isfinite eta) eqn:F2; [|right; split; [unfold sbx_args; intros X; destruct X as (_ & _ & _ & _ & _ & X); congruence|intros g; do 5 rewrite rlift_ok by auto; now rewrite rlift_throw]].
  left. split; [unfold sbx_args; intuition congruence|]. intros g. do 6 rewrite rlift_ok by auto. reflexivity.
Qed.
Lemma mut_public dv lb ub nix p_m eta :
  (mut_args dv lb ub nix p_m eta /\ forall g, polynomial_mutation r pw dv lb ub nix p_m eta g = polynomial_mutation_impl r pw dv lb ub nix p_m eta g) \/
  (~ mut_args dv lb ub nix p_m eta /\ forall g, polynomial_mutation r pw dv lb ub nix p_m eta g = (Throw InvalidArgument, g)).
Proof.
  unfold polynomial_mutation. destruct (check_problem_bounds_spec lb ub nix) as [[E GB]|[E GB]]; [|right; split; [unfold mut_args; tauto|intros g; now rewrite rlift_throw]].
  destruct (Nat.eqb_spec (length dv) (length lb)) as [L2|L2]; [|right; split; [unfold mut_args; intros X; apply L2; tauto|intros g; do 1 rewrite rlift_ok by auto; now rewrite rlift_throw]].
  pose proof (all_finite_spec lb ub ltac:(apply GB)) as AF.
  destruct (all_finite lb ub); [|right; split; [unfold mut_args; intros X; destruct X as (_ & _ & X & _); apply AF in X; discriminate|intros g; do 2 rewrite rlift_ok by auto; now rewrite rlift_throw]].
  destruct (isfinite p_m) eqn:F1; [|right; split; [unfold mut_args; intros X; destruct X as (_ & _ & _ & X & _); congruence|intros g; do 3 rewrite rlift_ok by auto; now rewrite rlift_throw]].
  destruct (isfinite eta) eqn:F2; [|right; split; [unfold mut_args; intros X; destruct X as (_ & _ & _ & _ & X); congruence|intros g; do 4 rewrite rlift_ok by auto; now rewrite rlift_throw]].
  left. split; [unfold mut_args; intuition congruence|]. intros g. do 5 rewrite rlift_ok by auto. reflexivity.
Qed.

(** ** Tournament *)
Lemma tournament_ok i j rank crowd ri rj ci cj : nth_error rank i = Some ri -> nth_error rank j = Some rj -> nth_error crowd i = Some ci -> nth_error crowd j = Some cj ->
  always (tournament r i j rank crowd) (fun k => (k = i \/ k = j) /\ (ri < rj -> k = i) /\ (rj < ri -> k = j) /\
    (ri = rj -> dlt cj ci = true -> k = i) /\ (ri = rj -> dlt ci cj = true -> k = j)) never.
Proof.
  intros E1 E2 E3 E4. unfold tournament.
  eapply always_bind; [eapply always_vget with (Q := eq ri); eauto|]. intros ? <-.
  eapply always_bind; [eapply always_vget with (Q := eq rj); eauto|]. intros ? <-.
  assert (AS : dlt ci cj = true -> dlt cj ci = true -> False).
  { destruct ci as [| |x|], cj as [| |y|]; cbn; try discriminate. rewrite !Z.ltb_lt. lia. }
  destruct (Nat.ltb_spec ri rj); [apply always_ret; repeat split; auto; intros; lia|].
  destruct (Nat.ltb_spec rj ri); [apply always_ret; repeat split; auto; intros; lia|].
  eapply always_bind; [eapply always_vget with (Q := eq ci); eauto|]. intros ? <-.
  eapply always_bind; [eapply always_vget with (Q := eq cj); eauto|]. intros ? <-.
  unfold dgt. destruct (dlt cj ci) eqn:D1; [apply always_ret; repeat split; auto; intros; try lia; exfalso; eauto|].
  destruct (dlt ci cj) eqn:D2; [apply always_ret; repeat split; auto; intros; try lia; congruence|].
  eapply always_bind; [apply draw01_ok; auto|]. intros v _. apply always_ret. destruct (dlt v dhalf); repeat split; auto; intros; try lia; congruence.
Qed.
End F.
