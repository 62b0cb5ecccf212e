(** The penalty and the choice of the kernel. *)
From Coq Require Import List Bool Arith ZArith Lia.
From Verif Require Import Dbl DblFacts Outcome BaseFacts GenericFacts AlgoFacts2 AlgGaco.
From Verif Require AlgPsoGenFacts AlgSaFacts IntDbl.
Import ListNotations.

Lemma dsub_le_zero x o : (x <= o)%Z -> dle (dsub (Fin x) (Fin o)) dzero = true.
Proof. intros H. cbn [dsub dneg dadd]. change dzero with (rnd 0 1). apply rnd_mono; lia. Qed.
Lemma dsub_mono x y o : (x <= y)%Z -> dle (dsub (Fin x) (Fin o)) (dsub (Fin y) (Fin o)) = true.
Proof. intros H. cbn [dsub dneg dadd]. apply rnd_mono; lia. Qed.
Lemma neg_abs a : dle a dzero = true -> dneg (dabs a) = a.
Proof. destruct a as [| |z|]; intros H; try discriminate; try reflexivity. apply dle_fin in H. cbn [dabs dneg]. f_equal. lia. Qed.
Lemma penalty_below o d x res : (x <= o)%Z -> deq res dzero = true -> penalty (Fin o) d (Fin x) res = dsub (Fin x) (Fin o).
Proof.
  intros H R. destruct res as [| |z|]; try discriminate R. apply Z.eqb_eq in R. subst z. unfold penalty. cbv zeta. assert (G : dgt (Fin x) (Fin o) = false) by (unfold dgt; apply dle_dlt_false, dle_fin; exact H). rewrite G. cbn [andb orb].
  assert (G0 : dgt (Fin 0) dzero = false) by reflexivity. rewrite G0. cbn [orb]. assert (L : dle (Fin x) (Fin o) = true) by (apply dle_fin; exact H). rewrite L. cbn [andb]. assert (E : deq (Fin 0) dzero = true) by reflexivity. rewrite E. apply neg_abs, dsub_le_zero, H.
Qed.
Lemma rnd_same z : is_double (Fin z) -> rnd (one_z * z) one_z = Fin z.
Proof. intros H. rewrite <- (rnd_exact z H). rewrite Z.mul_comm. apply rnd_scale, IntDbl.one_z_pos. Qed.
Lemma penalty_infeasible o d x z : (x <= o)%Z -> (0 < z)%Z -> is_double (Fin z) -> isfinite (dsub (Fin x) (Fin o)) = true -> penalty (Fin o) d (Fin x) (Fin z) = Fin z.
Proof.
  intros H R D F. unfold penalty. cbv zeta. assert (G : dgt (Fin x) (Fin o) = false) by (unfold dgt; apply dle_dlt_false, dle_fin; exact H). rewrite G. cbn [andb orb].
  assert (G0 : dgt (Fin z) dzero = true) by (unfold dgt, dzero; apply AlgSaFacts.dlt_fin; exact R). rewrite G0. cbn [orb]. destruct (dsub (Fin x) (Fin o)) as [| |y|]; try discriminate F. cbn [dabs].
  assert (E1 : dmul dzero (Fin (Z.abs y)) = Fin 0) by (unfold dzero; cbn [dmul]; rewrite Z.mul_0_l; vm_compute; reflexivity). assert (E2 : dsub done dzero = done) by (vm_compute; reflexivity). rewrite E1, E2.
  assert (E3 : dmul done (Fin z) = Fin z) by (unfold done; cbn [dmul]; now apply rnd_same). rewrite E3. cbn [dadd]. rewrite Z.add_0_l. now apply rnd_exact.
Qed.
(** Feasible points not worse than the oracle: the lower the objective, the lower the penalty,
    which is not positive *)
Lemma penalties_ordered o d x y : (x <= y <= o)%Z -> dle (penalty (Fin o) d (Fin x) dzero) (penalty (Fin o) d (Fin y) dzero) = true /\ dle (penalty (Fin o) d (Fin y) dzero) dzero = true.
Proof. intros [H1 H2]. rewrite !penalty_below by (reflexivity || lia). split; [now apply dsub_mono|now apply dsub_le_zero]. Qed.

Lemma kernel_first a cum u : 2 <= ga_ker a -> length cum = ga_ker a -> u <> NaN -> (forall c, In c cum -> c <> NaN) -> (forall i j x y, i <= j -> nth_error cum i = Some x -> nth_error cum j = Some y -> dle x y = true) ->
  exists k, kernel_of a cum u = Ok k /\ k < ga_ker a /\ (forall i c, i < k -> nth_error cum i = Some c -> dlt c u = true) /\ (forall i c, k <= i -> i < ga_ker a - 1 -> nth_error cum i = Some c -> dle u c = true).
Proof.
  intros HK LC NU NC MO. unfold kernel_of. destruct (vget_in_range cum 0 ltac:(lia)) as (c0 & -> & N0). destruct (vget_in_range cum (ga_ker a - 2) ltac:(lia)) as (c1 & -> & N1). cbn [bind].
  assert (NN : forall i c, nth_error cum i = Some c -> c <> NaN) by (intros i c H; apply NC; eapply nth_error_In; eauto).
  assert (LT : forall c, c <> NaN -> dle u c = false -> dlt c u = true). { intros c Nc H. destruct (dlt c u) eqn:D; [reflexivity|]. apply (dlt_false_dle c u Nc NU) in D. congruence. }
  assert (TR : forall x y, dle x y = true -> dlt y u = true -> dlt x u = true). { intros x y H1 H2. destruct (dle_not_nan x y H1) as [Nx Ny]. apply LT; [exact Nx|]. destruct (dle u x) eqn:D; [|reflexivity]. pose proof (dle_trans u x y D H1) as Q. apply dle_dlt_false in Q. congruence. }
  destruct (dle u c0) eqn:D0.
  { exists 0. split; [reflexivity|]. split; [lia|]. split; [intros; lia|]. intros i c _ _ Hc. eapply dle_trans; [exact D0|]. apply (MO 0 i); [lia|exact N0|exact Hc]. }
  unfold dgt. destruct (dlt c1 u) eqn:D1.
  { exists (ga_ker a - 1). split; [reflexivity|]. split; [lia|]. split; [|intros; lia]. intros i c Hi Hc. apply (TR c c1); [|exact D1]. eapply MO; [|exact Hc|exact N1]. lia. }
  destruct (AlgPsoGenFacts.mfold_seq (fun b k => bind (vget cum (k - 1)) (fun lo => bind (vget cum k) (fun hi => Ok (if dlt lo u && dle u hi then k else b))))
      (fun m b => (exists c, nth_error cum (m - 1) = Some c /\ dlt c u = true) \/ (1 <= b < m /\ exists lo hi, nth_error cum (b - 1) = Some lo /\ nth_error cum b = Some hi /\ dlt lo u = true /\ dle u hi = true)) (ga_ker a - 2) 1 0) as (k & E & J).
  - left. exists c0. split; [exact N0|]. apply LT; [exact (NN 0 c0 N0)|exact D0].
  - intros i b Hi J. destruct (vget_in_range cum (i - 1) ltac:(lia)) as (lo & -> & Nlo). destruct (vget_in_range cum i ltac:(lia)) as (hi & -> & Nhi). cbn [bind]. eexists. split; [reflexivity|]. replace (i + 1 - 1) with i by lia.
    destruct J as [(c & Hc & Lc)|(Hb & l & h & A1 & A2 & A3 & A4)].
    + assert (c = lo) by congruence. subst c. rewrite Lc. cbn [andb]. destruct (dle u hi) eqn:DH; [right; split; [lia|]; exists lo, hi; auto|left; exists hi; split; [exact Nhi|]; apply LT; [exact (NN i hi Nhi)|exact DH]].
    + right. assert (Q : dlt lo u = false) by (apply dle_dlt_false; eapply dle_trans; [exact A4|]; eapply MO; [|exact A2|exact Nlo]; lia). rewrite Q. cbn [andb]. split; [lia|]. exists l, h. auto.
  - exists k. split; [exact E|]. destruct J as [(c & Hc & Lc)|(Hb & l & h & A1 & A2 & A3 & A4)].
    + exfalso. replace (1 + (ga_ker a - 2) - 1) with (ga_ker a - 2) in Hc by lia. congruence.
    + split; [lia|]. split; [intros i c Hi Hc; apply (TR c l); [|exact A3]; eapply MO; [|exact Hc|exact A1]; lia|]. intros i c Hi _ Hc. eapply dle_trans; [exact A4|]. eapply MO; [|exact A2|exact Hc]. exact Hi.
Qed.
Lemma penalty_both : (forall o d x y, (x <= y <= o)%Z -> dle (penalty (Fin o) d (Fin x) dzero) (penalty (Fin o) d (Fin y) dzero) = true /\ dle (penalty (Fin o) d (Fin y) dzero) dzero = true) /\
  (forall o d x, (x <= o)%Z -> penalty (Fin o) d (Fin x) dzero = dsub (Fin x) (Fin o)) /\
  (forall o d x z, (x <= o)%Z -> (0 < z)%Z -> is_double (Fin z) -> isfinite (dsub (Fin x) (Fin o)) = true -> penalty (Fin o) d (Fin x) (Fin z) = Fin z).
Proof. split; [exact penalties_ordered|]. split; [|exact penalty_infeasible]. intros o d x H. now apply penalty_below. Qed.
