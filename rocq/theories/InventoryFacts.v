(** Facts about inventory. *)
From Coq Require Import List ZArith Bool Lia.
Import ListNotations.
From Verif Require Import Outcome Dbl DblFacts Inventory SpecInventory.

Local Open Scope Z_scope.
Section S.
Context {G : Type} (eng_seed : Z -> G) (u01 : G -> dbl * G).

Lemma weeks_spec : forall x pre suf r k e, x = pre ++ suf ->
  exists k', mfold (inv_week u01 x) (r, k, e) (seq (length pre) (length suf)) = Ok (plan_cost r k suf (fst (demands u01 e (length suf))), k', snd (demands u01 e (length suf))).
Proof.
  intros x pre suf. revert pre. induction suf as [|o suf IH]; intros pre r k e Hx; cbn [length seq mfold].
  - exists k. reflexivity.
  - unfold inv_week at 1. cbn [demands]. destruct (u01 e) as [u e1] eqn:Eu. unfold vget. rewrite Hx, nth_error_app2 by lia. rewrite Nat.sub_diag. cbn [nth_error bind].
    destruct (IH (pre ++ [o]) (dadd r (dadd (dadd (dmul inv_c o) (dmul inv_b (dmax (dsub (dsub (dmul u (d_of_Z 100)) k) o) dzero))) (dmul inv_h (dmax (dsub (dadd k o) (dmul u (d_of_Z 100))) dzero))))
      (dmax dzero (dsub (dadd k o) (dmul u (d_of_Z 100)))) e1) as [k' Hk]; [rewrite <- app_assoc; exact Hx|].
    exists k'. rewrite app_length in Hk. cbn [length] in Hk. rewrite Nat.add_1_r in Hk. rewrite <- Hx. rewrite Hk.
    destruct (demands u01 e1 (length suf)) as [l e2]. reflexivity.
Qed.
Lemma samples_spec : forall x n i r e, exists e', mfold (inv_sample u01 x) (r, e) (seq i n) = Ok (scenarios u01 e n x r, e').
Proof.
  intros x n. induction n as [|n IH]; intros i r e; cbn [seq mfold scenarios]; [eauto|].
  unfold inv_sample at 1. cbn [fst snd]. destruct (weeks_spec x [] x r dzero e eq_refl) as [k' Hk]. cbn [length] in Hk. rewrite Hk. cbn [bind fst snd].
  destruct (demands u01 e (length x)) as [d e']. cbn [fst snd]. apply IH.
Qed.
Lemma fitness_spec : forall x (p : inventory), exists e', inventory_fitness eng_seed u01 x p
  = Ok ([mean_cost eng_seed u01 (i_samples p) (i_seed p) x], mkinventory (i_weeks p) (i_samples p) e' (i_seed p)).
Proof.
  intros x p. unfold inventory_fitness, mean_cost. destruct (samples_spec x (i_samples p) 0 dzero (eng_seed (i_seed p))) as [e' ->]. exists e'. reflexivity.
Qed.
Lemma calls_spec : forall l (p : inventory), exists e', inventory_calls eng_seed u01 l p = Ok (mkinventory (i_weeks p) (i_samples p) e' (seed_after l (i_seed p))).
Proof.
  induction l as [|[x|s] l IH]; intros p; cbn [inventory_calls seed_after fold_left].
  - exists (i_eng p). destruct p; reflexivity.
  - destruct (fitness_spec x p) as [e' ->]. cbn [bind snd]. destruct (IH (mkinventory (i_weeks p) (i_samples p) e' (i_seed p))) as [e2 ->]. exists e2. reflexivity.
  - destruct (IH (inventory_set_seed s p)) as [e2 ->]. exists e2. reflexivity.
Qed.
Lemma inventory_history : forall weeks n seed l x, exists p e,
  inventory_calls eng_seed u01 l (inventory_ctor eng_seed weeks n seed) = Ok p
  /\ inventory_fitness eng_seed u01 x p = Ok ([mean_cost eng_seed u01 n (seed_after l seed) x], e).
Proof.
  intros weeks n seed l x. destruct (calls_spec l (inventory_ctor eng_seed weeks n seed)) as [e' ->]. eexists. 
  destruct (fitness_spec x (mkinventory weeks n e' (seed_after l seed))) as [e2 H]. eexists. split; [reflexivity|]. exact H.
Qed.

Local Opaque one_z.
Lemma max0_nonneg : forall a, a <> NaN -> nonneg (dmax a dzero).
Proof.
  intros a Ha. unfold dmax. destruct a as [| |z|]; try contradiction; cbn; try reflexivity.
  destruct (Z.ltb_spec z 0); [reflexivity|]. apply nonneg_cases. right. eauto.
Qed.
Lemma max0l_nonneg : forall a, a <> NaN -> nonneg (dmax dzero a).
Proof.
  intros a Ha. unfold dmax. destruct a as [| |z|]; try contradiction; cbn; try reflexivity.
  destruct (Z.ltb_spec 0 z); [|reflexivity]. apply nonneg_cases. right. exists z. split; [reflexivity|lia].
Qed.
Lemma dmul_fin_nonneg : forall a w, 0 < a -> nonneg w -> nonneg (dmul (Fin a) w).
Proof.
  intros a w Ha Hw. rewrite nonneg_cases in Hw. destruct Hw as [->|(z & -> & Hz)]; unfold dmul; cbn.
  - rewrite Z.sgn_pos by lia. reflexivity.
  - apply rnd_nonneg; [nia|reflexivity].
Qed.
Lemma sub_not_nan_l : forall z b, nonneg b -> dsub (Fin z) b <> NaN.
Proof.
  intros z b Hb. rewrite nonneg_cases in Hb. destruct Hb as [->|(y & -> & _)]; unfold dsub; cbn; [discriminate|apply rnd_not_nan].
Qed.
Lemma sub_not_nan_r : forall a z, a <> NaN -> dsub a (Fin z) <> NaN.
Proof. intros a z Ha. destruct a; try contradiction; unfold dsub; cbn; try discriminate. apply rnd_not_nan. Qed.
Lemma lits : exists a b c, d_of_Z 1 = Fin a /\ ddiv (d_of_Z 3) (d_of_Z 2) = Fin b /\ ddiv (d_of_Z 1) (d_of_Z 10) = Fin c /\ 0 < a /\ 0 < b /\ 0 < c.
Proof.
  assert (E : forall a b, match a with Fin z => Z.eqb z b | _ => false end = true -> a = Fin b) by (intros [| |z|] b H; try discriminate H; apply Z.eqb_eq in H; subst; reflexivity).
  exists (match d_of_Z 1 with Fin z => z | _ => 0 end), (match ddiv (d_of_Z 3) (d_of_Z 2) with Fin z => z | _ => 0 end), (match ddiv (d_of_Z 1) (d_of_Z 10) with Fin z => z | _ => 0 end).
  repeat split; try (apply E; vm_compute; reflexivity); vm_compute; reflexivity.
Qed.
Lemma demands_fin : unit_numbers u01 -> forall n e w, In w (fst (demands u01 e n)) -> exists z, w = Fin z /\ 0 <= z.
Proof.
  intros U n. induction n as [|n IH]; intros e w H; cbn [demands] in H; [destruct H|].
  destruct (u01 e) as [u e1] eqn:Eu. destruct (demands u01 e1 n) as [l e2] eqn:Ed. cbn [fst] in H. destruct H as [<-|H].
  - destruct (U e) as [U1 U2]. rewrite Eu in U1, U2. cbn [fst] in U1, U2.
    assert (Hu : exists z, u = Fin z /\ 0 <= z <= one_z).
    { unfold done in U2. apply nonneg_cases in U1. destruct U1 as [->|(z & -> & Hz)]; [discriminate U2|]. exists z. split; [reflexivity|]. apply dle_fin in U2. lia. }
    destruct Hu as (z & -> & Hz0 & Hz1).
    assert (H100 : d_of_Z 100 = Fin (100 * one_z)).
    { assert (E : match d_of_Z 100 with Fin z => Z.eqb z (100 * one_z) | _ => false end = true) by (vm_compute; reflexivity).
      destruct (d_of_Z 100) as [| |y|]; try discriminate E. apply Z.eqb_eq in E. rewrite E. reflexivity. }
    rewrite H100. unfold dmul. cbn -[Z.mul].
    assert (P : 0 < one_z) by (vm_compute; reflexivity).
    assert (M : dle (rnd (z * (100 * one_z)) one_z) (rnd (one_z * (100 * one_z)) one_z) = true) by (apply rnd_mono; [exact P|nia]).
    assert (T : isfinite (rnd (one_z * (100 * one_z)) one_z) = true) by (vm_compute; reflexivity).
    assert (N : nonneg (rnd (z * (100 * one_z)) one_z)) by (apply rnd_nonneg; [nia|exact P]).
    apply nonneg_cases in N. destruct N as [N|N]; [|exact N]. rewrite N in M. destruct (rnd (one_z * (100 * one_z)) one_z); try discriminate T. discriminate M.
  - apply (IH e1). rewrite Ed. exact H.
Qed.
Lemma plan_nonneg : forall x d r k, (forall o, In o x -> exists z, o = Fin z /\ 0 <= z) -> (forall w, In w d -> exists z, w = Fin z /\ 0 <= z) ->
  nonneg r -> nonneg k -> nonneg (plan_cost r k x d).
Proof.
  destruct lits as (a & b & c & Ea & Eb & Ec & Ha & Hb & Hc).
  induction x as [|o x IH]; intros d r k Hx Hd Hr Hk; [exact Hr|]. destruct d as [|w d]; [exact Hr|]. cbn [plan_cost].
  destruct (Hx o (or_introl eq_refl)) as (zo & -> & Ho). destruct (Hd w (or_introl eq_refl)) as (zw & -> & Hw).
  assert (Hno : nonneg (Fin zo)) by (apply nonneg_cases; right; eauto).
  assert (N1 : dsub (dadd k (Fin zo)) (Fin zw) <> NaN).
  { apply sub_not_nan_r. assert (X := dadd_nonneg k (Fin zo) Hk Hno). intros E. rewrite E in X. discriminate X. }
  assert (N2 : dsub (dsub (Fin zw) k) (Fin zo) <> NaN) by (apply sub_not_nan_r, sub_not_nan_l, Hk).
  rewrite Eb, Ec, Ea. apply IH.
  - intros u Hu. apply Hx. right. exact Hu.
  - intros u Hu. apply Hd. right. exact Hu.
  - apply dadd_nonneg; [exact Hr|]. apply dadd_nonneg; [apply dadd_nonneg|]; apply dmul_fin_nonneg; auto using max0_nonneg.
  - apply max0l_nonneg. exact N1.
Qed.
Lemma scen_nonneg : unit_numbers u01 -> forall x, (forall o, In o x -> exists z, o = Fin z /\ 0 <= z) -> forall n e r, nonneg r -> nonneg (scenarios u01 e n x r).
Proof.
  intros U x Hx n. induction n as [|n IH]; intros e r Hr; cbn [scenarios]; [exact Hr|].
  destruct (demands u01 e (length x)) as [d e'] eqn:Ed. apply IH. apply plan_nonneg; [exact Hx| |exact Hr|reflexivity].
  intros w Hw. apply (demands_fin U (length x) e). rewrite Ed. exact Hw.
Qed.
Lemma of_nat_pos : forall n, (0 < n)%nat -> Z.of_nat n < 2 ^ 32 -> exists z, d_of_Z (Z.of_nat n) = Fin z /\ 0 < z.
Proof.
  intros n Hn Hb. unfold d_of_Z. assert (P : 0 < one_z) by (vm_compute; reflexivity).
  assert (M : dle (rnd (1 * one_z) 1) (rnd (Z.of_nat n * one_z) 1) = true) by (apply rnd_mono; [reflexivity|nia]).
  assert (M2 : dle (rnd (Z.of_nat n * one_z) 1) (rnd (2 ^ 32 * one_z) 1) = true) by (apply rnd_mono; [reflexivity|nia]).
  assert (T : isfinite (rnd (2 ^ 32 * one_z) 1) = true) by (vm_compute; reflexivity).
  assert (T2 : dlt dzero (rnd (1 * one_z) 1) = true) by (vm_compute; reflexivity).
  destruct (rnd (1 * one_z) 1) as [| |o|] eqn:E1; try discriminate T2; [|].
  - destruct (rnd (Z.of_nat n * one_z) 1) as [| |z|] eqn:E2; try discriminate M.
    + exists z. split; [reflexivity|]. apply dle_fin in M. cbn in T2. apply Z.ltb_lt in T2. lia.
    + destruct (rnd (2 ^ 32 * one_z) 1); try discriminate T; discriminate M2.
  - destruct (rnd (Z.of_nat n * one_z) 1) as [| |z|] eqn:E2; try discriminate M. destruct (rnd (2 ^ 32 * one_z) 1); try discriminate T; discriminate M2.
Qed.
Lemma mean_nonneg : unit_numbers u01 -> forall n seed x, (0 < n)%nat -> Z.of_nat n < 2 ^ 32 -> in_range x -> nonneg (mean_cost eng_seed u01 n seed x).
Proof.
  intros U n seed x Hn Hb Hx. unfold mean_cost. destruct (of_nat_pos n Hn Hb) as (z & -> & Hz). apply ddiv_nonneg; [|exact Hz].
  apply scen_nonneg; [exact U| |reflexivity]. intros o Ho. destruct (Hx o Ho) as [H1 H2]. apply nonneg_cases in H1. destruct H1 as [->|H1]; [|exact H1].
  exfalso. assert (T : isfinite (d_of_Z 200) = true) by (vm_compute; reflexivity). destruct (d_of_Z 200); try discriminate T; discriminate H2.
Qed.
Lemma mean_no_samples : forall seed x, mean_cost eng_seed u01 0 seed x = NaN.
Proof. intros. unfold mean_cost. cbn [scenarios]. vm_compute. reflexivity. Qed.
End S.
