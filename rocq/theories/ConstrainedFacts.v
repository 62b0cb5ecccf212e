From Coq Require Import List Bool Arith ZArith Lia Permutation.
From Verif Require Import Dbl DblFacts Outcome StdSort BaseFacts Compare CompareFacts SpecOrder Constrained SpecConstrained IntDbl.
Import ListNotations.

Lemma rnd_le_zero n : dle (rnd n 1) dzero = true <-> (n <= 0)%Z.
Proof.
  unfold rnd. set (v := rnd_nat (Z.abs n) 1).
  assert (Hv : (0 <= v)%Z) by (apply rnd_nat_nonneg; lia).
  assert (Hp : (n <> 0 -> 1 <= v)%Z) by (intros H; apply rnd_nat_ge1; lia).
  destruct (Z.leb_spec ovf_z v) as [H|H].
  - assert (Hov : (0 < ovf_z)%Z) by (unfold ovf_z; apply Z.pow_pos_nonneg; lia).
    assert (n <> 0)%Z.
    { intros ->. unfold v in H. change (rnd_nat (Z.abs 0) 1) with 0%Z in H. lia. }
    destruct (Z.ltb_spec (Z.sgn n) 0) as [H1|H1]; (split; [|intros; try reflexivity]); cbn; intros; try discriminate; lia.
  - unfold dzero. rewrite dle_fin. destruct (Z.sgn_spec n) as [[H1 ->]|[[H1 ->]|[H1 ->]]]; lia.
Qed.

Lemma dmax_le_zero a : dle (dmax a dzero) dzero = dle a dzero.
Proof.
  unfold dmax. destruct (dlt a dzero) eqn:E; [|reflexivity].
  unfold dle. rewrite E. reflexivity.
Qed.

(** The counter of a constraint goes up exactly when it is within tolerance. *)
Lemma err_within (eq : bool) x t : isfinite t = true ->
  (dle (constraint_err (if eq then dabs x else x) t) dzero = true <-> within eq x t).
Proof.
  intros Ht. unfold constraint_err, within. rewrite dmax_le_zero. set (a := if eq then dabs x else x).
  destruct t as [| |z|]; try discriminate. unfold dsub, dneg, dadd. destruct a as [| |y|]; cbn; try tauto.
  rewrite rnd_le_zero. rewrite dle_fin. lia.
Qed.

Lemma err_zero (eq : bool) x t : isfinite t = true -> within eq x t -> constraint_err (if eq then dabs x else x) t = dzero.
Proof.
  intros Ht W. unfold constraint_err, within in *. set (a := if eq then dabs x else x) in *.
  destruct t as [| |z|]; try discriminate. destruct a as [| |y|]; try discriminate; unfold dsub, dneg, dadd, dmax; cbn [dlt].
  - reflexivity.
  - apply dle_fin in W. set (r := rnd (y + - z) 1). assert (H : dle r dzero = true) by (apply rnd_le_zero; lia).
    destruct r as [| |w|]; cbn in *; try discriminate; try reflexivity.
    destruct (Z.ltb_spec w 0) as [Hw|Hw]; [reflexivity|]. apply (dle_fin w 0) in H. assert (w = 0)%Z by lia. subst. reflexivity.
Qed.

Lemma exactly_shift P n : exactly n (fun i => P (S i)) -> exactly n (fun i => exists j, i = S j /\ P i).
Proof.
  intros (l & ND & L & H). exists (map S l). split; [|split].
  - apply FinFun.Injective_map_NoDup; [intros a b; congruence|exact ND].
  - rewrite map_length. exact L.
  - intros i. rewrite in_map_iff. split.
    + intros (j & <- & Hj). exists j. split; [reflexivity|]. apply H. exact Hj.
    + intros (j & -> & Hj). exists j. split; [reflexivity|]. apply H. exact Hj.
Qed.
Lemma exactly_cons_true (P : nat -> Prop) n : P 0 -> exactly n (fun i => P (S i)) -> exactly (S n) P.
Proof.
  intros H0 H. apply exactly_shift in H. destruct H as (l & ND & L & H). exists (0 :: l). split; [|split].
  - constructor; [|exact ND]. rewrite H. intros (j & E & _). discriminate.
  - simpl. congruence.
  - intros [|i]; simpl.
    + split; auto.
    + rewrite H. split; [intros [E|(j & _ & E)]; [discriminate|exact E]|intros E; right; exists i; auto].
Qed.
Lemma exactly_cons_false (P : nat -> Prop) n : ~ P 0 -> exactly n (fun i => P (S i)) -> exactly n P.
Proof.
  intros H0 H. apply exactly_shift in H. destruct H as (l & ND & L & H). exists l. split; [exact ND|]. split; [exact L|].
  intros [|i]; rewrite H.
  - split; [intros (j & E & _); discriminate|tauto].
  - split; [intros (j & _ & E); exact E|intros E; exists i; auto].
Qed.
Lemma exactly_ext P Q n : (forall i, P i <-> Q i) -> exactly n P -> exactly n Q.
Proof. intros E (l & ND & L & H). exists l. split; [exact ND|]. split; [exact L|]. intros i. rewrite H. apply E. Qed.
Lemma exactly_unique P n m : exactly n P -> exactly m P -> n = m.
Proof.
  intros (l & ND & L & H) (l' & ND' & L' & H').
  rewrite <- L, <- L'. apply Nat.le_antisymm; apply NoDup_incl_length; auto; intros i Hi; [apply H', H|apply H, H']; exact Hi.
Qed.
Lemma exactly_all n P m : exactly n P -> (forall i, P i -> i < m) -> (n <= m /\ (n = m <-> forall i, i < m -> P i)).
Proof.
  intros (l & ND & L & H) B. assert (I : incl l (seq 0 m)).
  { intros i Hi. apply in_seq. apply H in Hi. apply B in Hi. lia. }
  split.
  - rewrite <- L, <- (seq_length m 0). apply NoDup_incl_length; auto.
  - split.
    + intros E i Hi. apply H. assert (I2 : incl (seq 0 m) l).
      { apply NoDup_length_incl; auto. rewrite seq_length. lia. }
      apply I2, in_seq. lia.
    + intros A. apply Nat.le_antisymm; [rewrite <- L, <- (seq_length m 0); apply NoDup_incl_length; auto|].
      rewrite <- L, <- (seq_length m 0). apply NoDup_incl_length; [apply seq_NoDup|].
      intros i Hi. apply in_seq in Hi. apply H, A. lia.
Qed.
Lemma exactly_sum P Q n m k : exactly n P -> exactly m Q -> (forall i, P i -> i < k) ->
  exactly (n + m) (fun i => P i \/ (k <= i /\ Q (i - k))).
Proof.
  intros (l & ND & L & H) (l' & ND' & L' & H') B. exists (l ++ map (fun i => k + i) l'). split; [|split].
  - apply NoDup_app_intro; [exact ND|apply FinFun.Injective_map_NoDup; [intros a b; lia|exact ND']|].
    intros i Hi Hi'. apply H, B in Hi. apply in_map_iff in Hi'. destruct Hi' as (j & <- & _). lia.
  - rewrite app_length, map_length. lia.
  - intros i. rewrite in_app_iff, in_map_iff, H. split.
    + intros [Hi|(j & <- & Hj)]; [left; exact Hi|right]. split; [lia|]. replace (k + j - k) with j by lia. apply H'. exact Hj.
    + intros [Hi|[Hi Hq]]; [left; exact Hi|right]. exists (i - k). split; [lia|]. apply H'. exact Hq.
Qed.

Lemma test_loop_spec eq c : forall tol n l2, length c <= length tol ->
  exists k r, test_constraints_loop eq c tol n l2 = Ok (n + k, r) /\
    (finite_all tol -> exactly k (sat_at eq c tol)) /\
    (finite_all tol -> l2 = dzero -> (forall i, i < length c -> sat_at eq c tol i) -> r = dzero).
Proof.
  induction c as [|x c IH]; intros tol n l2 L.
  - exists 0, l2. simpl. rewrite Nat.add_0_r. split; [reflexivity|]. split; [|auto].
    intros _. exists []. split; [constructor|]. split; [reflexivity|]. intros i. split; [contradiction|].
    intros (y & t & E & _). destruct i; discriminate.
  - destruct tol as [|t tol]; [simpl in L; lia|]. simpl in L. cbn [test_constraints_loop].
    set (err := constraint_err _ t).
    destruct (IH tol (if dle err dzero then S n else n) (dadd l2 (dmul err err)) ltac:(lia)) as (k & r & E & Hk & Hr).
    exists (if dle err dzero then S k else k), r. split; [|split].
    + rewrite E. do 2 f_equal. destruct (dle err dzero); lia.
    + intros F. inversion F as [|? ? Ft Ftol]; subst. specialize (Hk Ftol).
      assert (E0 : sat_at eq (x :: c) (t :: tol) 0 <-> within eq x t).
      { split; [intros (y & u & Ey & Eu & W)|intros W; exists x, t; auto].
        simpl in Ey, Eu. inversion Ey; inversion Eu; subst. exact W. }
      assert (ES : exactly k (fun i => sat_at eq (x :: c) (t :: tol) (S i))) by exact Hk.
      pose proof (err_within eq x t Ft) as EW. fold err in EW.
      destruct (dle err dzero).
      * apply exactly_cons_true; [apply E0, EW; reflexivity|exact ES].
      * apply exactly_cons_false; [rewrite E0, <- EW; discriminate|exact ES].
    + intros F -> A. inversion F as [|? ? Ft Ftol]; subst. apply Hr; [exact Ftol| |].
      * assert (W : within eq x t).
        { destruct (A 0 ltac:(simpl; lia)) as (y & u & Ey & Eu & W). simpl in Ey, Eu. inversion Ey; inversion Eu; subst. exact W. }
        unfold err. rewrite (err_zero eq x t Ft W). rewrite dzero_int, dmul_int, dadd_int by lia. reflexivity.
      * intros i Hi. destruct (A (S i) ltac:(simpl; lia)) as (y & u & Ey & Eu & W). exists y, u. auto.
Qed.

Lemma dsqrt_zero : dsqrt dzero = dzero.
Proof. rewrite dzero_int. change (dint 0) with (dint (0 * 0)) at 1. apply dsqrt_int. lia. Qed.

Lemma test_constraints_spec eq c tol : length c <= length tol ->
  exists k r, test_constraints eq c tol = Ok (k, r) /\
    (finite_all tol -> exactly k (sat_at eq c tol)) /\
    (finite_all tol -> (forall i, i < length c -> sat_at eq c tol i) -> r = dzero).
Proof.
  intros L. unfold test_constraints. destruct (test_loop_spec eq c tol 0 dzero L) as (k & r & E & H1 & H2).
  rewrite E. cbn [bind fst snd Nat.add]. exists k, (dsqrt r). split; [reflexivity|]. split; [exact H1|].
  intros F A. rewrite (H2 F eq_refl A). apply dsqrt_zero.
Qed.

(** Count and the two violation measures of one fitness vector. *)
Definition fc_counts (neq : nat) (tol f : list dbl) : outcome (nat * dbl * dbl) :=
  bind (test_eq_constraints (firstn neq (skipn 1 f)) tol) (fun e =>
  bind (test_ineq_constraints (skipn (1 + neq) f) (skipn neq tol)) (fun i => Ok (fst e + fst i, snd e, snd i))).
Definition fc_count neq tol f := match fc_counts neq tol f with Ok (n, _, _) => n | _ => 0 end.
Definition fc_left neq tol f := match fc_counts neq tol f with Ok (_, e, i) => dadd e i | _ => NaN end.
Definition fc_right neq tol f := match fc_counts neq tol f with Ok (_, e, i) => dsqrt (dadd (dmul e e) (dmul i i)) | _ => NaN end.
Definition fc_obj (f : list dbl) : dbl := nth 0 f NaN.

(** The value of compare_fc in terms of these. *)
Definition fc_cmp (neq : nat) (tol f1 f2 : list dbl) : bool :=
  if Nat.eqb (fc_count neq tol f1) (fc_count neq tol f2) then
    if Nat.eqb (fc_count neq tol f1) (length tol) then less_than_f (fc_obj f1) (fc_obj f2)
    else less_than_f (fc_left neq tol f1) (fc_right neq tol f2)
  else Nat.ltb (fc_count neq tol f2) (fc_count neq tol f1).

Lemma nth_error_firstn {A} (l : list A) n i : i < n -> nth_error (firstn n l) i = nth_error l i.
Proof. revert n i. induction l as [|x l IH]; intros [|n] [|i] H; simpl; try lia; auto. apply IH; lia. Qed.
Lemma nth_error_skipn {A} (l : list A) n i : nth_error (skipn n l) i = nth_error l (n + i).
Proof. revert n. induction l as [|x l IH]; intros [|n]; simpl; auto. destruct i; reflexivity. Qed.
Lemma finite_skipn n l : finite_all l -> finite_all (skipn n l).
Proof. unfold finite_all. revert n. induction l as [|x l IH]; intros [|n] H; simpl; auto. inversion H; auto. Qed.

Lemma fc_counts_ok neq tol f : fc_args_ok neq tol f -> exists n e i, fc_counts neq tol f = Ok (n, e, i) /\
  (finite_all tol -> exactly n (satisfied neq tol f)).
Proof.
  intros [L N]. unfold fc_counts.
  destruct (test_constraints_spec true (firstn neq (skipn 1 f)) tol) as (k1 & r1 & E1 & H1 & _).
  { rewrite firstn_length. lia. }
  destruct (test_constraints_spec false (skipn (1 + neq) f) (skipn neq tol)) as (k2 & r2 & E2 & H2 & _).
  { rewrite !skipn_length. lia. }
  unfold test_eq_constraints, test_ineq_constraints. rewrite E1, E2. cbn [bind fst snd]. do 3 eexists. split; [reflexivity|].
  intros F. specialize (H1 F). specialize (H2 (finite_skipn neq _ F)).
  assert (B : forall i, sat_at true (firstn neq (skipn 1 f)) tol i -> i < neq).
  { intros i (x & t & Ex & _). assert (i < length (firstn neq (skipn 1 f))) by (apply nth_error_Some; rewrite Ex; discriminate).
    rewrite firstn_length in H. lia. }
  pose proof (exactly_sum _ _ _ _ neq H1 H2 B) as HS. eapply exactly_ext; [|exact HS].
  intros i. split.
  - intros [(x & t & Ex & Et & W)|[Hi (x & t & Ex & Et & W)]].
    + assert (i < neq) by (apply B; exists x, t; auto). rewrite nth_error_firstn in Ex by assumption. rewrite nth_error_skipn in Ex.
      exists x, t. split; [exact Ex|]. split; [exact Et|]. destruct (Nat.ltb_spec i neq); [exact W|lia].
    + rewrite nth_error_skipn in Ex. rewrite nth_error_skipn in Et. exists x, t.
      replace (1 + neq + (i - neq)) with (S i) in Ex by lia. replace (neq + (i - neq)) with i in Et by lia.
      split; [exact Ex|]. split; [exact Et|]. destruct (Nat.ltb_spec i neq); [lia|exact W].
  - intros (x & t & Ex & Et & W). destruct (Nat.ltb_spec i neq) as [Hi|Hi].
    + left. exists x, t. rewrite nth_error_firstn by exact Hi. rewrite nth_error_skipn. auto.
    + right. split; [exact Hi|]. exists x, t. rewrite !nth_error_skipn.
      replace (1 + neq + (i - neq)) with (S i) by lia. replace (neq + (i - neq)) with i by lia. auto.
Qed.

Lemma compare_fc_eq neq tol f1 f2 : fc_args_ok neq tol f1 -> fc_args_ok neq tol f2 ->
  compare_fc f1 f2 neq tol = Ok (fc_cmp neq tol f1 f2).
Proof.
  intros A1 A2. pose proof A1 as [L1 N1]. pose proof A2 as [L2 N2]. unfold compare_fc. rewrite L1, L2, Nat.eqb_refl. cbn [negb].
  destruct (Nat.ltb_spec (S (length tol)) 1); [lia|]. replace (S (length tol) - 1) with (length tol) by lia.
  rewrite Nat.eqb_refl. cbn [negb]. destruct (Nat.ltb_spec (length tol) neq); [lia|].
  unfold fc_cmp, fc_count, fc_left, fc_right.
  destruct (fc_counts_ok neq tol f1 A1) as (n1 & e1 & i1 & E1 & _). destruct (fc_counts_ok neq tol f2 A2) as (n2 & e2 & i2 & E2 & _).
  rewrite E1, E2. unfold fc_counts in E1, E2. cbn [fst snd].
  apply bind_ok in E1. destruct E1 as ([a1 b1] & -> & E1). apply bind_ok in E1. destruct E1 as ([c1 d1] & -> & E1).
  apply bind_ok in E2. destruct E2 as ([a2 b2] & -> & E2). apply bind_ok in E2. destruct E2 as ([c2 d2] & -> & E2).
  cbn [bind fst snd] in *. inversion E1; inversion E2; subst.
  destruct (Nat.eqb_spec (a1 + c1) (a2 + c2)); [|reflexivity]. destruct (Nat.eqb_spec (a1 + c1) (length tol)); [|reflexivity].
  destruct f1 as [|x1 f1]; [discriminate|]. destruct f2 as [|x2 f2]; [discriminate|]. reflexivity.
Qed.

Lemma compare_fc_rejects f1 f2 neq tol :
  length f1 <> length f2 \/ ~ fc_args_ok neq tol f1 -> compare_fc f1 f2 neq tol = Throw InvalidArgument.
Proof.
  intros H. unfold compare_fc. destruct (Nat.eqb_spec (length f1) (length f2)) as [E|E]; [|reflexivity]. cbn [negb].
  destruct (Nat.ltb_spec (length f1) 1); [reflexivity|]. destruct (Nat.eqb_spec (length f1 - 1) (length tol)); [|reflexivity]. cbn [negb].
  destruct (Nat.ltb_spec (length f1 - 1) neq); [reflexivity|]. destruct H as [H|H]; [contradiction|].
  exfalso. apply H. split; lia.
Qed.

Lemma fc_count_exact neq tol f : fc_args_ok neq tol f -> finite_all tol -> exactly (fc_count neq tol f) (satisfied neq tol f).
Proof. intros A F. destruct (fc_counts_ok neq tol f A) as (n & e & i & E & H). unfold fc_count. rewrite E. auto. Qed.
Lemma fc_feasible neq tol f : fc_args_ok neq tol f -> finite_all tol ->
  fc_count neq tol f <= length tol /\ (fc_count neq tol f = length tol <-> feasible neq tol f).
Proof.
  intros A F. apply (exactly_all _ (satisfied neq tol f)); [apply fc_count_exact; assumption|].
  intros i (c & t & _ & Et & _). apply nth_error_Some. rewrite Et. discriminate.
Qed.

Lemma compare_fc_spec f1 f2 neq tol : fc_args_ok neq tol f1 -> fc_args_ok neq tol f2 -> finite_all tol ->
  exists b, compare_fc f1 f2 neq tol = Ok b /\
    (forall n1 n2, exactly n1 (satisfied neq tol f1) -> exactly n2 (satisfied neq tol f2) ->
        (n1 > n2 -> b = true) /\ (n1 < n2 -> b = false)) /\
    (feasible neq tol f1 -> feasible neq tol f2 -> (b = true <-> better (nth 0 f1 NaN) (nth 0 f2 NaN))) /\
    (feasible neq tol f1 -> ~ feasible neq tol f2 -> b = true) /\
    (~ feasible neq tol f1 -> feasible neq tol f2 -> b = false).
Proof.
  intros A1 A2 F. eexists. split; [apply compare_fc_eq; assumption|].
  pose proof (fc_count_exact neq tol f1 A1 F) as C1. pose proof (fc_count_exact neq tol f2 A2 F) as C2.
  destruct (fc_feasible neq tol f1 A1 F) as [B1 F1]. destruct (fc_feasible neq tol f2 A2 F) as [B2 F2].
  unfold fc_cmp, fc_obj. repeat split.
  - intros Hn. rewrite (exactly_unique _ _ _ H C1) in Hn. rewrite (exactly_unique _ _ _ H0 C2) in Hn.
    destruct (Nat.eqb_spec (fc_count neq tol f1) (fc_count neq tol f2)); [lia|]. apply Nat.ltb_lt. lia.
  - intros Hn. rewrite (exactly_unique _ _ _ H C1) in Hn. rewrite (exactly_unique _ _ _ H0 C2) in Hn.
    destruct (Nat.eqb_spec (fc_count neq tol f1) (fc_count neq tol f2)); [lia|]. apply Nat.ltb_ge. lia.
  - apply F1 in H. apply F2 in H0. rewrite H, H0, Nat.eqb_refl. apply less_than_f_spec.
  - apply F1 in H. apply F2 in H0. rewrite H, H0, Nat.eqb_refl. apply less_than_f_spec.
  - intros H1 H2. apply F1 in H1. assert (fc_count neq tol f2 <> length tol) by tauto.
    destruct (Nat.eqb_spec (fc_count neq tol f1) (fc_count neq tol f2)); [lia|]. apply Nat.ltb_lt. lia.
  - intros H1 H2. apply F2 in H2. assert (fc_count neq tol f1 <> length tol) by tauto.
    destruct (Nat.eqb_spec (fc_count neq tol f1) (fc_count neq tol f2)); [lia|]. apply Nat.ltb_ge. lia.
Qed.
