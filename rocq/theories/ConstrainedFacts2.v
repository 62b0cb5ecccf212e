From Coq Require Import List Bool Arith ZArith Lia Permutation.
From Verif Require Import Dbl DblFacts Outcome StdSort BaseFacts Compare CompareFacts SpecOrder Constrained SpecConstrained IntDbl ConstrainedFacts.
Import ListNotations.

(** ** compare_fc as an order *)
Lemma fc_lt_cmp neq tol a b : fc_args_ok neq tol a -> fc_args_ok neq tol b -> fc_lt neq tol a b = fc_cmp neq tol a b.
Proof. intros A B. unfold fc_lt. rewrite compare_fc_eq by assumption. reflexivity. Qed.

Lemma fc_cmp_trans neq tol a b c : fc_cmp neq tol b b = false -> fc_cmp neq tol a b = true -> fc_cmp neq tol b c = true -> fc_cmp neq tol a c = true.
Proof.
  unfold fc_cmp. intros Hb Hab Hbc. rewrite Nat.eqb_refl in Hb.
  destruct (Nat.eqb_spec (fc_count neq tol a) (fc_count neq tol b)) as [E1|E1];
  destruct (Nat.eqb_spec (fc_count neq tol b) (fc_count neq tol c)) as [E2|E2].
  - destruct (Nat.eqb_spec (fc_count neq tol a) (fc_count neq tol c)) as [_|]; [|congruence].
    destruct (Nat.eqb_spec (fc_count neq tol a) (length tol)) as [F|F]; destruct (Nat.eqb_spec (fc_count neq tol b) (length tol)) as [F'|F']; try congruence.
    + apply less_than_f_spec in Hab. apply less_than_f_spec in Hbc. apply less_than_f_spec. eapply better_trans; eassumption.
    + apply less_than_f_spec in Hab. apply less_than_f_spec in Hbc. apply less_than_f_spec. apply ltf_false in Hb.
      eapply better_trans; [exact Hab|]. eapply not_worse_better; [|exact Hbc].
      destruct (not_worse_total (fc_right neq tol b) (fc_left neq tol b)) as [T|T]; [exact T|].
      apply not_worse_iff in T. destruct T as [T|T]; [contradiction|]. rewrite T. apply not_worse_refl.
  - apply Nat.ltb_lt in Hbc. destruct (Nat.eqb_spec (fc_count neq tol a) (fc_count neq tol c)); [lia|]. apply Nat.ltb_lt. lia.
  - apply Nat.ltb_lt in Hab. destruct (Nat.eqb_spec (fc_count neq tol a) (fc_count neq tol c)); [lia|]. apply Nat.ltb_lt. lia.
  - apply Nat.ltb_lt in Hab. apply Nat.ltb_lt in Hbc.
    destruct (Nat.eqb_spec (fc_count neq tol a) (fc_count neq tol c)); [lia|]. apply Nat.ltb_lt. lia.
Qed.

(** If no vector beats itself, compare_fc is a strict partial order. *)
Lemma fc_lt_spo neq tol l : (forall f, In f l -> fc_args_ok neq tol f) -> (forall f, In f l -> fc_lt neq tol f f = false) ->
  (forall a b c, In a l -> In b l -> In c l -> fc_lt neq tol a b = true -> fc_lt neq tol b c = true -> fc_lt neq tol a c = true) /\
  (forall a b, In a l -> In b l -> fc_lt neq tol a b = true -> fc_lt neq tol b a = false).
Proof.
  intros A I.
  assert (T : forall a b c, In a l -> In b l -> In c l -> fc_lt neq tol a b = true -> fc_lt neq tol b c = true -> fc_lt neq tol a c = true).
  { intros a b c Ha Hb Hc. rewrite !fc_lt_cmp by auto. apply fc_cmp_trans. rewrite <- fc_lt_cmp by auto. auto. }
  split; [exact T|]. intros a b Ha Hb Hab. destruct (fc_lt neq tol b a) eqn:E; [|reflexivity].
  pose proof (T a b a Ha Hb Ha Hab E) as C. rewrite (I a Ha) in C. discriminate.
Qed.

(** A key whose order is the order of compare_fc when the two measures agree. *)
Lemma fc_lt_swo neq tol l : (forall f, In f l -> fc_args_ok neq tol f) ->
  (forall f, In f l -> fc_count neq tol f <> length tol -> fc_left neq tol f = fc_right neq tol f) ->
  strict_weak_on (fc_lt neq tol) l.
Proof.
  intros A I.
  set (key := fun f => if Nat.eqb (fc_count neq tol f) (length tol) then fc_obj f else fc_left neq tol f).
  assert (K : forall a b, In a l -> In b l -> fc_lt neq tol a b =
     if Nat.eqb (fc_count neq tol a) (fc_count neq tol b) then less_than_f (key a) (key b) else Nat.ltb (fc_count neq tol b) (fc_count neq tol a)).
  { intros a b Ha Hb. rewrite fc_lt_cmp by auto. unfold fc_cmp, key.
    destruct (Nat.eqb_spec (fc_count neq tol a) (fc_count neq tol b)) as [E|E]; [|reflexivity]. rewrite E.
    destruct (Nat.eqb_spec (fc_count neq tol b) (length tol)) as [F|F]; [reflexivity|].
    rewrite <- (I b Hb F). reflexivity. }
  split.
  - intros a Ha. rewrite K by auto. rewrite Nat.eqb_refl. apply ltf_false. apply better_irrefl.
  - intros a b c Ha Hb Hc. rewrite !K by auto.
    destruct (Nat.eqb_spec (fc_count neq tol a) (fc_count neq tol b)) as [E1|E1];
    destruct (Nat.eqb_spec (fc_count neq tol b) (fc_count neq tol c)) as [E2|E2];
    destruct (Nat.eqb_spec (fc_count neq tol a) (fc_count neq tol c)) as [E3|E3]; try congruence;
    rewrite ?Nat.ltb_lt, ?less_than_f_spec; try lia. apply better_trans.
  - intros a b c Ha Hb Hc. rewrite !K by auto.
    rewrite (Nat.eqb_sym (fc_count neq tol b) (fc_count neq tol a)), (Nat.eqb_sym (fc_count neq tol c) (fc_count neq tol b)), (Nat.eqb_sym (fc_count neq tol c) (fc_count neq tol a)).
    destruct (Nat.eqb_spec (fc_count neq tol a) (fc_count neq tol b)) as [E1|E1];
    destruct (Nat.eqb_spec (fc_count neq tol b) (fc_count neq tol c)) as [E2|E2];
    destruct (Nat.eqb_spec (fc_count neq tol a) (fc_count neq tol c)) as [E3|E3]; try congruence;
    rewrite ?Nat.ltb_ge, ?ltf_false; try lia.
    intros H1 H2 H3 H4. destruct (better_total (key a) (key b)) as [|[->|]]; try tauto.
Qed.

Lemma fc_all_feasible_swo neq tol l : (forall f, In f l -> fc_args_ok neq tol f) -> finite_all tol ->
  (forall f, In f l -> feasible neq tol f) -> strict_weak_on (fc_lt neq tol) l.
Proof.
  intros A F H. apply fc_lt_swo; [exact A|]. intros f Hf N. exfalso. apply N. apply (fc_feasible neq tol f (A f Hf) F). auto.
Qed.


(** ** The violation measures *)
Lemma loop_norm (eq : bool) : forall c tol n s r, test_constraints_loop eq c tol n s = Ok r ->
  snd r = fold_left (fun s e => dadd s (dmul e e)) (excesses eq c tol) s.
Proof.
  induction c as [|x c IH]; intros tol n s r H; cbn [test_constraints_loop] in H.
  - inversion H; subst. reflexivity.
  - destruct tol as [|t tol]; [discriminate|]. apply IH in H. rewrite H. reflexivity.
Qed.
Lemma test_constraints_norm (eq : bool) c tol r : test_constraints eq c tol = Ok r -> snd r = violation_norm eq c tol.
Proof.
  unfold test_constraints. intros H. apply bind_ok in H. destruct H as (r' & H & H'). inversion H'; subst. cbn [snd].
  unfold violation_norm. f_equal. eapply loop_norm; eassumption.
Qed.
Lemma excesses_firstn (eq : bool) : forall c tol, excesses eq c (firstn (length c) tol) = excesses eq c tol.
Proof. induction c as [|x c IH]; intros [|t tol]; cbn [excesses firstn length]; try reflexivity. now rewrite IH. Qed.

Lemma fc_norms neq tol f : fc_args_ok neq tol f ->
  fc_left neq tol f = dadd (eq_norm neq tol f) (ineq_norm neq tol f) /\
  fc_right neq tol f = dsqrt (dadd (dmul (eq_norm neq tol f) (eq_norm neq tol f)) (dmul (ineq_norm neq tol f) (ineq_norm neq tol f))).
Proof.
  intros A. pose proof A as [L N]. destruct (fc_counts_ok neq tol f A) as (n & e & i & E & _).
  unfold fc_left, fc_right. rewrite E. unfold fc_counts in E.
  apply bind_ok in E. destruct E as (r1 & E1 & E). apply bind_ok in E. destruct E as (r2 & E2 & E). inversion E; subst.
  apply test_constraints_norm in E1. apply test_constraints_norm in E2.
  assert (X : snd r1 = eq_norm neq tol f).
  { rewrite E1. destruct f as [|y f]; [discriminate|]. unfold eq_norm, violation_norm. cbn [skipn tl].
    rewrite <- (excesses_firstn true (firstn neq f) tol). rewrite firstn_length_le; [reflexivity|]. simpl in L. lia. }
  assert (Y : snd r2 = ineq_norm neq tol f).
  { rewrite E2. destruct f as [|y f]; [discriminate|]. reflexivity. }
  rewrite X, Y. split; reflexivity.
Qed.

Lemma compare_fc_infeasible f1 f2 neq tol n : fc_args_ok neq tol f1 -> fc_args_ok neq tol f2 -> finite_all tol ->
  exactly n (satisfied neq tol f1) -> exactly n (satisfied neq tol f2) -> n <> length tol ->
  exists b, compare_fc f1 f2 neq tol = Ok b /\
   (b = true <-> better (dadd (eq_norm neq tol f1) (ineq_norm neq tol f1))
                        (dsqrt (dadd (dmul (eq_norm neq tol f2) (eq_norm neq tol f2)) (dmul (ineq_norm neq tol f2) (ineq_norm neq tol f2))))).
Proof.
  intros A1 A2 F E1 E2 N. eexists. split; [apply compare_fc_eq; assumption|].
  rewrite <- (proj1 (fc_norms neq tol f1 A1)), <- (proj2 (fc_norms neq tol f2 A2)).
  unfold fc_cmp. rewrite (exactly_unique _ _ _ (fc_count_exact neq tol f1 A1 F) E1), (exactly_unique _ _ _ (fc_count_exact neq tol f2 A2 F) E2).
  rewrite Nat.eqb_refl. destruct (Nat.eqb_spec n (length tol)); [contradiction|]. apply less_than_f_spec.
Qed.

(** The strict weak order condition in terms of the norms. *)
Lemma fc_lt_swo_norms neq tol l : (forall f, In f l -> fc_args_ok neq tol f) -> finite_all tol ->
  (forall f, In f l -> ~ feasible neq tol f ->
     dadd (eq_norm neq tol f) (ineq_norm neq tol f) =
     dsqrt (dadd (dmul (eq_norm neq tol f) (eq_norm neq tol f)) (dmul (ineq_norm neq tol f) (ineq_norm neq tol f)))) ->
  strict_weak_on (fc_lt neq tol) l.
Proof.
  intros A F H. apply fc_lt_swo; [exact A|]. intros f Hf N. destruct (fc_norms neq tol f (A f Hf)) as [-> ->].
  apply H; [exact Hf|]. intros G. apply N. apply (fc_feasible neq tol f (A f Hf) F). exact G.
Qed.

(** ** sort_population_con *)
Lemma sort_con_ok srt input_f neq tol : sort_contract srt -> (forall f, In f input_f -> fc_args_ok neq tol f) ->
  strict_weak_on (fc_lt neq tol) input_f ->
  exists idx, sort_population_con srt input_f neq tol = Ok idx /\ Permutation (iota (length input_f)) idx /\
    (forall i j a b, i < j -> nth_error idx i = Some a -> nth_error idx j = Some b ->
       compare_fc (nth b input_f []) (nth a input_f []) neq tol = Ok false).
Proof.
  intros C A W. destruct input_f as [|f0 [|f1 rest]].
  - exists []. split; [reflexivity|]. split; [constructor|]. intros i j a b _ H. destruct i; discriminate.
  - exists [0]. split; [reflexivity|]. split; [apply Permutation_refl|]. intros [|i] [|j] a b Hij Ha Hb; try lia.
    + destruct j; discriminate.
    + destruct i; discriminate.
  - remember (f0 :: f1 :: rest) as L eqn:EL. unfold sort_population_con. rewrite EL. rewrite <- EL. cbv iota.
    assert (FA : forallb (fun f => Nat.leb 1 (length f) && Nat.eqb (length f - 1) (length tol) && Nat.leb neq (length f - 1)) L = true).
    { apply forallb_forall. intros f Hf. destruct (A f Hf) as [L1 L2]. rewrite L1.
      apply andb_true_iff; split; [apply andb_true_iff; split|]; [apply Nat.leb_le; lia|apply Nat.eqb_eq; lia|apply Nat.leb_le; lia]. }
    rewrite FA.
    assert (N : forall i, In i (iota (length L)) -> In (nth i L []) L) by (intros i Hi; apply in_iota in Hi; apply nth_In; exact Hi).
    assert (W' : strict_weak_on (compare_fc_idx L neq tol) (iota (length L))).
    { split.
      - intros a Ha. apply (swo_irrefl _ _ W). auto.
      - intros a b c Ha Hb Hc. apply (swo_trans _ _ W); auto.
      - intros a b c Ha Hb Hc. apply (swo_incomp _ _ W); auto. }
    destruct (std_sort_ok srt (compare_fc_idx L neq tol) (iota (length L)) C W') as (idx & E & P & S).
    exists idx. split; [exact E|]. split; [exact P|].
    intros i j a b Hij Ha Hb. pose proof (sorted_by_nth _ _ i j a b S Hij Ha Hb) as H. cbv beta in H.
    assert (Ia : In a (iota (length L))) by (eapply Permutation_in; [apply Permutation_sym, P|eapply nth_error_In; exact Ha]).
    assert (Ib : In b (iota (length L))) by (eapply Permutation_in; [apply Permutation_sym, P|eapply nth_error_In; exact Hb]).
    unfold compare_fc_idx in H. rewrite compare_fc_eq in * by (apply A; auto). rewrite H. reflexivity.
Qed.

Lemma sort_con_feasible_first srt input_f neq tol idx : sort_contract srt -> (forall f, In f input_f -> fc_args_ok neq tol f) ->
  finite_all tol -> strict_weak_on (fc_lt neq tol) input_f -> sort_population_con srt input_f neq tol = Ok idx ->
  forall i j a b, i < j -> nth_error idx i = Some a -> nth_error idx j = Some b ->
    (feasible neq tol (nth b input_f []) -> feasible neq tol (nth a input_f []) /\
        not_worse (nth 0 (nth a input_f []) NaN) (nth 0 (nth b input_f []) NaN)) /\
    (forall na nb, exactly na (satisfied neq tol (nth a input_f [])) -> exactly nb (satisfied neq tol (nth b input_f [])) -> nb <= na).
Proof.
  intros C A F W E i j a b Hij Ha Hb. destruct (sort_con_ok srt input_f neq tol C A W) as (idx' & E' & P & S).
  rewrite E in E'. inversion E'; subst idx'. specialize (S i j a b Hij Ha Hb).
  assert (Aa : fc_args_ok neq tol (nth a input_f [])).
  { apply A, nth_In. apply in_iota. eapply Permutation_in; [apply Permutation_sym, P|eapply nth_error_In; exact Ha]. }
  assert (Ab : fc_args_ok neq tol (nth b input_f [])).
  { apply A, nth_In. apply in_iota. eapply Permutation_in; [apply Permutation_sym, P|eapply nth_error_In; exact Hb]. }
  destruct (compare_fc_spec _ _ neq tol Ab Aa F) as (r & Er & H1 & H2 & H3 & H4). rewrite S in Er. inversion Er; subst r.
  split.
  - intros Fb. assert (Fa : feasible neq tol (nth a input_f [])).
    { destruct (fc_feasible neq tol _ Aa F) as [_ FF]. destruct (Nat.eq_dec (fc_count neq tol (nth a input_f [])) (length tol)) as [Y|N]; [apply FF, Y|].
      exfalso. assert (false = true) by (apply H3; [exact Fb|intros X; apply N, FF, X]). discriminate. }
    split; [exact Fa|]. specialize (H2 Fb Fa).
    destruct (not_worse_total (nth 0 (nth a input_f []) NaN) (nth 0 (nth b input_f []) NaN)) as [T|T]; [exact T|].
    apply not_worse_iff in T. destruct T as [T|T]; [exfalso; apply H2 in T; discriminate|]. rewrite T. apply not_worse_refl.
  - intros na nb Ea Eb. destruct (H1 nb na Eb Ea) as [G _]. destruct (le_lt_dec nb na); [assumption|].
    exfalso. specialize (G l). discriminate.
Qed.

Lemma sort_con_rejects srt input_f neq tol : 2 <= length input_f -> (exists f, In f input_f /\ ~ fc_args_ok neq tol f) ->
  sort_population_con srt input_f neq tol = Throw InvalidArgument.
Proof.
  intros L (f & Hf & N). destruct input_f as [|f0 [|f1 rest]]; simpl in L; try lia.
  unfold sort_population_con. destruct (forallb _ (f0 :: f1 :: rest)) eqn:H; [|reflexivity]. exfalso.
  rewrite forallb_forall in H. specialize (H f Hf). apply N.
  apply andb_true_iff in H. destruct H as [H H3]. apply andb_true_iff in H. destruct H as [H1 H2].
  apply Nat.leb_le in H1. apply Nat.eqb_eq in H2. apply Nat.leb_le in H3. split; lia.
Qed.

(** ** feasibility_f *)
Lemma feasibility_ok nobj nec nic c_tol f : length f = nobj + nec + nic -> length c_tol = nec + nic -> finite_all c_tol ->
  exists b, feasibility_f nobj nec nic c_tol f = Ok b /\
    (b = true <-> forall i, i < nec + nic -> exists c t, nth_error f (nobj + i) = Some c /\ nth_error c_tol i = Some t /\ within (Nat.ltb i nec) c t).
Proof.
  intros L Lt F. unfold feasibility_f. rewrite L, Nat.eqb_refl. cbn [negb].
  set (g := NaN :: skipn nobj f).
  assert (A : fc_args_ok nec c_tol g) by (split; [unfold g; simpl; rewrite skipn_length; lia|lia]).
  destruct (fc_counts_ok nec c_tol g A) as (n & e & i & E & H). specialize (H F). unfold fc_counts in E.
  assert (E1 : skipn (1 + nec) g = skipn (nobj + nec) f).
  { unfold g. cbn [Nat.add skipn]. clear. revert nobj. induction f as [|x f IH]; intros [|nobj]; cbn [skipn Nat.add]; auto. destruct nec; reflexivity. }
  rewrite E1 in E. cbn [skipn] in E. unfold g in E. cbn [skipn] in E.
  apply bind_ok in E. destruct E as ([a1 b1] & -> & E). apply bind_ok in E. destruct E as ([c1 d1] & -> & E).
  cbn [bind fst snd] in *. inversion E; subst. eexists. split; [reflexivity|]. rewrite Nat.eqb_eq.
  destruct (exactly_all _ (satisfied nec c_tol g) (nec + nic) H) as [_ Q].
  { intros k (c & t & _ & Et & _). rewrite <- Lt. apply nth_error_Some. rewrite Et. discriminate. }
  rewrite Q. split; intros G j Hj; specialize (G j Hj); destruct G as (c & t & Ec & G); exists c, t; (split; [|exact G]).
  - unfold g in Ec. cbn [nth_error] in Ec. rewrite nth_error_skipn in Ec. exact Ec.
  - unfold g. cbn [nth_error]. rewrite nth_error_skipn. exact Ec.
Qed.
Lemma feasibility_rejects nobj nec nic c_tol f : length f <> nobj + nec + nic -> feasibility_f nobj nec nic c_tol f = Throw InvalidArgument.
Proof. intros H. unfold feasibility_f. destruct (Nat.eqb_spec (length f) (nobj + nec + nic)); [contradiction|reflexivity]. Qed.

(** ** Counterexamples *)
(** A violation so small that its square underflows is not seen by the norm. *)
Lemma norm_underflow : test_eq_constraints [Fin 1] [Fin 0] = Ok (0, dzero).
Proof. vm_compute. reflexivity. Qed.

Definition fa : list dbl := [dint 0; dint 20; dint 21].
Definition fb : list dbl := [dint 0; dint 7; dint 24].
Definition fcc : list dbl := [dint 0; dint 9; dint 40].
Definition ftol : list dbl := [dint 0; dint 0].

Ltac fc_cbn := cbv beta iota zeta delta [fc_lt compare_fc feasibility_f test_eq_constraints test_ineq_constraints test_constraints constraint_err less_than_f less_than_f_gen fa fb fcc ftol
  length Nat.eqb Nat.ltb Nat.leb Nat.sub Nat.add negb firstn skipn fst snd bind test_constraints_loop vget nth_error].
Local Opaque dadd dsub dmul dsqrt dabs dneg dlt deq dle dint d_of_Z dmax dmin dsc.
Ltac fc_eval := fc_cbn; repeat (dint_step; fc_cbn); reflexivity.

Lemma cmp_ab : compare_fc fa fb 1 ftol = Ok false. Proof. fc_eval. Qed.
Lemma cmp_ba : compare_fc fb fa 1 ftol = Ok false. Proof. fc_eval. Qed.
Lemma cmp_ac : compare_fc fa fcc 1 ftol = Ok false. Proof. fc_eval. Qed.
Lemma cmp_ca : compare_fc fcc fa 1 ftol = Ok false. Proof. fc_eval. Qed.
Lemma cmp_bc : compare_fc fb fcc 1 ftol = Ok true. Proof. fc_eval. Qed.

Lemma fc_not_swo : ~ strict_weak_on (fc_lt 1 ftol) [fa; fb; fcc].
Proof.
  intros W. pose proof (swo_incomp _ _ W fb fa fcc) as H. unfold fc_lt in H. rewrite cmp_ab, cmp_ba, cmp_ac, cmp_ca, cmp_bc in H.
  destruct H as [H _]; simpl; auto. discriminate.
Qed.

Lemma sort_con_ub srt : sort_population_con srt [fa; fb; fcc] 1 ftol = UB.
Proof.
  unfold sort_population_con. cbn [forallb length fa fb fcc ftol Nat.leb Nat.sub Nat.eqb andb].
  apply std_sort_UB. intros W. apply fc_not_swo.
  split.
  - intros a Ha. simpl in Ha. destruct Ha as [<-|[<-|[<-|[]]]].
    + apply (swo_irrefl _ _ W 0). simpl; auto.
    + apply (swo_irrefl _ _ W 1). simpl; auto.
    + apply (swo_irrefl _ _ W 2). simpl; auto.
  - intros a b c Ha Hb Hc.
    assert (G : forall x, In x [fa; fb; fcc] -> exists i, In i (iota 3) /\ nth i [fa; fb; fcc] [] = x).
    { intros x [<-|[<-|[<-|[]]]]; [exists 0|exists 1|exists 2]; simpl; auto. }
    destruct (G a Ha) as (i & Hi & <-). destruct (G b Hb) as (j & Hj & <-). destruct (G c Hc) as (k & Hk & <-).
    exact (swo_trans _ _ W i j k Hi Hj Hk).
  - intros a b c Ha Hb Hc.
    assert (G : forall x, In x [fa; fb; fcc] -> exists i, In i (iota 3) /\ nth i [fa; fb; fcc] [] = x).
    { intros x [<-|[<-|[<-|[]]]]; [exists 0|exists 1|exists 2]; simpl; auto. }
    destruct (G a Ha) as (i & Hi & <-). destruct (G b Hb) as (j & Hj & <-). destruct (G c Hc) as (k & Hk & <-).
    exact (swo_incomp _ _ W i j k Hi Hj Hk).
Qed.

(** 15 * 2^508: its square is finite, the sum of two such squares overflows. *)
Definition huge : dbl := dsc 15 1582.
Lemma huge_double : is_double huge.
Proof. apply (dsc_double 15 1582 4); lia. Qed.
Lemma fc_self_overflow : compare_fc [dzero; huge; huge] [dzero; huge; huge] 1 [dzero; dzero] = Ok true.
Proof.
  fc_cbn. unfold huge. rewrite dsc_abs, (dsc_sub0 15 1582 4), dsc_max0 by lia. fc_cbn. rewrite dsc_not0 by lia. fc_cbn.
  rewrite (dsc_mul 15 15 1582 1582 2090 8) by lia. rewrite (dsc_add0 (15 * 15) 2090 8), (dsc_sqrt 15 2090 1582 4) by lia.
  rewrite (dsc_mul 15 15 1582 1582 2090 8) by lia. rewrite (dsc_add_over (15 * 15) (15 * 15) 2090 8) by lia.
  rewrite (dsc_add 15 15 1582 5) by lia. reflexivity.
Qed.

(** ** Statements used by Props_Constrained *)
Lemma constraint_counts (eq : bool) c tol : length c <= length tol -> finite_all tol ->
  exists n norm, (if eq then test_eq_constraints c tol else test_ineq_constraints c tol) = Ok (n, norm) /\
    exactly n (sat_at eq c tol) /\ norm = violation_norm eq c tol /\
    ((forall i, i < length c -> sat_at eq c tol i) -> norm = dzero).
Proof.
  intros L F. destruct (test_constraints_spec eq c tol L) as (k & r & E & H1 & H2).
  exists k, r. split; [destruct eq; exact E|]. split; [auto|]. split; [apply (test_constraints_norm _ _ _ _ E)|auto].
Qed.
Lemma feasibility_both nobj nec nic c_tol f : length c_tol = nec + nic -> finite_all c_tol ->
  (length f <> nobj + nec + nic -> feasibility_f nobj nec nic c_tol f = Throw InvalidArgument) /\
  (length f = nobj + nec + nic -> exists b, feasibility_f nobj nec nic c_tol f = Ok b /\
    (b = true <-> forall i, i < nec + nic -> exists c t,
        nth_error f (nobj + i) = Some c /\ nth_error c_tol i = Some t /\ within (Nat.ltb i nec) c t)).
Proof. intros L F. split; intros H; [apply feasibility_rejects, H|apply feasibility_ok; assumption]. Qed.
Lemma zero_norm_refuted : exists c tol, finite_all c /\ finite_all tol /\ length c = length tol /\
  test_eq_constraints c tol = Ok (0, dzero) /\ ~ sat_at true c tol 0.
Proof.
  exists [Fin 1], [Fin 0]. split; [repeat constructor|]. split; [repeat constructor|]. split; [reflexivity|]. split; [apply norm_underflow|].
  intros (x & t & H1 & H2 & H3). inversion H1; inversion H2; subst. vm_compute in H3. discriminate.
Qed.
Definition swo_pop : list (list dbl) := [[dint 1; dint 4; dint (-1)]; [dint 2; dint 0; dint (-1)]; [dint 3; dint (-7); dint 0]].
Ltac norm_eval := unfold eq_norm, ineq_norm, violation_norm, excess, ftol;
   cbn [firstn skipn tl excesses fold_left]; unfold excess; repeat dint_step; try reflexivity.
Lemma swo_example : strict_weak_on (fc_lt 1 ftol) swo_pop.
Proof.
  apply fc_lt_swo_norms.
  - intros f [<-|[<-|[<-|[]]]]; split; simpl; lia.
  - repeat constructor.
  - intros f [<-|[<-|[<-|[]]]] _; norm_eval.
Qed.
Lemma sort_example : exists idx, sort_population_con (@isort) swo_pop 1 ftol = Ok idx.
Proof.
  destruct (sort_con_ok (@isort) swo_pop 1 ftol isort_contract) as (idx & E & _); [|exact swo_example|exists idx; exact E].
  intros f [<-|[<-|[<-|[]]]]; split; simpl; lia.
Qed.
Lemma swo_refuted : exists neq tol l, finite_all tol /\
  (forall f, In f l -> fc_args_ok neq tol f /\ finite_all f) /\ ~ strict_weak_on (fc_lt neq tol) l.
Proof.
  exists 1, ftol, [fa; fb; fcc]. split; [repeat constructor|]. split; [|exact fc_not_swo].
  intros f [<-|[<-|[<-|[]]]]; (split; [split; simpl; lia|repeat constructor]).
Qed.
Lemma irrefl_refuted : exists neq tol f, finite_all tol /\ fc_args_ok neq tol f /\ finite_all f /\
  Forall is_double f /\ compare_fc f f neq tol = Ok true.
Proof.
  exists 1, [dzero; dzero], [dzero; huge; huge]. split; [repeat constructor|]. split; [split; simpl; lia|]. split; [repeat constructor|].
  split; [|exact fc_self_overflow]. constructor; [|repeat (constructor; [exact huge_double|]); constructor].
  rewrite dzero_int. apply is_double_int. reflexivity.
Qed.
Lemma sort_refuted : exists input_f neq tol, finite_all tol /\
  (forall f, In f input_f -> fc_args_ok neq tol f /\ finite_all f) /\ forall srt, sort_population_con srt input_f neq tol = UB.
Proof.
  exists [fa; fb; fcc], 1, ftol. split; [repeat constructor|]. split; [|exact sort_con_ub].
  intros f [<-|[<-|[<-|[]]]]; (split; [split; simpl; lia|repeat constructor]).
Qed.

Lemma ex_counts : test_eq_constraints [dint 3; dint (-1); dint 0] [dint 0; dint 1; dint 0] = Ok (2, dint 3).
Proof. fc_eval. Qed.
Lemma ex_feas : feasibility_f 1 1 1 [dint 1; dint 0] [dint 7; dint (-1); dint (-5)] = Ok true /\
  feasibility_f 1 1 1 [dint 1; dint 0] [dint 7; dint 2; dint (-5)] = Ok false.
Proof. split; fc_eval. Qed.
Lemma ex_cmp : compare_fc [dint 9; dint 0; dint (-2)] [dint 1; dint 5; dint (-2)] 1 ftol = Ok true /\
  compare_fc [dint 9; dint 0; dint (-2)] [dint 1; dint 0; dint (-3)] 1 ftol = Ok false.
Proof. split; fc_eval. Qed.
Lemma ex_lt : fc_lt 1 ftol fa fa = false /\ fc_lt 1 ftol fb fb = false /\ fc_lt 1 ftol fb fcc = true.
Proof. split; [|split]; fc_eval. Qed.
