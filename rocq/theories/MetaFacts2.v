(** Facts on unconstrain. *)
From Coq Require Import List Bool Arith ZArith Lia.
From Verif Require Import Dbl DblFacts IntDbl Outcome BaseFacts Constrained SpecConstrained ConstrainedFacts ConstrainedFacts2 MultiObj Problem Bfe BfeFacts SpecProblem ProblemFacts ProblemFacts2 ProblemFacts3 PoliciesFacts HvFacts5 HvFacts6 GenericFacts MetaProblems SpecMeta MetaFacts.
Import ListNotations.
Local Opaque one_z Z.pow.

Lemma unconstrain_accepts p m w :
  (unconstrain_args p m w -> exists u, unconstrain_udp p m w = Ok u /\ u_lb u = p_lb p /\ u_ub u = p_ub p /\ u_nix u = p_nix p /\
     u_nobj u = (if umethod_eqb m IgnoreO then 1 else p_nobj p) /\ u_nec u = 0 /\ u_nic u = 0 /\ u_ts u = u_ts (p_udp p) /\
     u_gradient u = None /\ u_hessians u = None) /\
  (~ unconstrain_args p m w -> unconstrain_udp p m w = Throw InvalidArgument).
Proof.
  unfold unconstrain_args, unconstrain_udp, unconstrain_check, unconstrain_nobj.
  destruct (Nat.eqb_spec (get_nc p) 0) as [H|H]; [split; [tauto|reflexivity]|].
  destruct (Nat.eqb_spec (length w) (get_nc p)) as [A|A], (Nat.eqb_spec (length w) 0) as [B|B], m; cbn [negb andb umethod_eqb bind];
   (split; [intros (K1 & K2 & K3)|intros K]); first [congruence | lia | (eexists; split; [reflexivity|]; cbn; tauto) | reflexivity | (exfalso; apply K; split; [assumption|]; split; [discriminate|assumption])].
Qed.
Lemma unconstrain_inv p m w u : unconstrain_udp p m w = Ok u -> unconstrain_args p m w /\ u_fitness u = unconstrain_fitness p m w /\
  u_batch u = match u_batch (p_udp p) with Some _ => Some (unconstrain_batch p m w) | None => None end.
Proof.
  intros H. split.
  - unfold unconstrain_udp, unconstrain_check in H. unfold unconstrain_args. destruct (Nat.eqb_spec (get_nc p) 0); [discriminate|].
    destruct (Nat.eqb_spec (length w) (get_nc p)), (Nat.eqb_spec (length w) 0), m; cbn [negb andb umethod_eqb bind] in *; try discriminate; repeat split; try assumption; discriminate.
  - unfold unconstrain_udp in H. destruct (unconstrain_check p m w); try discriminate. cbn [bind] in H. injection H as <-. auto.
Qed.

(** The counts behind penalize *)
Lemma penalize_counts p f : real_problem p -> length f = get_nf p -> finite_all (p_ctol p) ->
  exists se si, test_eq_constraints (firstn (p_nec p) (skipn (p_nobj p) f)) (p_ctol p) =
      Ok (se, violation_norm true (firstn (p_nec p) (skipn (p_nobj p) f)) (p_ctol p)) /\
    test_ineq_constraints (skipn (p_nobj p + p_nec p) f) (skipn (p_nec p) (p_ctol p)) =
      Ok (si, violation_norm false (skipn (p_nobj p + p_nec p) f) (skipn (p_nec p) (p_ctol p))) /\
    n_satisfied p f (se + si) /\
    (feasible_f p f -> violation_norm true (firstn (p_nec p) (skipn (p_nobj p) f)) (p_ctol p) = dzero /\
       violation_norm false (skipn (p_nobj p + p_nec p) f) (skipn (p_nec p) (p_ctol p)) = dzero).
Proof.
  intros R L F. destruct (real_bounds p R) as (_ & _ & _ & _ & LT & NF). unfold get_nc in LT.
  destruct (test_constraints_spec true (firstn (p_nec p) (skipn (p_nobj p) f)) (p_ctol p)) as (k1 & r1 & E1 & H1 & Z1).
  { rewrite firstn_length. lia. }
  destruct (test_constraints_spec false (skipn (p_nobj p + p_nec p) f) (skipn (p_nec p) (p_ctol p))) as (k2 & r2 & E2 & H2 & Z2).
  { rewrite !skipn_length. lia. }
  pose proof (test_constraints_norm true _ _ _ E1) as N1. pose proof (test_constraints_norm false _ _ _ E2) as N2. cbn [snd] in N1, N2.
  exists k1, k2. split; [unfold test_eq_constraints; rewrite E1, N1; reflexivity|]. split; [unfold test_ineq_constraints; rewrite E2, N2; reflexivity|].
  specialize (H1 F). specialize (H2 (finite_skipn _ _ F)).
  assert (S1 : forall i, sat_at true (firstn (p_nec p) (skipn (p_nobj p) f)) (p_ctol p) i <-> i < p_nec p /\ con_sat p f i).
  { intros i. split.
    - intros (x & t & Ex & Et & W). assert (Hi : i < length (firstn (p_nec p) (skipn (p_nobj p) f))) by (apply nth_error_Some; rewrite Ex; discriminate).
      rewrite firstn_length in Hi. split; [lia|]. rewrite nth_error_firstn in Ex by lia. rewrite nth_error_skipn in Ex. exists x, t. split; [exact Ex|]. split; [exact Et|]. destruct (Nat.ltb_spec i (p_nec p)); [exact W|lia].
    - intros (Hi & x & t & Ex & Et & W). exists x, t. rewrite nth_error_firstn by exact Hi. rewrite nth_error_skipn. destruct (Nat.ltb_spec i (p_nec p)); [auto|lia]. }
  assert (S2 : forall i, sat_at false (skipn (p_nobj p + p_nec p) f) (skipn (p_nec p) (p_ctol p)) i <-> con_sat p f (p_nec p + i)).
  { intros i. split; intros (x & t & Ex & Et & W); exists x, t.
    - rewrite nth_error_skipn in Ex, Et. rewrite Nat.add_assoc. split; [exact Ex|]. split; [exact Et|]. destruct (Nat.ltb_spec (p_nec p + i) (p_nec p)); [lia|exact W].
    - rewrite !nth_error_skipn. rewrite Nat.add_assoc in Ex. split; [exact Ex|]. split; [exact Et|]. destruct (Nat.ltb_spec (p_nec p + i) (p_nec p)); [lia|exact W]. }
  split.
  - assert (B : forall i, sat_at true (firstn (p_nec p) (skipn (p_nobj p) f)) (p_ctol p) i -> i < p_nec p) by (intros i H; apply S1 in H; tauto).
    pose proof (exactly_sum _ _ _ _ (p_nec p) H1 H2 B) as HS. unfold n_satisfied. refine (exactly_ext _ _ _ _ HS). intros i. cbv beta. rewrite S1. unfold get_nc. split.
    + intros [[Hi C]|[Hi C]]; [split; [lia|exact C]|]. apply S2 in C. replace (p_nec p + (i - p_nec p)) with i in C by lia. split; [|exact C].
      destruct C as (x & t & _ & Et & _). assert (i < length (p_ctol p)) by (apply nth_error_Some; congruence). lia.
    + intros [Hi C]. destruct (Nat.lt_ge_cases i (p_nec p)) as [Hl|Hl]; [left; auto|right]. split; [exact Hl|]. apply S2. replace (p_nec p + (i - p_nec p)) with i by lia. exact C.
  - intros FE. split.
    + rewrite <- N1. apply Z1; [exact F|]. intros i Hi. rewrite firstn_length in Hi. apply S1. split; [lia|]. apply FE. unfold get_nc. lia.
    + rewrite <- N2. apply Z2; [now apply finite_skipn|]. intros i Hi. rewrite skipn_length in Hi. apply S2. apply FE. unfold get_nc. lia.
Qed.
Lemma n_satisfied_le p f n : n_satisfied p f n -> n <= get_nc p /\ (n = get_nc p <-> feasible_f p f).
Proof.
  intros H. destruct (exactly_all n _ (get_nc p) H) as [H1 H2]; [tauto|]. split; [exact H1|]. rewrite H2. unfold feasible_f. split; intros K i Hi; [apply K; exact Hi|split; [exact Hi|apply K; exact Hi]].
Qed.
Lemma penalize_feas p f : real_problem p -> length f = get_nf p -> finite_all (p_ctol p) ->
  exists b, feasibility_f (p_nobj p) (p_nec p) (p_nic p) (p_ctol p) f = Ok b /\ (b = true <-> feasible_f p f).
Proof.
  intros R L F. destruct (real_bounds p R) as (_ & _ & _ & _ & LT & NF). destruct (feasibility_ok (p_nobj p) (p_nec p) (p_nic p) (p_ctol p) f) as (b & E & H); [lia|exact LT|exact F|].
  exists b. split; [exact E|]. exact H.
Qed.

(** The weighted penalty *)
Lemma fold_left_map_S {A} (g : A -> nat -> A) l : forall s, fold_left (fun s i => g s (S i)) l s = fold_left g (map S l) s.
Proof. induction l as [|x l IH]; intros s; [reflexivity|]. cbn [fold_left map]. apply IH. Qed.
Lemma fold_left_ext_in {A B} (g h : A -> B -> A) l : (forall s x, In x l -> g s x = h s x) -> forall s, fold_left g l s = fold_left h l s.
Proof. induction l as [|x l IH]; intros H s; [reflexivity|]. cbn [fold_left]. rewrite H by (left; reflexivity). apply IH. intros; apply H; right; assumption. Qed.
Lemma shifted_ok nec : forall c tol i, length c = length tol ->
  exists d, shifted_constraints nec i c tol = Ok d /\ length d = length c /\
   forall j, j < length c -> nth j d NaN = dsub (if Nat.ltb (i + j) nec then dabs (nth j c NaN) else nth j c NaN) (nth j tol NaN).
Proof.
  induction c as [|x c IH]; intros [|t tol] i L; try discriminate.
  - exists []. repeat split. cbn. lia.
  - injection L as L. destruct (IH tol (S i) L) as (d & E & Ld & H). cbn [shifted_constraints]. rewrite E. cbn [bind]. eexists. split; [reflexivity|]. split; [cbn; lia|].
    intros [|j] Hj; cbn [nth]; [now rewrite Nat.add_0_r|]. rewrite H by (cbn in Hj; lia). now rewrite Nat.add_succ_comm.
Qed.
Lemma weighted_ok : forall c w s, length c = length w -> weighted_penalty c w s =
  Ok (fold_left (fun s i => if dle (nth i c NaN) dzero then s else dadd s (dmul (nth i w NaN) (nth i c NaN))) (seq 0 (length c)) s).
Proof.
  induction c as [|x c IH]; intros [|wi w] s L; try discriminate; [reflexivity|]. injection L as L. cbn [weighted_penalty length seq fold_left nth]. rewrite IH by exact L. f_equal.
  rewrite <- seq_shift. rewrite <- (fold_left_map_S (fun s i => if dle (nth i (x :: c) NaN) dzero then s else dadd s (dmul (nth i (wi :: w) NaN) (nth i (x :: c) NaN)))).
  destruct (dle x dzero); reflexivity.
Qed.

Lemma fitness_len p c x f : fst (fitness p c x) = Ok f -> length f = get_nf p /\ length x = get_nx p.
Proof.
  intros H. destruct (fitness p c x) as [r c'] eqn:E. cbn [fst] in H. subst r. destruct (fitness_spec p c x _ c' E) as (K & _). destruct (proj1 (K f) eq_refl) as (A & B & C). auto.
Qed.
Lemma nth_skipn_d {A} (l : list A) n i d : nth i (skipn n l) d = nth (n + i) l d.
Proof. revert n. induction l as [|x l IH]; intros [|n]; cbn; auto. destruct i; reflexivity. Qed.
Lemma penalize_weighted p w f : real_problem p -> length f = get_nf p -> length w = get_nc p ->
  penalize p UWeighted w f = Ok (map (fun v => dadd v (weighted_violation p w f)) (firstn (p_nobj p) f)).
Proof.
  intros R L W. destruct (real_bounds p R) as (_ & _ & _ & _ & LT & NF). unfold get_nc in *.
  assert (LS : length (skipn (p_nobj p) f) = p_nec p + p_nic p) by (rewrite skipn_length; lia).
  unfold penalize. destruct (shifted_ok (p_nec p) (skipn (p_nobj p) f) (p_ctol p) 0) as (d & E & Ld & H); [lia|]. rewrite E. cbn [bind]. rewrite weighted_ok by lia. cbn [bind].
  rewrite Ld, LS. unfold weighted_violation, get_nc. f_equal. apply map_ext. intros v. f_equal. apply fold_left_ext_in. intros s i Hi. apply in_seq in Hi.
  unfold con_off. rewrite H by lia. rewrite nth_skipn_d. reflexivity.
Qed.
Lemma con_off_sat p f i : real_problem p -> length f = get_nf p -> finite_all (p_ctol p) -> i < get_nc p -> (dle (con_off p f i) dzero = true <-> con_sat p f i).
Proof.
  intros R L F Hi. destruct (real_bounds p R) as (_ & _ & _ & _ & LT & NF). unfold get_nc in *.
  destruct (nth_error f (p_nobj p + i)) as [c|] eqn:Ec; [|apply nth_error_None in Ec; lia]. destruct (nth_error (p_ctol p) i) as [t|] eqn:Et; [|apply nth_error_None in Et; lia].
  unfold con_off. rewrite (nth_error_nth _ _ NaN Ec), (nth_error_nth _ _ NaN Et).
  assert (Ft : isfinite t = true) by (unfold finite_all in F; rewrite Forall_forall in F; apply F; eapply nth_error_In; eauto).
  rewrite <- dmax_le_zero. fold (constraint_err (if Nat.ltb i (p_nec p) then dabs c else c) t). rewrite (err_within _ c t Ft). unfold con_sat. split.
  - intros W. exists c, t. auto.
  - intros (c1 & t1 & E1 & E2 & W). assert (c1 = c) by congruence. assert (t1 = t) by congruence. subst. exact W.
Qed.
Lemma weighted_feasible p w f : real_problem p -> length f = get_nf p -> finite_all (p_ctol p) -> feasible_f p f -> weighted_violation p w f = dzero.
Proof.
  intros R L F FE. unfold weighted_violation. rewrite (fold_left_ext_in _ (fun s _ => s)).
  - generalize (seq 0 (get_nc p)). induction l; cbn; auto.
  - intros s i Hi. apply in_seq in Hi. rewrite (proj2 (con_off_sat p f i R L F ltac:(lia))) by (apply FE; lia). reflexivity.
Qed.
Lemma add_zero a : is_double a -> dadd a dzero = a.
Proof. destruct a as [| |z|]; intros D; try reflexivity. unfold dadd, dzero. rewrite Z.add_0_r. now apply rnd_exact. Qed.

(** The fitness on feasible and on infeasible points *)
Lemma unconstrain_size p m w u x f : real_problem p -> finite_all (p_ctol p) -> unconstrain_udp p m w = Ok u -> fst (fitness p 0 x) = Ok f ->
  exists v, u_fitness u x = Ok v /\ length v = u_nobj u.
Proof.
  intros R F U X. destruct (unconstrain_inv _ _ _ _ U) as ((A1 & A2 & A3) & E & _). destruct (fitness_len _ _ _ _ X) as [L _].
  destruct (proj1 (unconstrain_accepts p m w) (conj A1 (conj A2 A3))) as (u' & U' & _ & _ & _ & N & _). rewrite U in U'. injection U' as <-. rewrite N, E. unfold unconstrain_fitness. rewrite X. cbn [bind].
  destruct (penalize_counts p f R L F) as (se & si & E1 & E2 & _). destruct (penalize_feas p f R L F) as (b & E3 & _). destruct (real_bounds p R) as (_ & _ & _ & _ & _ & NF).
  assert (LO : length (firstn (p_nobj p) f) = p_nobj p) by (rewrite firstn_length; lia).
  destruct m; cbn [umethod_eqb] in *; try congruence.
  - unfold penalize. rewrite E3. cbn [bind]. eexists. split; [reflexivity|]. destruct b; [exact LO|apply repeat_length].
  - unfold penalize. rewrite E3. cbn [bind]. destruct b; [eexists; split; [reflexivity|exact LO]|]. rewrite E1, E2. cbn [bind]. eexists. split; [reflexivity|apply repeat_length].
  - rewrite (penalize_weighted p w f R L A3). eexists. split; [reflexivity|]. now rewrite map_length.
  - eexists. split; [reflexivity|exact LO].
  - unfold penalize. rewrite E1, E2. cbn [bind]. eexists. split; reflexivity.
Qed.
Lemma unconstrain_feasible p m w u x f : real_problem p -> finite_all (p_ctol p) -> unconstrain_udp p m w = Ok u -> fst (fitness p 0 x) = Ok f -> Forall is_double f ->
  feasible_f p f -> u_fitness u x = Ok (if umethod_eqb m IgnoreO then [dzero] else firstn (p_nobj p) f).
Proof.
  intros R F U X D FE. destruct (unconstrain_inv _ _ _ _ U) as ((A1 & A2 & A3) & E & _). destruct (fitness_len _ _ _ _ X) as [L _].
  rewrite E. unfold unconstrain_fitness. rewrite X. cbn [bind].
  destruct (penalize_counts p f R L F) as (se & si & E1 & E2 & _ & ZN). destruct (ZN FE) as [Z1 Z2]. destruct (penalize_feas p f R L F) as (b & E3 & B). rewrite (proj2 B FE) in E3.
  destruct m; cbn [umethod_eqb] in *; try congruence.
  - unfold penalize. rewrite E3. reflexivity.
  - unfold penalize. rewrite E3. reflexivity.
  - rewrite (penalize_weighted p w f R L A3), (weighted_feasible p w f R L F FE). f_equal. rewrite <- (map_id (firstn (p_nobj p) f)) at 2. apply map_ext_in. intros a Ha. apply add_zero.
    rewrite Forall_forall in D. apply D. rewrite <- (firstn_skipn (p_nobj p) f). apply in_or_app. auto.
  - reflexivity.
  - unfold penalize. rewrite E1, E2, Z1, Z2. cbn [bind snd]. rewrite (add_zero dzero); [reflexivity|]. rewrite dzero_int. apply is_double_int. reflexivity.
Qed.
Lemma unconstrain_infeasible p m w u x f : real_problem p -> finite_all (p_ctol p) -> unconstrain_udp p m w = Ok u -> fst (fitness p 0 x) = Ok f ->
  ~ feasible_f p f ->
  match m with
  | Death => u_fitness u x = Ok (repeat dbl_max (p_nobj p))
  | Kuri => exists n, n_satisfied p f n /\ n < get_nc p /\ u_fitness u x = Ok (repeat (kuri_penalty n (get_nc p)) (p_nobj p))
  | UWeighted => u_fitness u x = Ok (map (fun v => dadd v (weighted_violation p w f)) (firstn (p_nobj p) f))
  | IgnoreC => u_fitness u x = Ok (firstn (p_nobj p) f)
  | IgnoreO => u_fitness u x = Ok [total_violation p f]
  | UnknownMethod => False
  end.
Proof.
  intros R F U X FE. destruct (unconstrain_inv _ _ _ _ U) as ((A1 & A2 & A3) & E & _). destruct (fitness_len _ _ _ _ X) as [L _].
  rewrite E. unfold unconstrain_fitness. rewrite X. cbn [bind].
  destruct (penalize_counts p f R L F) as (se & si & E1 & E2 & NS & _). destruct (penalize_feas p f R L F) as (b & E3 & B).
  assert (b = false) by (destruct b; [exfalso; tauto|reflexivity]). subst b.
  destruct m; cbn [umethod_eqb] in *; try congruence.
  - unfold penalize. rewrite E3. reflexivity.
  - exists (se + si). destruct (n_satisfied_le p f _ NS) as [K1 K2]. split; [exact NS|]. split; [destruct (Nat.eq_dec (se + si) (get_nc p)); [tauto|lia]|].
    unfold penalize. rewrite E3. cbn [bind]. rewrite E1, E2. reflexivity.
  - apply penalize_weighted; auto.
  - reflexivity.
  - unfold penalize. rewrite E1, E2. reflexivity.
Qed.
