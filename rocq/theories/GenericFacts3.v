From Coq Require Import List Bool Arith ZArith Lia Permutation Sorting.Sorted.
From Verif Require Import Dbl DblFacts IntDbl Outcome BaseFacts StdSort Compare CompareFacts SpecOrder Rng Problem SpecProblem ProblemFacts ProblemFacts2 ProblemFacts3 Generic SpecGeneric GenericFacts GenericFacts2.
Import ListNotations.

Section R.
Context {G : Type} (r : rng G) (RC : rng_contract r).

Lemma rbind_okE {A B} (m : RM G A) (f : A -> RM G B) g a g' : m g = (Ok a, g') -> rbind m f g = f a g'.
Proof. unfold rbind. now intros ->. Qed.
Lemma rbind_throwE {A B} (m : RM G A) (f : A -> RM G B) g e g' : m g = (Throw e, g') -> rbind m f g = (Throw e, g').
Proof. unfold rbind. now intros ->. Qed.
Lemma rbind_ext {A B} (m m' : RM G A) (f f' : A -> RM G B) g : m g = m' g -> (forall a g', m g = (Ok a, g') -> f a g' = f' a g') -> rbind m f g = rbind m' f' g.
Proof. unfold rbind. intros E H. rewrite <- E. destruct (m g) as [[a| | |] g']; auto. Qed.

(** A problem whose bounds are well formed doubles (every constructed problem). *)

Lemma Forall2_nth {A B} (P : A -> B -> Prop) l1 l2 : Forall2 P l1 l2 -> length l1 = length l2 /\
  forall i a b, nth_error l1 i = Some a -> nth_error l2 i = Some b -> P a b.
Proof.
  induction 1 as [|a b l1 l2 H F [L N]]; [split; [reflexivity|intros [|i]; discriminate]|]. split; [cbn; congruence|].
  intros [|i] a' b' Ha Hb; cbn in *; [congruence|eauto].
Qed.
Lemma nth_error_seq s n i : i < n -> nth_error (seq s n) i = Some (s + i).
Proof. revert s i. induction n as [|n IH]; intros s [|i] H; try lia; cbn; [f_equal; lia|]. rewrite IH by lia. f_equal. lia. Qed.

Lemma rdv_spec p g : bounded_problem p ->
  (exists x, fst (random_decision_vector r p g) = Ok x /\ in_box (p_lb p) (p_ub p) x /\
     (forall i v, get_nx p - p_nix p <= i -> nth_error x i = Some v -> integral v) /\ usable p) \/
  (fst (random_decision_vector r p g) = Throw InvalidArgument /\ ~ usable p).
Proof.
  intros ((NE & LEN & BND & NIX & INT) & Dl & Du). unfold random_decision_vector. cbv zeta. unfold get_nx in *. set (nx := length (p_lb p)) in *. set (ncx := nx - p_nix p).
  rewrite Forall_forall in Dl, Du.
  assert (GET : forall i, i < nx -> exists l u, nth_error (p_lb p) i = Some l /\ nth_error (p_ub p) i = Some u /\ dle l u = true /\ is_double l /\ is_double u).
  { intros i Hi. destruct (nth_error (p_lb p) i) as [l|] eqn:El; [|apply nth_error_None in El; unfold nx in Hi; lia].
    destruct (nth_error (p_ub p) i) as [u|] eqn:Eu; [|apply nth_error_None in Eu; unfold nx in Hi; lia]. exists l, u.
    split; [reflexivity|]. split; [reflexivity|]. split; [apply (BND i l u El Eu)|]. split; [apply Dl|apply Du]; eapply nth_error_In; eauto. }
  set (Pw := fun i v => forall l u, nth_error (p_lb p) i = Some l -> nth_error (p_ub p) i = Some u -> within l u v).
  set (Q1 := fun i => forall l u, nth_error (p_lb p) i = Some l -> nth_error (p_ub p) i = Some u -> ok_real l u).
  set (Q2 := fun i => forall l u, nth_error (p_lb p) i = Some l -> nth_error (p_ub p) i = Some u -> ok_int l u).
  set (f1 := fun i => rbind (rlift (vget (p_lb p) i)) (fun lb => rbind (rlift (vget (p_ub p) i)) (fun ub => uniform_real_impl r true false true lb ub))).
  set (f2 := fun i => rbind (rlift (vget (p_lb p) i)) (fun lb => rbind (rlift (vget (p_ub p) i)) (fun ub => uniform_integral_impl r true false false lb ub))).
  assert (U : usable p <-> Forall Q1 (seq 0 ncx) /\ Forall Q2 (seq ncx (nx - ncx))).
  { unfold usable, get_nx. fold nx ncx. rewrite !Forall_forall. split.
    - intros H. split; intros i Hi l u Hl Hu; apply in_seq in Hi; specialize (H i l u Hl Hu).
      + destruct (Nat.ltb_spec i ncx); [exact H|lia].
      + destruct (Nat.ltb_spec i ncx); [lia|exact H].
    - intros [H1 H2] i l u Hl Hu. assert (Hi : i < nx) by (unfold nx; apply nth_error_Some; congruence).
      destruct (Nat.ltb_spec i ncx); [apply (H1 i)|apply (H2 i)]; auto; apply in_seq; lia. }
  assert (C1 : forall a, In a (seq 0 ncx) -> forall g, (exists b, fst (f1 a g) = Ok b /\ Pw a b /\ Q1 a) \/ (fst (f1 a g) = Throw InvalidArgument /\ ~ Q1 a)).
  { intros i Hi g'. apply in_seq in Hi. destruct (GET i) as (l & u & El & Eu & B & D1 & D2); [unfold ncx in Hi; lia|].
    unfold f1, rbind, rlift, vget. rewrite El, Eu. destruct (uniform_real_spec r RC l u false g' B) as [(v & E & W & K)|[E K]].
    - left. exists v. split; [exact E|]. split; [intros l' u' Hl Hu; congruence|intros l' u' Hl Hu; congruence].
    - right. split; [exact E|]. intros X. apply K. apply X; assumption. }
  set (P2 := fun i v => Pw i v /\ integral v).
  assert (C2 : forall a, In a (seq ncx (nx - ncx)) -> forall g, (exists b, fst (f2 a g) = Ok b /\ P2 a b /\ Q2 a) \/ (fst (f2 a g) = Throw InvalidArgument /\ ~ Q2 a)).
  { intros i Hi g'. apply in_seq in Hi. destruct (GET i) as (l & u & El & Eu & B & D1 & D2); [lia|].
    unfold f2, rbind, rlift, vget. rewrite El, Eu. destruct (INT i l u ltac:(unfold ncx in Hi; lia) El Eu) as [I1 I2].
    destruct (uniform_int_spec r RC l u false g' B D1 D2 I1 I2) as [(v & E & W & I & K)|[E K]].
    - left. exists v. split; [exact E|]. split; [split; [intros l' u' Hl Hu; congruence|exact I]|intros l' u' Hl Hu; congruence].
    - right. split; [exact E|]. intros X. apply K. apply X; assumption. }
  destruct (rmap_cases f1 Pw Q1 _ C1 g) as [(c & E & F & FQ)|[E N]]; destruct (rmap f1 (seq 0 ncx) g) as [o1 g1] eqn:RUN1; cbn [fst] in E; subst o1.
  2: { right. rewrite (rbind_throwE _ _ _ _ _ RUN1). split; [reflexivity|]. rewrite U. tauto. }
  rewrite (rbind_okE _ _ _ _ _ RUN1).
  destruct (rmap_cases f2 P2 Q2 _ C2 g1) as [(k & E & F2 & FQ2)|[E N]]; destruct (rmap f2 (seq ncx (nx - ncx)) g1) as [o2 g2] eqn:RUN2; cbn [fst] in E; subst o2.
  2: { right. rewrite (rbind_throwE _ _ _ _ _ RUN2). split; [reflexivity|]. rewrite U. tauto. }
  rewrite (rbind_okE _ _ _ _ _ RUN2). left. exists (c ++ k). split; [reflexivity|]. apply Forall2_nth in F. destruct F as [L1 N1]. apply Forall2_nth in F2. destruct F2 as [L2 N2].
  rewrite seq_length in L1, L2.
  assert (LX : length (c ++ k) = nx) by (rewrite app_length; unfold ncx in *; lia).
  split; [|split; [|rewrite U; auto]].
  - split; [exact LX|]. split; [rewrite LX; exact LEN|]. intros i l u v Hl Hu Hv.
    destruct (Nat.lt_ge_cases i ncx) as [H|H].
    + rewrite nth_error_app1 in Hv by lia. apply (N1 i i v); auto. rewrite nth_error_seq by lia. reflexivity.
    + assert (Hi : i < nx) by (rewrite <- LX; apply nth_error_Some; congruence). rewrite nth_error_app2 in Hv by lia.
      apply (N2 (i - length c) i v); auto. rewrite nth_error_seq by lia. f_equal. lia.
  - intros i v H Hv. assert (Hi : i < nx) by (rewrite <- LX; apply nth_error_Some; congruence). rewrite nth_error_app2 in Hv by lia.
    refine (proj2 (N2 (i - length c) i v _ Hv)). rewrite nth_error_seq by lia. f_equal. lia.
Qed.

(** The batch is the concatenation of successive calls. *)
Lemma rbind_lift {A B} (a : A) (f : A -> RM G B) g : rbind (rlift (Ok a)) f g = f a g.
Proof. reflexivity. Qed.
Lemma batch_spec p n g : bounded_problem p -> (Z.of_nat n * Z.of_nat (get_nx p) < 2 ^ 64)%Z ->
  (usable p -> batch_random_decision_vector r p n g =
     rbind (rmap (fun _ => random_decision_vector r p) (seq 0 n)) (fun vs => rret (concat vs)) g) /\
  (~ usable p -> batch_random_decision_vector r p n g = (Throw InvalidArgument, g)).
Proof.
  intros ((NE & LEN & BND & NIX & INT) & _) OV. unfold batch_random_decision_vector, random_decision_vector. cbv zeta.
  assert (NX : 0 < get_nx p) by (unfold get_nx; destruct (p_lb p); [contradiction|cbn; lia]).
  assert (O : (u64max / Z.of_nat (get_nx p) <? Z.of_nat n)%Z = false).
  { apply Z.ltb_ge. unfold u64max. apply Z.div_le_lower_bound; lia. }
  rewrite O. unfold get_nx in *. set (nx := length (p_lb p)) in *. set (ncx := nx - p_nix p).
  assert (GET : forall i, i < nx -> exists l u, nth_error (p_lb p) i = Some l /\ nth_error (p_ub p) i = Some u /\ dle l u = true).
  { intros i Hi. destruct (nth_error (p_lb p) i) as [l|] eqn:El; [|apply nth_error_None in El; unfold nx in Hi; lia].
    destruct (nth_error (p_ub p) i) as [u|] eqn:Eu; [|apply nth_error_None in Eu; unfold nx in Hi; lia]. exists l, u.
    split; [reflexivity|]. split; [reflexivity|]. apply (BND i l u El Eu). }
  set (Q1 := fun i => forall l u, nth_error (p_lb p) i = Some l -> nth_error (p_ub p) i = Some u -> ok_real l u).
  set (Q2 := fun i => forall l u, nth_error (p_lb p) i = Some l -> nth_error (p_ub p) i = Some u -> ok_int l u).
  assert (U : usable p <-> (forall i, In i (seq 0 ncx) -> Q1 i) /\ (forall i, In i (seq ncx (nx - ncx)) -> Q2 i)).
  { unfold usable, get_nx. fold nx ncx. split.
    - intros H. split; intros i Hi l u Hl Hu; apply in_seq in Hi; specialize (H i l u Hl Hu).
      + destruct (Nat.ltb_spec i ncx); [exact H|lia].
      + destruct (Nat.ltb_spec i ncx); [lia|exact H].
    - intros [H1 H2] i l u Hl Hu. assert (Hi : i < nx) by (unfold nx; apply nth_error_Some; congruence).
      destruct (Nat.ltb_spec i ncx); [apply (H1 i)|apply (H2 i)]; auto; apply in_seq; lia. }
  destruct (mfold_unit_spec (fun i => bind (vget (p_lb p) i) (fun lb => bind (vget (p_ub p) i) (fun ub => real_checks true false true lb ub))) Q1 (seq 0 ncx)) as [[R1 P1]|[R1 P1]].
  { intros i Hi. apply in_seq in Hi. destruct (GET i) as (l & u & El & Eu & B); [unfold ncx in Hi; lia|]. unfold vget. rewrite El, Eu. cbn [bind].
    destruct (real_checks_spec l u false B) as [[E K]|[E K]]; [left|right]; (split; [exact E|]).
    - intros l' u' Hl Hu. congruence.
    - intros X. apply K. apply X; assumption. }
  2: { split; [intros X; apply U in X; tauto|]. intros _. cbn [throw_if]. rewrite rbind_lift, R1. reflexivity. }
  destruct (mfold_unit_spec (fun i => bind (vget (p_lb p) i) (fun lb => bind (vget (p_ub p) i) (fun ub => bind (int_checks true false false lb ub) (fun _ =>
                 bind (to_long_long lb) (fun _ => bind (to_long_long ub) (fun _ => Ok tt)))))) Q2 (seq ncx (nx - ncx))) as [[R2 P2]|[R2 P2]].
  { intros i Hi. apply in_seq in Hi. destruct (GET i) as (l & u & El & Eu & B); [lia|]. unfold vget. rewrite El, Eu. cbn [bind].
    rewrite (int_checks_ff l u false B). destruct (INT i l u ltac:(unfold ncx in Hi; lia) El Eu) as [I1 I2].
    destruct (isfinite l) eqn:Fl; [|right; split; [reflexivity|intros X; destruct (X l u El Eu) as (X1 & _); apply fits_finite in X1; congruence]].
    destruct (isfinite u) eqn:Fu; [|right; split; [reflexivity|intros X; destruct (X l u El Eu) as (_ & X1); apply fits_finite in X1; congruence]]. cbn [andb bind].
    destruct (to_ll_spec l) as [(kl & E & -> & Bl)|[E N]]; [auto| |]; rewrite E; cbn [bind]; [|right; split; [reflexivity|intros X; destruct (X l u El Eu); contradiction]].
    destruct (to_ll_spec u) as [(ku & E' & -> & Bu)|[E' N]]; [auto| |]; rewrite E'; cbn [bind]; [|right; split; [reflexivity|intros X; destruct (X _ u El Eu); contradiction]].
    left. split; [reflexivity|]. intros l' u' Hl Hu. assert (l' = Fin (kl * one_z)) by congruence. assert (u' = Fin (ku * one_z)) by congruence. subst.
    split; [exists kl|exists ku]; auto. }
  2: { split; [intros X; apply U in X; tauto|]. intros _. cbn [throw_if]. rewrite rbind_lift, R1, rbind_lift, R2. reflexivity. }
  split; [|intros X; exfalso; apply X, U; auto]. intros _. cbn [throw_if]. rewrite rbind_lift, R1, rbind_lift, R2, rbind_lift.
  apply rbind_ext; [|reflexivity]. apply rmap_ext. intros _ _ g'. apply rbind_ext.
  { apply rmap_ext. intros i Hi g2. unfold uniform_real_impl, rbind, rlift, vget. destruct (GET i) as (l & u & El & Eu & B); [apply in_seq in Hi; unfold ncx in Hi; lia|].
    rewrite El, Eu. pose proof (P1 i Hi l u El Eu) as K. destruct (real_checks_spec l u false B) as [[E _]|[_ N]]; [rewrite E; reflexivity|contradiction]. }
  intros c g2 _. apply rbind_ext; [|reflexivity].
  apply rmap_ext. intros i Hi g3. unfold uniform_integral_impl, rbind, rlift, vget, raw_long_long. destruct (GET i) as (l & u & El & Eu & B); [apply in_seq in Hi; lia|].
  rewrite El, Eu. destruct (P2 i Hi l u El Eu) as [K1 K2]. rewrite (int_checks_ff l u false B), (fits_finite _ K1), (fits_finite _ K2). cbn [andb].
  destruct K1 as (kl & -> & Bl). destruct K2 as (ku & -> & Bu).
  assert (TL : forall k, (- 2 ^ 63 <= k < 2 ^ 63)%Z -> to_long_long (Fin (k * one_z)) = Ok k).
  { intros k Bk. unfold to_long_long, Z_of_d. rewrite Z.quot_mul by apply one_z_nz. destruct (Z.leb_spec (- 2 ^ 63) k); [|lia]. destruct (Z.ltb_spec k (2 ^ 63)); [reflexivity|lia]. }
  rewrite !TL by assumption. reflexivity.
Qed.

(** force_bounds_random *)
Lemma fbr_spec : forall x lb ub g, length x = length lb -> length x = length ub ->
  (forall i l u, nth_error lb i = Some l -> nth_error ub i = Some u -> dle l u = true) ->
  (exists y, fst (force_bounds_random r x lb ub g) = Ok y /\ length y = length x /\
     forall i l u v, nth_error lb i = Some l -> nth_error ub i = Some u -> nth_error x i = Some v ->
       exists w, nth_error y i = Some w /\ (v <> NaN -> within l u w) /\ (within l u v -> w = v) /\ (v = NaN -> w = NaN)) \/
  (fst (force_bounds_random r x lb ub g) = Throw InvalidArgument /\
     exists i l u v, nth_error lb i = Some l /\ nth_error ub i = Some u /\ nth_error x i = Some v /\ ~ within l u v /\ v <> NaN /\ ~ ok_real l u).
Proof.
  induction x as [|a x IH]; intros [|l lb] [|u ub] g L1 L2 B; try discriminate.
  - left. exists []. split; [reflexivity|]. split; [reflexivity|]. intros [|i]; discriminate.
  - cbn [force_bounds_random]. pose proof (B 0 l u eq_refl eq_refl) as H0. destruct (dle_not_nan _ _ H0) as [Nl Nu].
    assert (HEAD : (exists w g', (if dlt a l || dgt a u then uniform_real_from_range r l u else rret a) g = (Ok w, g') /\ (a <> NaN -> within l u w) /\ (within l u a -> w = a) /\ (a = NaN -> w = NaN)) \/
                   (exists g', (if dlt a l || dgt a u then uniform_real_from_range r l u else rret a) g = (Throw InvalidArgument, g') /\ ~ within l u a /\ a <> NaN /\ ~ ok_real l u)).
    { unfold dgt. destruct (dlt a l || dlt u a) eqn:E.
      - assert (NW : ~ within l u a). { intros [W1 W2]. apply dle_dlt_false in W1. apply dle_dlt_false in W2. rewrite W1, W2 in E. discriminate. }
        assert (NA : a <> NaN). { intros ->. destruct l, u; discriminate. }
        unfold uniform_real_from_range. destruct (uniform_real_spec r RC l u true g H0) as [(w & E2 & W & _)|[E2 N]];
          destruct (uniform_real_impl r true true true l u g) as [o g']; cbn [fst] in E2; subst o.
        + left. exists w, g'. split; [reflexivity|]. split; [auto|]. split; [contradiction|congruence].
        + right. exists g'. auto.
      - left. exists a, g. split; [reflexivity|]. apply orb_false_iff in E. destruct E as [E1 E2]. split; [intros N; split; now apply dlt_false_dle|]. auto. }
    destruct HEAD as [(w & g' & E & W1 & W2 & W3)|(g' & E & N1 & N2 & N3)].
    + rewrite (rbind_okE _ _ _ _ _ E). destruct (IH lb ub g') as [(y & E2 & LY & P)|[E2 (i & l' & u' & v & P)]]; try (cbn in *; lia).
      { intros i l' u' Hl Hu. apply (B (S i)); assumption. }
      * unfold rbind. destruct (force_bounds_random r x lb ub g') as [o g'']; cbn [fst] in E2; subst o. left. exists (w :: y). split; [reflexivity|]. split; [cbn; congruence|].
        intros [|i] l' u' v Hl Hu Hv; cbn in *; [|eauto]. inversion Hl; inversion Hu; inversion Hv; subst. eauto.
      * unfold rbind. destruct (force_bounds_random r x lb ub g') as [o g'']; cbn [fst] in E2; subst o. right. split; [reflexivity|]. exists (S i), l', u', v. exact P.
    + right. rewrite (rbind_throwE _ _ _ _ _ E). split; [reflexivity|]. exists 0, l, u, a. cbn. auto 10.
Qed.
End R.

(** ** kNN *)
Lemma knn_dist_eq : forall a b, length a = length b -> knn_dist (length a) a b = Ok (euclid a b).
Proof.
  intros a b L. unfold knn_dist, euclid.
  assert (K : forall n s0 d, n + s0 = length a ->
     mfold (fun s l => bind (vget a l) (fun x => bind (vget b l) (fun y => Ok (dadd s (dmul (dsub x y) (dsub x y)))))) d (seq s0 n) =
     Ok (fold_left (fun s q => dadd s (dmul (dsub (fst q) (snd q)) (dsub (fst q) (snd q)))) (skipn s0 (combine a b)) d)).
  { induction n as [|n IH]; intros s0 d H.
    - cbn [seq mfold]. rewrite skipn_all2 by (rewrite combine_length; lia). reflexivity.
    - cbn [seq mfold]. rewrite (vget_nth a s0 NaN), (vget_nth b s0 NaN) by lia. cbn [bind]. rewrite IH by lia. f_equal.
      assert (E : skipn s0 (combine a b) = (nth s0 a NaN, nth s0 b NaN) :: skipn (S s0) (combine a b)).
      { rewrite <- (combine_nth a b s0 NaN NaN L). assert (HL : s0 < length (combine a b)) by (rewrite combine_length; lia).
        revert HL. generalize (combine a b). clear. intros l. revert s0. induction l as [|x l IH]; intros [|s0] H; cbn in *; try lia; [reflexivity|]. apply IH. lia. }
      rewrite E. reflexivity. }
  rewrite K by lia. cbn [bind]. rewrite skipn_O. reflexivity.
Qed.

Lemma filter_perm {A} (f : A -> bool) l l' : Permutation l l' -> Permutation (filter f l) (filter f l').
Proof.
  induction 1 as [|x l l' P IH|x y l|l1 l2 l3 P1 IH1 P2 IH2]; cbn; auto.
  - destruct (f x); auto.
  - destruct (f x), (f y); auto. apply perm_swap.
  - eapply Permutation_trans; eauto.
Qed.
Lemma sorted_filter {A} (cmp : A -> A -> bool) f l : sorted_by cmp l -> sorted_by cmp (filter f l).
Proof.
  unfold sorted_by. induction 1 as [|a l S IH F]; cbn; [constructor|]. destruct (f a); [|exact IH]. constructor; [exact IH|].
  rewrite Forall_forall in *. intros x Hx. apply filter_In in Hx. apply F, Hx.
Qed.
Lemma filter_seq_len n i : i < n -> length (filter (fun j => negb (Nat.eqb j i)) (iota n)) = n - 1.
Proof.
  intros Hi. unfold iota. replace n with (i + (1 + (n - i - 1))) at 1 by lia. rewrite seq_app, filter_app, seq_app, filter_app, !app_length. cbn [seq filter Nat.add].
  rewrite Nat.eqb_refl. cbn [negb length].
  assert (K : forall s m, (forall j, s <= j < s + m -> j <> i) -> filter (fun j => negb (Nat.eqb j i)) (seq s m) = seq s m).
  { intros s m. revert s. induction m as [|m IH]; intros s H; [reflexivity|]. cbn [seq filter]. destruct (Nat.eqb_spec s i) as [E|E]; [exfalso; apply (H s); lia|].
    cbn [negb]. rewrite IH; [reflexivity|]. intros j Hj. apply H. lia. }
  rewrite !K by (intros; lia). rewrite !seq_length. lia.
Qed.

Lemma knn_point_spec srt points M i : sort_contract srt -> (forall q, In q points -> length q = M) -> i < length points ->
  exists l, knn_point srt points M i = Ok l /\ nearest points i (length points - 1) l.
Proof.
  intros SC D Hi. unfold knn_point. rewrite (vget_nth points i []) by exact Hi. cbn [bind].
  assert (Dm : length (nth i points []) = M) by (apply D, nth_In, Hi).
  rewrite (mmap_pure _ (fun q => euclid (nth i points []) q)).
  2: { intros q Hq. rewrite <- Dm. apply knn_dist_eq. rewrite Dm. symmetry. apply D, Hq. }
  cbn [bind]. set (ds := map (fun q => euclid (nth i points []) q) points).
  destruct (std_sort_ok srt (fun a b => less_than_f (nth a ds NaN) (nth b ds NaN)) (iota (length points)) SC (ltf_key_swo (fun a => nth a ds NaN) _)) as (idxs & E & P & S).
  rewrite E. cbn [bind]. eexists. split; [reflexivity|].
  assert (DS : forall j, j < length points -> nth j ds NaN = euclid (nth i points []) (nth j points [])).
  { intros j Hj. unfold ds. rewrite (nth_indep _ NaN (euclid (nth i points []) [])) by (rewrite map_length; exact Hj). apply map_nth. }
  set (l := filter (fun j => negb (Nat.eqb j i)) idxs).
  assert (PL : Permutation (filter (fun j => negb (Nat.eqb j i)) (iota (length points))) l) by (apply filter_perm, P).
  assert (INL : forall j, In j l <-> j < length points /\ j <> i).
  { intros j. unfold l. rewrite filter_In, negb_true_iff, Nat.eqb_neq, (Permutation_iota_in _ _ j P). reflexivity. }
  split; [rewrite <- (Permutation_length PL); apply filter_seq_len, Hi|]. split; [eapply Permutation_NoDup; [exact PL|]; apply NoDup_filter, iota_NoDup|].
  split; [intros j Hj; apply INL, Hj|]. split.
  - intros s t a b Hst Ha Hb. pose proof (sorted_by_nth _ l s t a b (sorted_filter _ _ _ S) Hst Ha Hb) as C. cbn beta in C.
    apply nth_error_In, INL in Ha. apply nth_error_In, INL in Hb. rewrite !DS in C by tauto. apply ltf_false in C. exact C.
  - intros a j Ha Hj Hji N. exfalso. apply N, INL. auto.
Qed.
Lemma in_firstn {A} (x : A) n l : In x (firstn n l) -> In x l.
Proof. intros H. rewrite <- (firstn_skipn n l). apply in_or_app. left. exact H. Qed.
Lemma nearest_firstn points i m k l : k <= m -> nearest points i m l -> nearest points i k (firstn k l).
Proof.
  intros Hk (L & ND & IN & SO & OM). split; [rewrite firstn_length; lia|]. split; [rewrite <- (firstn_skipn k l) in ND; eapply NoDup_app_l; exact ND|].
  split; [intros j Hj; apply IN; eapply in_firstn; exact Hj|]. split.
  - intros s t a b Hst Ha Hb. apply (SO s t); auto.
    + revert Ha. clear. revert s k. induction l as [|x l IH]; intros [|s] [|k]; cbn; try discriminate; auto. apply IH.
    + revert Hb. clear. revert t k. induction l as [|x l IH]; intros [|s] [|k]; cbn; try discriminate; auto. apply IH.
  - intros a j Ha Hj Hji N. destruct (in_dec Nat.eq_dec j l) as [J|J].
    + rewrite <- (firstn_skipn k l) in J. apply in_app_or in J. destruct J as [J|J]; [contradiction|].
      apply In_nth_error in J. destruct J as (t & Ht). apply In_nth_error in Ha. destruct Ha as (s & Hs).
      assert (Sk : s < k). { assert (s < length (firstn k l)) by (apply nth_error_Some; congruence). rewrite firstn_length in H. lia. }
      rewrite nth_error_skipn' in Ht. apply (SO s (k + t)); [lia| |exact Ht].
      rewrite <- (firstn_skipn k l). rewrite nth_error_app1; [exact Hs|apply nth_error_Some; congruence].
    + apply OM; auto. eapply in_firstn; exact Ha.
Qed.
Lemma knn_spec srt points k : sort_contract srt ->
  (forall q q', In q points -> In q' points -> length q = length q') ->
  exists r, kNN srt points k = Ok r /\ length r = length points /\
    forall i l, nth_error r i = Some l -> nearest points i (Nat.min k (length points - 1)) l.
Proof.
  intros SC D. unfold kNN. destruct points as [|p0 pts]; [exists []; split; [reflexivity|]; split; [reflexivity|]; intros [|i]; discriminate|].
  set (points := p0 :: pts) in *. cbv zeta.
  assert (F : forallb (fun p => Nat.eqb (length p) (length p0)) points = true).
  { apply forallb_forall. intros q Hq. apply Nat.eqb_eq. apply D; [exact Hq|left; reflexivity]. }
  rewrite F. cbn [negb].
  assert (EX : exists r, mmap (knn_point srt points (length p0)) (seq 0 (length points)) = Ok r /\ Forall2 (fun i l => nearest points i (length points - 1) l) (seq 0 (length points)) r).
  { assert (B : forall i, In i (seq 0 (length points)) -> i < length points) by (intros i Hi; apply in_seq in Hi; lia). revert B. generalize (seq 0 (length points)).
    induction l as [|i l IH]; intros B; [exists []; split; [reflexivity|constructor]|]. destruct IH as (r & E & R); [intros; apply B; right; assumption|].
    destruct (knn_point_spec srt points (length p0) i SC) as (x & Ex & Nx); [intros q Hq; apply D; [exact Hq|left; reflexivity]|apply B; left; reflexivity|].
    cbn [mmap]. rewrite Ex. cbn [bind]. rewrite E. cbn [bind]. exists (x :: r). split; [reflexivity|]. constructor; assumption. }
  destruct EX as (r & E & R). rewrite E. cbn [bind]. apply Forall2_nth in R. destruct R as [LR NR]. rewrite seq_length in LR.
  assert (NR' : forall i l, nth_error r i = Some l -> nearest points i (length points - 1) l).
  { intros i l Hl. apply (NR i i l); [|exact Hl]. apply nth_error_seq. rewrite LR. apply nth_error_Some. congruence. }
  destruct (Nat.ltb_spec k (length points - 1)) as [H|H].
  - eexists. split; [reflexivity|]. split; [rewrite map_length; lia|]. intros i l Hl. rewrite nth_error_map in Hl. destruct (nth_error r i) as [l0|] eqn:E0; [|discriminate].
    inversion Hl; subst l. rewrite Nat.min_l by lia. eapply nearest_firstn; [|apply NR'; exact E0]. lia.
  - eexists. split; [reflexivity|]. split; [lia|]. intros i l Hl. rewrite Nat.min_r by lia. apply NR', Hl.
Qed.
Lemma knn_rejects srt points k q q' : In q points -> In q' points -> length q <> length q' -> kNN srt points k = Throw InvalidArgument.
Proof.
  intros Hq Hq' N. unfold kNN. destruct points as [|p0 pts]; [destruct Hq|]. set (points := p0 :: pts) in *. cbv zeta.
  destruct (forallb (fun p => Nat.eqb (length p) (length p0)) points) eqn:F; [|reflexivity]. exfalso. apply N.
  rewrite forallb_forall in F. pose proof (F q Hq) as A. pose proof (F q' Hq') as B. apply Nat.eqb_eq in A. apply Nat.eqb_eq in B. congruence.
Qed.

(** ** Problems accepted by the constructor *)
Lemma built_bounded u p : construct u = Ok p -> Forall is_double (u_lb u) -> Forall is_double (u_ub u) -> bounded_problem p.
Proof.
  intros E Dl Du. destruct (construct_iff u) as (C & _ & B). assert (GU : good_udp u) by (apply C; eauto). specialize (B p E).
  destruct B as (_ & El & Eu & _ & _ & _ & En & _). unfold bounded_problem. rewrite El, Eu, En. split; [apply GU|auto].
Qed.
Lemma rdv_built G (r : rng G) u p g : rng_contract r -> construct u = Ok p -> Forall is_double (u_lb u) -> Forall is_double (u_ub u) ->
  (usable p -> exists x, fst (random_decision_vector r p g) = Ok x /\ in_box (u_lb u) (u_ub u) x /\
     (forall i v, get_nx p - u_nix u <= i -> nth_error x i = Some v -> integral v)) /\
  (~ usable p -> fst (random_decision_vector r p g) = Throw InvalidArgument).
Proof.
  intros RC E Dl Du. destruct (construct_iff u) as (_ & _ & B). pose proof (B p E) as (_ & El & Eu & _ & _ & _ & En & _). 
  destruct (rdv_spec r RC p g (built_bounded u p E Dl Du)) as [(x & X & IB & IN & US)|[X N]]; rewrite ?El, ?Eu, ?En in *.
  - split; [intros _; exists x; auto|contradiction].
  - split; [contradiction|auto].
Qed.
Lemma batch_built G (r : rng G) u p n g : rng_contract r -> construct u = Ok p -> Forall is_double (u_lb u) -> Forall is_double (u_ub u) ->
  (Z.of_nat n * Z.of_nat (get_nx p) < 2 ^ 64)%Z ->
  (usable p -> batch_random_decision_vector r p n g =
     match rmap (fun _ => random_decision_vector r p) (seq 0 n) g with
     | (Ok vs, g') => (Ok (concat vs), g') | (Throw e, g') => (Throw e, g') | (UB, g') => (UB, g') | (NoFuel, g') => (NoFuel, g') end) /\
  (~ usable p -> batch_random_decision_vector r p n g = (Throw InvalidArgument, g)).
Proof. intros RC E Dl Du O. exact (batch_spec r p n g (built_bounded u p E Dl Du) O). Qed.

Lemma stick_all x lb ub : length x = length lb -> length x = length ub ->
  (forall i l u, nth_error lb i = Some l -> nth_error ub i = Some u -> dle l u = true) ->
  exists y, force_bounds_stick x lb ub = Ok y /\ length y = length x /\
   ((forall v, In v x -> v <> NaN) -> in_box lb ub y) /\
   (forall i l u v, nth_error lb i = Some l -> nth_error ub i = Some u -> nth_error x i = Some v ->
      nth_error y i = Some (if dlt v l then l else if dlt u v then u else v)) /\
   force_bounds_stick y lb ub = Ok y.
Proof.
  intros L1 L2 B. destruct (stick_spec x lb ub L1 L2) as (y & E & L & P). exists y. split; [exact E|]. split; [exact L|].
  assert (V : forall i l u v, nth_error lb i = Some l -> nth_error ub i = Some u -> nth_error x i = Some v ->
      nth_error y i = Some (if dlt v l then l else if dlt u v then u else v)).
  { intros i l u v Hl Hu Hv. destruct (P i l u v Hl Hu Hv (B i l u Hl Hu)) as (w & Hw & W1 & W2 & W3 & W4 & W5). rewrite Hw. f_equal.
    destruct (dlt v l) eqn:E1; [auto|]. destruct (dlt u v) eqn:E2; [auto|]. destruct v; auto; apply W2; split; apply dlt_false_dle; auto; try congruence;
      destruct (dle_not_nan _ _ (B i l u Hl Hu)); assumption. }
  split; [intros N; eapply stick_in_box; eauto|]. split; [exact V|].
  destruct (stick_spec y lb ub) as (z & Ez & Lz & Pz); [congruence|congruence|]. rewrite Ez. f_equal. apply list_ext_error. intros i.
  destruct (nth_error y i) as [w|] eqn:Ew; [|apply nth_error_None in Ew; apply nth_error_None; lia].
  assert (Hi : i < length x) by (rewrite <- L; apply nth_error_Some; congruence).
  destruct (nth_error lb i) as [l|] eqn:El; [|apply nth_error_None in El; lia]. destruct (nth_error ub i) as [u|] eqn:Eu; [|apply nth_error_None in Eu; lia].
  destruct (nth_error x i) as [v|] eqn:Ev; [|apply nth_error_None in Ev; lia].
  destruct (Pz i l u w El Eu Ew (B i l u El Eu)) as (w' & Hw' & W1 & W2 & W3 & _). rewrite Hw'. f_equal.
  destruct (P i l u v El Eu Ev (B i l u El Eu)) as (w2 & Hw2 & V1 & V2 & V3 & _). assert (w2 = w) by congruence. subst w2.
  assert (NV : {v = NaN} + {v <> NaN}) by (destruct v; (left; reflexivity) || (right; discriminate)). destruct NV as [NV|NV].
  - rewrite (V3 NV). apply W3. auto.
  - apply W2, V1, NV.
Qed.

(** The concrete generator meets the contract. *)
Lemma stream_contract : rng_contract stream_rng.
Proof.
  split.
  - intros a b g Fa Fb H. destruct a as [| |x|]; try discriminate. destruct b as [| |y|]; try discriminate.
    assert (W : dle (Fin x) (Fin y) = true) by (apply dlt_dle; exact H). assert (Wx : dle (Fin x) (Fin x) = true) by (apply dle_refl; discriminate). assert (Wy : dle (Fin y) (Fin y) = true) by (apply dle_refl; discriminate).
    destruct g as [|k t]; cbn [fst g_real stream_rng]; [|destruct (Z.even k)]; split; assumption.
  - assert (D0 : is_double (Fin 0)) by (exists 0%Z, 0%Z; repeat split; lia).
    intros a b g Da Db. destruct g as [|k t]; cbn.
    + destruct a; [exact D0|exact D0|exact Da|exact D0].
    + destruct a; try exact D0. destruct b; try exact D0. destruct (Z.even k); assumption.
  - intros a b g H. destruct g as [|k t]; cbn; unfold clamp_to; lia.
Qed.
