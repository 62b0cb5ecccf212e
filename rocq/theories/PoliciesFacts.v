(** Facts about the replacement and selection policies. *)
From Coq Require Import List Bool Arith ZArith Lia Permutation Sorting.Sorted.
From Verif Require Import Dbl Outcome StdSort BaseFacts Compare CompareFacts SpecOrder MultiObj SpecMultiObj CrowdFacts MultiObjFacts MultiObjFacts2 MultiObjFacts3 DblFacts IntDbl
  Constrained SpecConstrained ConstrainedFacts ConstrainedFacts2 Problem GenericFacts Policies SpecPolicies.
Import ListNotations.

(** ** The number of migrants *)
Lemma migr_count_ok rate n : rate_ok rate n -> exists k, migr_count rate n = Ok k /\ rate_means rate n k /\ k <= n.
Proof.
  destruct rate as [c|x]; cbn [rate_ok].
  - intros H. exists c. unfold migr_count. rewrite (proj2 (Nat.ltb_ge n c)) by lia. cbn. auto.
  - intros (L & U & N). unfold migr_count, rate_means.
    destruct x as [| |z|]; try discriminate.
    rewrite d_of_Z_int by lia. unfold dint.
    apply (proj1 (dle_fin _ _)) in L. unfold done in U. apply (proj1 (dle_fin _ _)) in U.
    pose proof one_z_pos as OZ.
    cbn [dmul].
    pose proof (rnd_mono 0 (z * (Z.of_nat n * one_z)) one_z OZ ltac:(nia)) as A.
    rewrite rnd_zero in A by lia.
    pose proof (rnd_mono (z * (Z.of_nat n * one_z)) (Z.of_nat n * one_z * one_z) one_z OZ ltac:(nia)) as B.
    rewrite (rnd_int (Z.of_nat n) one_z) in B by lia.
    destruct (rnd (z * (Z.of_nat n * one_z)) one_z) as [| |w|] eqn:E; try discriminate.
    apply dle_fin in A. unfold dint in B. apply dle_fin in B.
    assert (Q : (0 <= w / one_z <= Z.of_nat n)%Z).
    { split; [apply Z.div_pos; lia|]. apply Z.div_le_upper_bound; lia. }
    assert (K : Z.to_nat (w / one_z) <= n) by lia.
    exists (Z.to_nat (w / one_z)). split; [|split; [|exact K]].
    + cbn [size_of_double bind].
      replace (w <=? - one_z)%Z with false by (symmetry; apply Z.leb_gt; lia).
      replace (2 ^ 64 * one_z <=? w)%Z with false.
      2:{ symmetry. apply Z.leb_gt. assert (Z.of_nat n < 2 ^ 64)%Z by (eapply Z.lt_trans; [exact N|reflexivity]). nia. }
      cbn [orb bind]. rewrite Z.quot_div_nonneg by lia. f_equal. apply Nat.min_l. exact K.
    + exists w. auto.
Qed.

Lemma migr_count_abs c n : n < c -> migr_count (Absolute c) n = Throw InvalidArgument.
Proof. intros H. unfold migr_count. rewrite (proj2 (Nat.ltb_lt n c)) by lia. reflexivity. Qed.

(** ** Picking *)
Lemma mmap_ok_map {A B} (f : A -> outcome B) (g : A -> B) l : (forall a, In a l -> f a = Ok (g a)) -> mmap f l = Ok (map g l).
Proof.
  induction l as [|a l IH]; intros H; cbn; [reflexivity|].
  rewrite (H a) by (left; auto). cbn. rewrite IH by (intros; apply H; right; auto). reflexivity.
Qed.

Lemma map_nth_seq_firstn {A} (l : list A) n d : n <= length l -> map (fun i => nth i l d) (seq 0 n) = firstn n l.
Proof.
  revert n. induction l as [|a l IH]; intros [|n] H; cbn in *; try reflexivity; try lia.
  rewrite <- seq_shift, map_map. cbn. f_equal. apply IH. lia.
Qed.

Lemma pick_ok {A} (l : list A) idx n d : n <= length idx -> (forall i, In i (firstn n idx) -> i < length l) ->
  pick l idx n = Ok (map (fun k => nth k l d) (firstn n idx)).
Proof.
  intros L H. unfold pick.
  rewrite (mmap_ok_map _ (fun i => nth (nth i idx 0) l d)).
  - f_equal. rewrite <- (map_nth_seq_firstn idx n 0 L), map_map. reflexivity.
  - intros i Hi. apply in_seq in Hi. unfold vget.
    rewrite (nth_error_nth' idx 0) by lia. cbn.
    assert (K : nth i idx 0 < length l).
    { apply H. rewrite <- (map_nth_seq_firstn idx n 0 L). apply in_map_iff. exists i. split; auto. apply in_seq; lia. }
    rewrite (nth_error_nth' l d) by exact K. reflexivity.
Qed.

Lemma zip3_length {A B C} (a : list A) (b : list B) (c : list C) :
  length b = length a -> length c = length a -> length (zip3 a b c) = length a.
Proof.
  revert b c. induction a as [|x a IH]; intros [|y b] [|z c] H1 H2; cbn in *; try lia. rewrite IH; lia.
Qed.
Lemma zip3_map {A B C} (f : nat -> A) (g : nat -> B) (h : nat -> C) l :
  zip3 (map f l) (map g l) (map h l) = map (fun k => (f k, g k, h k)) l.
Proof. induction l as [|k l IH]; cbn; congruence. Qed.
Lemma zip3_nth {A B C} (a : list A) (b : list B) (c : list C) k da db dc :
  length b = length a -> length c = length a -> k < length a ->
  nth k (zip3 a b c) (da, db, dc) = (nth k a da, nth k b db, nth k c dc).
Proof.
  revert b c k. induction a as [|x a IH]; intros [|y b] [|z c] [|k] H1 H2 H3; cbn in *; try lia; auto. apply IH; lia.
Qed.
Lemma zip3_app {A B C} (a a' : list A) (b b' : list B) (c c' : list C) :
  length b = length a -> length c = length a ->
  zip3 (a ++ a') (b ++ b') (c ++ c') = zip3 a b c ++ zip3 a' b' c'.
Proof.
  revert b c. induction a as [|x a IH]; intros [|y b] [|z c] H1 H2; cbn in *; try lia; auto. rewrite IH by lia. reflexivity.
Qed.

Definition dind : indiv := (0%Z, [], []).

Lemma members_length g : aligned g -> length (members g) = length (g_id g).
Proof. intros [A B]. apply zip3_length; auto. Qed.
Lemma members_nth g k : aligned g -> k < length (g_id g) -> nth k (members g) dind = (nth k (g_id g) 0%Z, nth k (g_x g) [], nth k (g_f g) []).
Proof. intros [A B] H. apply zip3_nth; auto. Qed.
Lemma members_fit g k : aligned g -> k < length (g_id g) -> fit (nth k (members g) dind) = nth k (g_f g) [].
Proof. intros A H. rewrite members_nth by auto. reflexivity. Qed.
Lemma members_app a b : aligned a -> members (app_group a b) = members a ++ members b.
Proof. intros [A B]. apply zip3_app; auto. Qed.
Lemma members_in_f g a : In a (members g) -> In (fit a) (g_f g).
Proof.
  unfold members, fit. destruct g as [ids xs fs]; cbn. revert xs fs. induction ids as [|i ids IH]; intros [|x xs] [|f fs]; cbn; try tauto.
  intros [<-|H]; auto. right. eapply IH; eauto.
Qed.

Lemma pick_group_ok g idx n : aligned g -> n <= length idx -> (forall i, In i (firstn n idx) -> i < length (g_id g)) ->
  exists out, pick_group g idx n = Ok out /\ aligned out /\ length (g_id out) = n /\
    members out = map (fun k => nth k (members g) dind) (firstn n idx) /\ g_f out = map (fun k => nth k (g_f g) []) (firstn n idx).
Proof.
  intros A L H. pose proof A as [AX AF]. unfold pick_group.
  rewrite (pick_ok (g_id g) idx n 0%Z) by auto. cbn [bind].
  rewrite (pick_ok (g_x g) idx n []) by (auto; rewrite AX; auto). cbn [bind].
  rewrite (pick_ok (g_f g) idx n []) by (auto; rewrite AF; auto). cbn [bind].
  eexists. split; [reflexivity|].
  assert (FL : length (firstn n idx) = n) by (apply firstn_length_le; auto).
  split; [split; cbn; now rewrite !map_length|]. split; [cbn; rewrite map_length; auto|].
  split; [|reflexivity].
  unfold members at 1. cbn [g_id g_x g_f]. rewrite zip3_map. apply map_ext_in.
  intros k Hk. symmetry. apply members_nth; auto.
Qed.

(** ** Rankings *)
Definition ranks (beats : list dbl -> list dbl -> Prop) (fs : list (list dbl)) (n : nat) (idx : list nat) : Prop :=
  n <= length idx /\ NoDup (firstn n idx) /\ (forall i, In i (firstn n idx) -> i < length fs) /\
  (forall i j, In i (firstn n idx) -> j < length fs -> ~ In j (firstn n idx) -> ~ beats (nth j fs []) (nth i fs [])).
Definition orders (beats : list dbl -> list dbl -> Prop) (fs : list (list dbl)) (n : nat) (idx : list nat) : Prop :=
  forall p q a b, p < q -> nth_error (firstn n idx) p = Some a -> nth_error (firstn n idx) q = Some b ->
    ~ beats (nth b fs []) (nth a fs []).

Lemma complement_perm (idx : list nat) n : NoDup idx -> (forall i, In i idx -> i < n) ->
  exists rest, Permutation (seq 0 n) (idx ++ rest) /\ (forall j, In j rest -> j < n /\ ~ In j idx).
Proof.
  intros ND H. exists (filter (fun j => negb (existsb (Nat.eqb j) idx)) (seq 0 n)). split.
  - apply NoDup_Permutation.
    + apply seq_NoDup.
    + apply NoDup_app_intro; auto; [apply NoDup_filter, seq_NoDup|].
      intros j Hj K. apply filter_In in K. destruct K as [_ K]. apply negb_true_iff in K.
      assert (existsb (Nat.eqb j) idx = true) by (apply existsb_exists; exists j; split; auto; apply Nat.eqb_refl). congruence.
    + intros j. rewrite in_app_iff, filter_In, in_seq. split.
      * intros K. destruct (existsb (Nat.eqb j) idx) eqn:E; [left|right; auto].
        apply existsb_exists in E. destruct E as (y & Hy & E). apply Nat.eqb_eq in E. now subst.
      * intros [K|[K _]]; [|lia]. apply H in K. lia.
  - intros j K. apply filter_In in K. destruct K as [K1 K2]. apply in_seq in K1. split; [lia|].
    intros Hj. apply negb_true_iff in K2.
    assert (existsb (Nat.eqb j) idx = true) by (apply existsb_exists; exists j; split; auto; apply Nat.eqb_refl). congruence.
Qed.

Lemma map_nth_seq_all {A} (l : list A) d : map (fun i => nth i l d) (seq 0 (length l)) = l.
Proof. rewrite map_nth_seq_firstn by lia. apply firstn_all. Qed.

Lemma ranks_best beats g n idx : aligned g -> ranks beats (g_f g) n idx ->
  exists out, pick_group g idx n = Ok out /\ aligned out /\ length (g_id out) = n /\ best_of beats (members g) n (members out) /\
    incl (g_f out) (g_f g) /\ (orders beats (g_f g) n idx -> ranked beats (members out)).
Proof.
  intros A (L & ND & R & B). pose proof A as [AX AF].
  assert (R' : forall i, In i (firstn n idx) -> i < length (g_id g)) by (intros; rewrite <- AF; auto).
  destruct (pick_group_ok g idx n A L R') as (out & E & AO & LO & M & F).
  exists out. split; [exact E|]. split; [exact AO|]. split; [exact LO|].
  split; [|split].
  - split; [rewrite members_length by auto; exact LO|].
    destruct (complement_perm (firstn n idx) (length (members g)) ND) as (rest & P & C).
    { rewrite members_length by auto. exact R'. }
    exists (map (fun k => nth k (members g) dind) rest). split.
    + rewrite M, <- map_app. rewrite <- (map_nth_seq_all (members g) dind) at 1. apply Permutation_map, P.
    + intros a b Ha Hb. rewrite M in Ha. apply in_map_iff in Ha. destruct Ha as (i & <- & Hi).
      apply in_map_iff in Hb. destruct Hb as (j & <- & Hj). apply C in Hj. destruct Hj as [Hj1 Hj2].
      rewrite members_length in Hj1 by auto.
      rewrite !members_fit by auto. apply B; auto. rewrite AF. exact Hj1.
  - intros f Hf. rewrite F in Hf. apply in_map_iff in Hf. destruct Hf as (k & <- & Hk). apply nth_In. rewrite AF. auto.
  - intros O p q a b Hpq Ha Hb. rewrite M in Ha, Hb. rewrite nth_error_map in Ha, Hb.
    destruct (nth_error (firstn n idx) p) as [i|] eqn:Hi; [|discriminate]. cbn in Ha. injection Ha as <-.
    destruct (nth_error (firstn n idx) q) as [j|] eqn:Hj; [|discriminate]. cbn in Hb. injection Hb as <-.
    rewrite !members_fit by (auto; apply R'; eapply nth_error_In; eauto). eapply O; eauto.
Qed.

(** Sorted index lists rank. *)
Lemma in_firstn_nth {A} (l : list A) n x : In x (firstn n l) -> exists p, p < n /\ nth_error l p = Some x.
Proof.
  intros H. apply In_nth_error in H. destruct H as (p & H). exists p.
  assert (p < length (firstn n l)) by (apply nth_error_Some; congruence). rewrite firstn_length in H0.
  split; [lia|]. rewrite nth_error_firstn in H by lia. exact H.
Qed.
Lemma nth_firstn_in {A} (l : list A) n p x : p < n -> nth_error l p = Some x -> In x (firstn n l).
Proof. intros Hp H. apply nth_error_In with p. rewrite nth_error_firstn by lia. exact H. Qed.
Lemma nth_error_firstn_some {A} (l : list A) n p x : nth_error (firstn n l) p = Some x -> nth_error l p = Some x.
Proof.
  intros H. assert (p < length (firstn n l)) by (apply nth_error_Some; congruence). rewrite firstn_length in H0.
  rewrite nth_error_firstn in H by lia. exact H.
Qed.
Lemma NoDup_firstn {A} (l : list A) n : NoDup l -> NoDup (firstn n l).
Proof. rewrite <- (firstn_skipn n l) at 1. intro H. apply NoDup_app_l in H. exact H. Qed.

Lemma sorted_ranks (beats : list dbl -> list dbl -> Prop) fs n idx :
  Permutation (iota (length fs)) idx -> n <= length fs ->
  (forall p q a b, p < q -> nth_error idx p = Some a -> nth_error idx q = Some b -> ~ beats (nth b fs []) (nth a fs [])) ->
  ranks beats fs n idx /\ orders beats fs n idx.
Proof.
  intros P L S. assert (LI : length idx = length fs) by (rewrite <- (Permutation_length P); apply seq_length).
  assert (IN : forall i, In i idx <-> i < length fs).
  { intros i. split; intros H.
    - apply (Permutation_in _ (Permutation_sym P)) in H. apply in_seq in H. lia.
    - apply (Permutation_in _ P). apply in_seq. lia. }
  split; [split; [lia|split; [|split]]|].
  - apply NoDup_firstn. eapply Permutation_NoDup; [exact P|apply seq_NoDup].
  - intros i H. apply IN. destruct (in_firstn_nth _ _ _ H) as (p & _ & E). eapply nth_error_In; eauto.
  - intros i j Hi Hj Nj. destruct (in_firstn_nth _ _ _ Hi) as (p & Hp & Ep).
    apply IN in Hj. apply In_nth_error in Hj. destruct Hj as (q & Eq).
    refine (S p q i j _ Ep Eq). destruct (le_lt_dec n q); [lia|]. exfalso. apply Nj. eapply nth_firstn_in; eauto.
  - intros p q a b Hpq Ha Hb. eapply S; [exact Hpq|eapply nth_error_firstn_some; eauto|eapply nth_error_firstn_some; eauto].
Qed.

(** The three rankings of [rank_group]. *)
Section Rank.
Context (srt : sorter) (SC : sort_contract srt).

Lemma rank_objective tol fs n : (forall f, In f fs -> length f = 1) -> n <= length fs ->
  exists idx, rank_group srt 1 0 0 tol fs (length fs) n = Ok idx /\ ranks beats_objective fs n idx /\ orders beats_objective fs n idx.
Proof.
  intros H L. unfold rank_group. cbn [Z.eqb andb]. unfold sort_first.
  rewrite Nat.leb_refl. cbn [andb].
  assert (F : forallb (fun f => Nat.ltb 0 (length f)) fs = true).
  { apply forallb_forall. intros f Hf. rewrite (H f Hf). reflexivity. }
  rewrite F.
  destruct (std_sort_ok srt (fun i j => less_than_f (nth 0 (nth i fs []) NaN) (nth 0 (nth j fs []) NaN)) (iota (length fs)) SC
     (ltf_key_swo (fun i => nth 0 (nth i fs []) NaN) _)) as (idx & E & P & S).
  rewrite E. exists idx. split; [reflexivity|]. apply sorted_ranks; auto.
  intros p q a b Hpq Ha Hb. unfold beats_objective. apply ltf_false.
  clear - S Hpq Ha Hb. unfold sorted_by in S. revert p q Hpq Ha Hb. induction S as [|x l S IH FA]; intros p q Hpq Ha Hb; [destruct p; discriminate|].
  destruct q as [|q]; [lia|]. destruct p as [|p].
  - cbn in Ha, Hb. injection Ha as <-. rewrite Forall_forall in FA. apply FA. eapply nth_error_In; eauto.
  - cbn in Ha, Hb. eapply IH; [|exact Ha|exact Hb]. lia.
Qed.

Lemma rank_constrained nec nic tol fs n : (0 < nec \/ 0 < nic)%Z -> (0 <= nec)%Z -> (0 <= nic)%Z -> 
  (forall f, In f fs -> fc_args_ok (Z.to_nat nec) tol f) -> strict_weak_on (fc_lt (Z.to_nat nec) tol) fs -> n <= length fs ->
  exists idx, rank_group srt 1 nec nic tol fs (length fs) n = Ok idx /\
    ranks (beats_constrained nec tol) fs n idx /\ orders (beats_constrained nec tol) fs n idx.
Proof.
  intros C N1 N2 A W L. unfold rank_group. cbn [Z.eqb andb]. change (1 =? 1)%Z with true. cbn [andb].
  assert (Z : ((nic =? 0)%Z && (nec =? 0)%Z) = false).
  { destruct (Z.eqb_spec nic 0), (Z.eqb_spec nec 0); auto. lia. }
  rewrite Z.
  destruct (sort_con_ok srt fs (Z.to_nat nec) tol SC A W) as (idx & E & P & S). rewrite E. exists idx. split; [reflexivity|].
  apply sorted_ranks; auto. intros p q a b Hpq Ha Hb. unfold beats_constrained. rewrite (S p q a b Hpq Ha Hb). discriminate.
Qed.

Lemma rank_pareto nobj tol fs n M : (1 < nobj)%Z -> 2 <= M -> uniform fs M -> n <= length fs ->
  exists idx, rank_group srt nobj 0 0 tol fs (length fs) n = Ok idx /\ ranks beats_pareto fs n idx.
Proof.
  intros HN HM U L. unfold rank_group. replace (nobj =? 1)%Z with false by (symmetry; apply Z.eqb_neq; lia). cbn [andb].
  destruct (select_best_ok srt fs M n SC U HM) as (idx & E & (ND & R & LE & _)). exists idx. split; [exact E|].
  rewrite Nat.min_l in LE by lia.
  unfold ranks. rewrite firstn_all2 by lia. split; [lia|]. split; [exact ND|]. split; [exact R|].
  intros i j Hi Hj Nj D.
  destruct (le_lt_dec 2 (length fs)) as [G|G].
  - eapply (select_best_not_dominated srt fs M n idx i j); eauto.
    exists (nth j fs []), (nth i fs []). split; [apply nth_error_nth'; auto|]. split; [apply nth_error_nth'; auto|exact D].
  - specialize (R i Hi). assert (i = j) by lia. subst. contradiction.
Qed.
End Rank.

Lemma swo_incl {A} (cmp : A -> A -> bool) l l' : strict_weak_on cmp l -> incl l' l -> strict_weak_on cmp l'.
Proof. intros [I T C] H. split; [intros a Ha; apply I, H, Ha|intros a b c Ha Hb Hc; apply T; auto|intros a b c Ha Hb Hc; apply C; auto]. Qed.

(** ** The policies *)
Lemma fair_generic srt rate inds mig nobj nec nic tol beats :
  aligned inds -> aligned mig -> rate_ok rate (length (g_id inds)) ->
  ~ ((1 < nobj)%Z /\ (nic <> 0 \/ nec <> 0)%Z) ->
  (forall fs n, incl fs (g_f inds ++ g_f mig) -> n <= length fs ->
     exists idx, rank_group srt nobj nec nic tol fs (length fs) n = Ok idx /\ ranks beats fs n idx) ->
  exists out, fair_replace srt rate inds nobj nec nic tol mig = Ok out /\ fair_outcome beats rate inds mig out.
Proof.
  intros AI AM RO NC RK. unfold fair_replace.
  assert (G : ((1 <? nobj)%Z && (negb (nic =? 0)%Z || negb (nec =? 0)%Z)) = false).
  { destruct (Z.ltb_spec 1 nobj); auto. destruct (Z.eqb_spec nic 0), (Z.eqb_spec nec 0); auto; exfalso; apply NC; split; auto. }
  rewrite G. pose proof AI as [AIx AIf]. pose proof AM as [AMx AMf].
  rewrite AIx, AMx. destruct (migr_count_ok rate (length (g_id inds)) RO) as (k & E & RM & KL). rewrite E. cbn [bind].
  destruct (RK (g_f mig) (Nat.min k (length (g_id mig)))) as (idx & E1 & R1).
  { intros f Hf. apply in_or_app; auto. } { rewrite AMf. lia. }
  rewrite AMf in E1. rewrite E1. cbn [bind].
  destruct (ranks_best beats mig _ idx AM R1) as (used & E2 & AU & LU & BU & IU & _). rewrite E2. cbn [bind].
  assert (AMG : aligned (app_group inds used)).
  { destruct AU as [AUx AUf]. split; cbn; rewrite !app_length; lia. }
  destruct (RK (g_f (app_group inds used)) (length (g_id inds))) as (idx2 & E3 & R3).
  { cbn. intros f Hf. apply in_app_or in Hf. apply in_or_app. destruct Hf; auto. }
  { cbn. rewrite app_length. lia. }
  rewrite (proj2 AMG) in E3. rewrite E3. cbn [bind].
  destruct (ranks_best beats _ _ idx2 AMG R3) as (out & E4 & AO & LO & BO & _ & _).
  exists out. split; [exact E4|]. split; [exact AO|]. exists k, (members used). split; [exact RM|]. split; [exact BU|].
  rewrite members_app in BO by exact AI. exact BO.
Qed.

Lemma select_generic srt rate inds nobj nec nic tol beats :
  aligned inds -> rate_ok rate (length (g_id inds)) ->
  ~ ((1 < nobj)%Z /\ (nic <> 0 \/ nec <> 0)%Z) ->
  (forall n, n <= length (g_f inds) ->
     exists idx, rank_group srt nobj nec nic tol (g_f inds) (length (g_f inds)) n = Ok idx /\ ranks beats (g_f inds) n idx) ->
  exists out, select_best srt rate inds nobj nec nic tol = Ok out /\ select_outcome beats rate inds out.
Proof.
  intros AI RO NC RK. unfold select_best.
  assert (G : ((1 <? nobj)%Z && (negb (nic =? 0)%Z || negb (nec =? 0)%Z)) = false).
  { destruct (Z.ltb_spec 1 nobj); auto. destruct (Z.eqb_spec nic 0), (Z.eqb_spec nec 0); auto; exfalso; apply NC; split; auto. }
  rewrite G. pose proof AI as [AIx AIf].
  rewrite AIx. destruct (migr_count_ok rate (length (g_id inds)) RO) as (k & E & RM & KL). rewrite E. cbn [bind].
  destruct (RK k) as (idx & E1 & R1); [rewrite AIf; lia|]. rewrite AIf in E1. rewrite E1. cbn [bind].
  destruct (ranks_best beats inds _ idx AI R1) as (out & E2 & AU & LU & BU & _ & _).
  exists out. split; [exact E2|]. split; [exact AU|]. exists k. auto.
Qed.

Lemma select_ranked srt rate inds nobj nec nic tol beats out :
  aligned inds -> rate_ok rate (length (g_id inds)) ->
  (forall n, n <= length (g_f inds) ->
     exists idx, rank_group srt nobj nec nic tol (g_f inds) (length (g_f inds)) n = Ok idx /\ ranks beats (g_f inds) n idx /\ orders beats (g_f inds) n idx) ->
  select_best srt rate inds nobj nec nic tol = Ok out -> ranked beats (members out).
Proof.
  intros AI RO RK. unfold select_best.
  destruct ((1 <? nobj)%Z && (negb (nic =? 0)%Z || negb (nec =? 0)%Z)); [discriminate|].
  pose proof AI as [AIx AIf].
  rewrite AIx. destruct (migr_count_ok rate (length (g_id inds)) RO) as (k & E & RM & KL). rewrite E. cbn [bind].
  destruct (RK k) as (idx & E1 & R1 & O1); [rewrite AIf; lia|]. rewrite AIf in E1. rewrite E1. cbn [bind].
  destruct (ranks_best beats inds _ idx AI R1) as (out' & E2 & _ & _ & _ & _ & RR). rewrite E2. intros H. injection H as <-. auto.
Qed.

(** ** The property lemmas *)
Lemma fair_objective srt rate inds mig tol : sort_contract srt -> aligned inds -> aligned mig ->
  rate_ok rate (length (g_id inds)) -> (forall f, In f (g_f inds ++ g_f mig) -> length f = 1) ->
  exists out, fair_replace srt rate inds 1 0 0 tol mig = Ok out /\ fair_outcome beats_objective rate inds mig out.
Proof.
  intros SC AI AM RO F. apply fair_generic; auto; [lia|].
  intros fs n I L. destruct (rank_objective srt SC tol fs n) as (idx & E & R & _); auto. exists idx; auto.
Qed.

Lemma fair_constrained srt rate inds mig nec nic tol : sort_contract srt -> aligned inds -> aligned mig ->
  rate_ok rate (length (g_id inds)) -> (0 <= nec)%Z -> (0 <= nic)%Z -> (0 < nec + nic)%Z ->
  (forall f, In f (g_f inds ++ g_f mig) -> fc_args_ok (Z.to_nat nec) tol f) ->
  strict_weak_on (fc_lt (Z.to_nat nec) tol) (g_f inds ++ g_f mig) ->
  exists out, fair_replace srt rate inds 1 nec nic tol mig = Ok out /\ fair_outcome (beats_constrained nec tol) rate inds mig out.
Proof.
  intros SC AI AM RO N1 N2 N3 F W. apply fair_generic; auto; [lia|].
  intros fs n I L. destruct (rank_constrained srt SC nec nic tol fs n) as (idx & E & R & _); auto; try lia.
  - eapply swo_incl; eauto.
  - exists idx; auto.
Qed.

Lemma fair_pareto srt rate inds mig nobj tol : sort_contract srt -> aligned inds -> aligned mig ->
  rate_ok rate (length (g_id inds)) -> (1 < nobj)%Z ->
  (forall f, In f (g_f inds ++ g_f mig) -> Z.of_nat (length f) = nobj) ->
  exists out, fair_replace srt rate inds nobj 0 0 tol mig = Ok out /\ fair_outcome beats_pareto rate inds mig out.
Proof.
  intros SC AI AM RO N F. apply fair_generic; auto; [lia|].
  intros fs n I L. apply (rank_pareto srt SC nobj tol fs n (Z.to_nat nobj)); auto; [lia|].
  intros f Hf. apply I, F in Hf. lia.
Qed.

Lemma fair_rejects srt rate inds mig nobj nec nic tol :
  ((1 < nobj /\ (nec <> 0 \/ nic <> 0))%Z \/ (exists c, rate = Absolute c /\ length (g_x inds) < c)) ->
  fair_replace srt rate inds nobj nec nic tol mig = Throw InvalidArgument.
Proof.
  unfold fair_replace. intros H.
  destruct ((1 <? nobj)%Z && (negb (nic =? 0)%Z || negb (nec =? 0)%Z)) eqn:E; [reflexivity|].
  destruct H as [[H1 H2]|(c & -> & H)].
  - exfalso. destruct (Z.ltb_spec 1 nobj); [|lia]. cbn in E. destruct (Z.eqb_spec nic 0), (Z.eqb_spec nec 0); try discriminate. lia.
  - rewrite migr_count_abs by auto. reflexivity.
Qed.
Lemma select_rejects srt rate inds nobj nec nic tol :
  ((1 < nobj /\ (nec <> 0 \/ nic <> 0))%Z \/ (exists c, rate = Absolute c /\ length (g_x inds) < c)) ->
  select_best srt rate inds nobj nec nic tol = Throw InvalidArgument.
Proof.
  unfold select_best. intros H.
  destruct ((1 <? nobj)%Z && (negb (nic =? 0)%Z || negb (nec =? 0)%Z)) eqn:E; [reflexivity|].
  destruct H as [[H1 H2]|(c & -> & H)].
  - exfalso. destruct (Z.ltb_spec 1 nobj); [|lia]. cbn in E. destruct (Z.eqb_spec nic 0), (Z.eqb_spec nec 0); try discriminate. lia.
  - rewrite migr_count_abs by auto. reflexivity.
Qed.

Lemma select_objective srt rate inds tol : sort_contract srt -> aligned inds ->
  rate_ok rate (length (g_id inds)) -> (forall f, In f (g_f inds) -> length f = 1) ->
  exists out, select_best srt rate inds 1 0 0 tol = Ok out /\ select_outcome beats_objective rate inds out /\ ranked beats_objective (members out).
Proof.
  intros SC AI RO F.
  destruct (select_generic srt rate inds 1 0 0 tol beats_objective) as (out & E & O); auto; [lia| |].
  - intros n L. destruct (rank_objective srt SC tol (g_f inds) n) as (idx & E & R & _); auto. exists idx; auto.
  - exists out. split; [exact E|]. split; [exact O|].
    refine (select_ranked srt rate inds 1 0 0 tol beats_objective out AI RO _ E). intros n L. apply rank_objective; auto.
Qed.
Lemma select_constrained srt rate inds nec nic tol : sort_contract srt -> aligned inds ->
  rate_ok rate (length (g_id inds)) -> (0 <= nec)%Z -> (0 <= nic)%Z -> (0 < nec + nic)%Z ->
  (forall f, In f (g_f inds) -> fc_args_ok (Z.to_nat nec) tol f) ->
  strict_weak_on (fc_lt (Z.to_nat nec) tol) (g_f inds) ->
  exists out, select_best srt rate inds 1 nec nic tol = Ok out /\ select_outcome (beats_constrained nec tol) rate inds out /\
    ranked (beats_constrained nec tol) (members out).
Proof.
  intros SC AI RO N1 N2 N3 F W.
  assert (K : forall n, n <= length (g_f inds) -> exists idx, rank_group srt 1 nec nic tol (g_f inds) (length (g_f inds)) n = Ok idx /\
    ranks (beats_constrained nec tol) (g_f inds) n idx /\ orders (beats_constrained nec tol) (g_f inds) n idx).
  { intros n L. apply rank_constrained; auto; lia. }
  destruct (select_generic srt rate inds 1 nec nic tol (beats_constrained nec tol)) as (out & E & O); auto; [lia| |].
  - intros n L. destruct (K n L) as (idx & A & B & _). exists idx; auto.
  - exists out. split; [exact E|]. split; [exact O|].
    exact (select_ranked srt rate inds 1 nec nic tol _ out AI RO K E).
Qed.
Lemma select_pareto srt rate inds nobj tol : sort_contract srt -> aligned inds ->
  rate_ok rate (length (g_id inds)) -> (1 < nobj)%Z ->
  (forall f, In f (g_f inds) -> Z.of_nat (length f) = nobj) ->
  exists out, select_best srt rate inds nobj 0 0 tol = Ok out /\ select_outcome beats_pareto rate inds out.
Proof.
  intros SC AI RO N F. apply select_generic; auto; [lia|].
  intros n L. apply (rank_pareto srt SC nobj tol _ n (Z.to_nat nobj)); auto; [lia|].
  intros f Hf. apply F in Hf. lia.
Qed.

(** Consequence for a single-objective run: the best fitness present before is
    still reached. *)
Lemma fair_not_worse rate inds mig out : fair_outcome beats_objective rate inds mig out ->
  0 < length (g_id inds) -> aligned inds ->
  forall a, In a (members inds) -> exists b, In b (members out) /\ ~ beats_objective (fit a) (fit b).
Proof.
  intros (AO & k & used & _ & _ & (L & others & P & B)) NE AI a Ha.
  assert (K : In a (members inds ++ used)) by (apply in_or_app; auto).
  apply (Permutation_in _ P) in K. apply in_app_or in K. destruct K as [K|K].
  - exists a. split; auto. unfold beats_objective. intros H. apply ltf_false in H; auto.
    pose proof (swo_irrefl _ _ (ltf_swo [nth 0 (fit a) NaN])) as I. apply I. left; reflexivity.
  - destruct (members out) as [|b t] eqn:M; [cbn in L; lia|]. exists b. split; [left; auto|]. apply B; auto. left; auto.
Qed.

Lemma rates_cases :
  (forall n, make_absolute n = if ((0 <=? n) && (n <=? 2 ^ 64 - 1))%Z then Ok (Absolute (Z.to_nat n)) else Throw OverflowError) /\
  (forall x, (dle dzero x = true /\ dle x done = true -> make_fractional x = Ok (Fractional x)) /\
             (~ (dle dzero x = true /\ dle x done = true) -> make_fractional x = Throw InvalidArgument)).
Proof.
  split.
  - intros n. unfold make_absolute, u64max. destruct (Z.leb_spec 0 n), (Z.leb_spec n (2 ^ 64 - 1)),
      (Z.ltb_spec n 0), (Z.ltb_spec (2 ^ 64 - 1) n); cbn [orb andb]; try reflexivity; lia.
  - intros x. unfold make_fractional, done, dzero. destruct x as [| |z|]; cbn [isfinite negb orb dle dlt dgt].
    + split; intros H; [destruct H; discriminate|reflexivity].
    + split; intros H; [destruct H; discriminate|reflexivity].
    + rewrite !dle_fin. unfold dgt; cbn [dlt]. destruct (Z.ltb_spec z 0), (Z.ltb_spec one_z z); cbn [orb];
        split; intros K; try reflexivity; lia.
    + split; intros H; [destruct H; discriminate|reflexivity].
Qed.

(** ** Wrappers *)
Lemma bad_sizes_spec g : bad_sizes g = false <-> aligned g.
Proof.
  unfold bad_sizes, aligned. destruct (Nat.eqb_spec (length (g_id g)) (length (g_x g))), (Nat.eqb_spec (length (g_id g)) (length (g_f g))); cbn;
    split; intros; auto; try discriminate; lia.
Qed.
Lemma existsb_bad_len n l : existsb (bad_len n) l = false <-> (forall v, In v l -> Z.of_nat (length v) = n).
Proof.
  split.
  - intros H v Hv. destruct (Z.eqb_spec (Z.of_nat (length v)) n) as [E|E]; auto. exfalso.
    assert (existsb (bad_len n) l = true).
    { apply existsb_exists. exists v. split; auto. unfold bad_len. apply negb_true_iff, Z.eqb_neq. exact E. } congruence.
  - intros H. destruct (existsb (bad_len n) l) eqn:E; auto. apply existsb_exists in E. destruct E as (v & Hv & E).
    unfold bad_len in E. rewrite (H v Hv), Z.eqb_refl in E. discriminate.
Qed.

Lemma throw_if_bind {A} b e (k : outcome A) : (throw_if b e ;;; k)%outcome = if b then Throw e else k.
Proof. destruct b; reflexivity. Qed.

Lemma verify_output_spec d g : verify_output d g = Ok tt /\ shaped (d_nx d) (nf_of d) g \/
  verify_output d g = Throw InvalidArgument /\ ~ shaped (d_nx d) (nf_of d) g.
Proof.
  unfold verify_output, verify_members, shaped. rewrite !throw_if_bind.
  destruct (bad_sizes g) eqn:B.
  { right. split; auto. intros (H & _). apply bad_sizes_spec in H. congruence. }
  destruct (existsb (bad_len (d_nx d)) (g_x g)) eqn:X.
  { right. split; auto. intros (_ & H & _). apply existsb_bad_len in H. congruence. }
  destruct (existsb (bad_len (nf_of d)) (g_f g)) eqn:F; cbn [throw_if].
  { right. split; auto. intros (_ & _ & H). apply existsb_bad_len in H. congruence. }
  left. split; auto. split; [now apply bad_sizes_spec|]. split; now apply existsb_bad_len.
Qed.

Lemma verify_dims_spec d : size_args d -> verify_dims d = Ok tt /\ consistent d \/ verify_dims d = Throw InvalidArgument /\ ~ consistent d.
Proof.
  intros (A1 & A2 & A3 & A4 & A5). unfold verify_dims, consistent. rewrite !throw_if_bind.
  change (u64max / 3)%Z with 6148914691236517205%Z. change ((2 ^ 64 - 1) / 3)%Z with 6148914691236517205%Z.
  destruct (Z.eqb_spec (d_nx d) 0); [right; split; auto; lia|].
  destruct (Z.ltb_spec (d_nx d) (d_nix d)); [right; split; auto; lia|].
  destruct (Z.eqb_spec (d_nobj d) 0); [right; split; auto; lia|].
  destruct (Z.ltb_spec 6148914691236517205 (d_nobj d)); [right; split; auto; lia|].
  destruct (Z.ltb_spec 6148914691236517205 (d_nec d)); [right; split; auto; lia|].
  destruct (Z.ltb_spec 6148914691236517205 (d_nic d)); [right; split; auto; lia|].
  assert (W : wrap64 (d_nec d + d_nic d) = (d_nec d + d_nic d)%Z).
  { unfold wrap64. apply Z.mod_small. split; [lia|]. change (2 ^ 64)%Z with 18446744073709551616%Z. lia. }
  rewrite W. destruct (Z.eqb_spec (Z.of_nat (length (d_tol d))) (d_nec d + d_nic d)); cbn [negb throw_if].
  - left. split; auto. split; auto. lia.
  - right. split; auto. lia.
Qed.

Lemma nf_consistent d : consistent d -> nf_of d = (d_nobj d + d_nec d + d_nic d)%Z.
Proof.
  intros ((A & B & C & D & E) & _). unfold nf_of, wrap64.
  assert (K : ((2 ^ 64 - 1) / 3 = 6148914691236517205)%Z) by reflexivity. rewrite K in *.
  change (2 ^ 64)%Z with 18446744073709551616%Z.
  rewrite (Z.mod_small (d_nobj d + d_nec d)) by lia. apply Z.mod_small. lia.
Qed.


Lemma r_policy_spec udrp inds d mig : size_args d ->
  (~ (consistent d /\ shaped (d_nx d) (nf_sum d) inds /\ shaped (d_nx d) (nf_sum d) mig) ->
     r_policy_replace udrp inds d mig = Throw InvalidArgument) /\
  (consistent d -> shaped (d_nx d) (nf_sum d) inds -> shaped (d_nx d) (nf_sum d) mig ->
     match udrp inds d mig with
     | Ok out => (shaped (d_nx d) (nf_sum d) out -> r_policy_replace udrp inds d mig = Ok out) /\
                 (~ shaped (d_nx d) (nf_sum d) out -> r_policy_replace udrp inds d mig = Throw InvalidArgument)
     | other => r_policy_replace udrp inds d mig = other
     end).
Proof.
  intros SA. unfold r_policy_replace, verify_replace_input. rewrite !throw_if_bind.
  assert (VO : forall g, verify_members d g = Ok tt \/ verify_members d g = Throw InvalidArgument).
  { intros g. unfold verify_members. rewrite throw_if_bind. destruct (existsb _ (g_x g)); auto. destruct (existsb _ (g_f g)); auto. }
  assert (VM : forall g, bad_sizes g = false -> verify_members d g = verify_output d g).
  { intros g B. unfold verify_output. rewrite throw_if_bind, B. reflexivity. }
  split.
  - intros N. destruct (bad_sizes inds) eqn:B1; [reflexivity|]. destruct (bad_sizes mig) eqn:B2; [reflexivity|].
    rewrite !VM by auto.
    destruct (verify_dims_spec d SA) as [[E C]|[E C]]; rewrite E; [|reflexivity]. cbn [bind].
    rewrite <- (nf_consistent d C : _ = nf_sum d) in N.
    destruct (verify_output_spec d inds) as [[E1 S1]|[E1 S1]]; rewrite E1; [|reflexivity]. cbn [bind].
    destruct (verify_output_spec d mig) as [[E2 S2]|[E2 S2]]; rewrite E2; [|reflexivity]. exfalso; auto.
  - intros C S1 S2. rewrite <- (nf_consistent d C : _ = nf_sum d) in *.
    rewrite (proj2 (bad_sizes_spec inds)) by apply S1. rewrite (proj2 (bad_sizes_spec mig)) by apply S2.
    destruct (verify_dims_spec d SA) as [[E _]|[_ K]]; [|contradiction]. rewrite E. cbn [bind].
    rewrite (VM inds) by (apply bad_sizes_spec; apply S1). rewrite (VM mig) by (apply bad_sizes_spec; apply S2).
    destruct (verify_output_spec d inds) as [[E1 _]|[_ K]]; [|contradiction]. rewrite E1. cbn [bind].
    destruct (verify_output_spec d mig) as [[E2 _]|[_ K]]; [|contradiction]. rewrite E2. cbn [bind].
    destruct (udrp inds d mig) as [out|e| |]; cbn [bind]; auto.
    destruct (verify_output_spec d out) as [[E3 K]|[E3 K]]; rewrite E3; cbn [bind]; split; intros; auto; contradiction.
Qed.

Lemma s_policy_spec udsp inds d : size_args d ->
  (~ (consistent d /\ shaped (d_nx d) (nf_sum d) inds) -> s_policy_select udsp inds d = Throw InvalidArgument) /\
  (consistent d -> shaped (d_nx d) (nf_sum d) inds ->
     match udsp inds d with
     | Ok out => (shaped (d_nx d) (nf_sum d) out -> s_policy_select udsp inds d = Ok out) /\
                 (~ shaped (d_nx d) (nf_sum d) out -> s_policy_select udsp inds d = Throw InvalidArgument)
     | other => s_policy_select udsp inds d = other
     end).
Proof.
  intros SA. unfold s_policy_select, verify_select_input. rewrite !throw_if_bind.
  assert (VM : forall g, bad_sizes g = false -> verify_members d g = verify_output d g).
  { intros g B. unfold verify_output. rewrite throw_if_bind, B. reflexivity. }
  split.
  - intros N. destruct (bad_sizes inds) eqn:B1; [reflexivity|].
    rewrite !VM by auto.
    destruct (verify_dims_spec d SA) as [[E C]|[E C]]; rewrite E; [|reflexivity]. cbn [bind].
    rewrite <- (nf_consistent d C : _ = nf_sum d) in N.
    destruct (verify_output_spec d inds) as [[E1 S1]|[E1 S1]]; rewrite E1; [|reflexivity]. exfalso; auto.
  - intros C S1. rewrite <- (nf_consistent d C : _ = nf_sum d) in *.
    assert (B1 : bad_sizes inds = false) by (apply bad_sizes_spec; apply S1).
    rewrite VM by auto. rewrite B1.
    destruct (verify_dims_spec d SA) as [[E _]|[_ K]]; [|contradiction]. rewrite E. cbn [bind].
    destruct (verify_output_spec d inds) as [[E1 _]|[_ K]]; [|contradiction]. rewrite E1. cbn [bind].
    destruct (udsp inds d) as [out|e| |]; cbn [bind]; auto.
    destruct (verify_output_spec d out) as [[E3 K]|[E3 K]]; rewrite E3; cbn [bind]; split; intros; auto; contradiction.
Qed.

(** ** Concrete cases *)
Definition exg : group := mkgrp [1; 2; 3]%Z [[Fin 1]; [Fin 2]; [Fin 3]] [[Fin 5]; [Fin 3]; [Fin 9]].
Definition exm : group := mkgrp [10; 11]%Z [[Fin 4]; [Fin 6]] [[Fin 7]; [Fin 1]].
Definition exd : pdata := mkpd 1 0 1 0 0 [].
Lemma ex_fair : fair_replace (@isort) (Absolute 1) exg 1 0 0 [] exm =
  Ok (mkgrp [11; 2; 1]%Z [[Fin 6]; [Fin 2]; [Fin 1]] [[Fin 1]; [Fin 3]; [Fin 5]]).
Proof. vm_compute. reflexivity. Qed.
Lemma ex_select : select_best (@isort) (Absolute 2) exg 1 0 0 [] = Ok (mkgrp [2; 1]%Z [[Fin 2]; [Fin 1]] [[Fin 3]; [Fin 5]]).
Proof. vm_compute. reflexivity. Qed.
Definition exmo : group := mkgrp [1; 2; 3]%Z [[Fin 1]; [Fin 2]; [Fin 3]] [[Fin 5; Fin 5]; [Fin 3; Fin 6]; [Fin 9; Fin 9]].
Definition exmm : group := mkgrp [10]%Z [[Fin 4]] [[Fin 6; Fin 3]].
Definition exc (l : list (list dbl)) : group := mkgrp (map (fun _ => 7%Z) l) l l.

Lemma rank_con srt tol fs size n : rank_group srt 1 1 1 tol fs size n = sort_population_con srt fs 1 tol.
Proof. reflexivity. Qed.
Lemma fair_constrained_refuted : exists inds mig nec nic tol rate, aligned inds /\ aligned mig /\ rate_ok rate (length (g_id inds)) /\
  finite_all tol /\ (forall f, In f (g_f inds) -> fc_args_ok (Z.to_nat nec) tol f /\ finite_all f) /\
  forall srt, sort_contract srt -> fair_replace srt rate inds 1 nec nic tol mig = UB.
Proof.
  exists (exc [fa; fb; fcc]), (mkgrp [] [] []), 1%Z, 1%Z, ftol, (Absolute 0).
  split; [split; reflexivity|]. split; [split; reflexivity|]. split; [cbn; lia|].
  split; [repeat constructor|]. split.
  - intros f Hf. cbn in Hf. destruct Hf as [<-|[<-|[<-|[]]]]; (split; [split; cbn; lia|repeat constructor]).
  - intros srt SC. unfold fair_replace. change ((1 <? 1)%Z && (negb (1 =? 0)%Z || negb (1 =? 0)%Z)) with false. cbv iota.
    change (length (g_x (exc [fa; fb; fcc]))) with 3. change (migr_count (Absolute 0) 3) with (Ok 0). cbn [bind Nat.min].
    rewrite !rank_con.
    destruct (sort_con_ok srt [] 1 ftol SC) as (idx & E & P & _).
    { intros f []. } { split; [intros ? []|intros ? ? ? []|intros ? ? ? []]. }
    cbn [g_f]. rewrite E. cbn [bind].
    change (pick_group (mkgrp [] [] []) idx 0) with (Ok (mkgrp [] [] [])). cbn [bind].
    rewrite !rank_con. change (g_f (app_group (exc [fa; fb; fcc]) (mkgrp [] [] []))) with [fa; fb; fcc].
    rewrite sort_con_ub. reflexivity.
Qed.
