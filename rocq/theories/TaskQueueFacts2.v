(** Order, completion, deadlock and termination of the task queue. *)
From Coq Require Import List Arith Bool Lia Permutation.
Import ListNotations.
From Verif Require Import Outcome BaseFacts TaskQueue SpecTaskQueue TaskQueueFacts.

Ltac step_cases St :=
  let H := fresh "H" in
  destruct St as [H M|H H0 H1|H|H|H H0 H1|t' q H H0|t' H|t' H|t' H|t' H|t' H H0|s' H H0
    |i' t' H|i' t' H M|i' t' H|i' t' H|i' t' s' H H0
    |i' H|i' H M|i' H H0|i' H H0|i' H H0|i' H H0|i' H|i' H|i' H
    |i' H|i' H M|i' H|i' H|i' s' H H0|i' H H0].

(** ** One at a time, at most once, in order *)
Lemma exec_one_at_a_time lk na n tr s : exec lk na n tr s -> one_at_a_time tr.
Proof.
  intros X. apply exec_finished in X. unfold one_at_a_time. destruct (q_c s); cbn in X; rewrite ?app_nil_r in X; eauto.
Qed.

Lemma exec_times lk na n tr s t : exec lk na n tr s -> times t (started tr) <= times t (called tr).
Proof.
  intros X. apply exec_called in X. unfold times.
  rewrite (proj1 (Permutation_count_occ Nat.eq_dec _ _) X). unfold hist. rewrite !count_occ_app. unfold task in *. rewrite <- Nat.add_assoc. apply Nat.le_add_r.
Qed.

Lemma app_before {A} (x y z w : list A) (a b : A) :
  x ++ y = z ++ w -> In a z -> ~ In b z -> In b x -> before a b x.
Proof.
  intros E Ia Nb Ib.
  assert (exists r, x = z ++ r) as (r & ->).
  { revert z E Nb Ia. induction x as [|h x IH]; intros z E Nb Ia.
    - destruct Ib.
    - clear Ia. revert IH. destruct z as [|h' z]; intros IH; [exists (h :: x); reflexivity|].
      cbn in E. injection E as <- E.
      destruct Ib as [->|Ib]; [exfalso; apply Nb; left; auto|].
      assert (K : forall x y z w : list A, x ++ y = z ++ w -> In b x -> ~ In b z -> exists r, x = z ++ r).
      { clear. intros x y z w. revert z. induction x as [|h x IH]; intros [|h' z] E I N; try (destruct I; fail).
        - eexists; reflexivity.
        - injection E as <- E. destruct I as [->|I]; [exfalso; apply N; left; auto|].
          destruct (IH z E I) as (r & ->). { intro; apply N; right; auto. } eexists; reflexivity. }
      destruct (K _ _ _ _ E Ib) as (r & ->). { intro; apply Nb; right; auto. } eexists; reflexivity. }
  apply in_app_or in Ib. destruct Ib as [Ib|Ib]; [contradiction|].
  apply in_split in Ia. destruct Ia as (z1 & z2 & ->). apply in_split in Ib. destruct Ib as (r1 & r2 & ->).
  exists z1, (z2 ++ r1), r2. rewrite <- !app_assoc. cbn. now rewrite <- ?app_assoc.
Qed.

Lemma exec_order lk na n tr s tr1 tr2 i j a b : exec lk na n tr s -> NoDup (called tr) ->
  tr = tr1 ++ EnqCall j b :: tr2 -> In (EnqRet i a) tr1 -> In b (started tr) -> before a b (started tr).
Proof.
  intros X ND E Ia Ib.
  destruct (exec_split _ _ _ _ _ X _ _ E) as (s1 & X1 & S1).
  destruct (steps_hist _ _ _ _ _ S1 tr1) as (x & Hx). rewrite <- E in Hx.
  assert (A1 : In a (hist tr1 s1)) by (eapply exec_pushed; eauto).
  assert (B1 : ~ In b (hist tr1 s1)).
  { intro K. assert (K2 : In b (called tr1)).
    { eapply Permutation_in; [symmetry; eapply exec_called; eauto|]. apply in_or_app; auto. }
    rewrite E, called_app in ND. cbn in ND.
    apply NoDup_remove_2 in ND. apply ND. apply in_or_app; auto. }
  unfold hist at 1 in Hx. eapply app_before; eauto.
Qed.

(** ** wait_all *)
Lemma exec_waitret lk na n tr s i : exec lk na n tr s -> nth_error (q_k s) i = Some WRet -> hist tr s = finished tr.
Proof.
  intros X H. pose proof (exec_inv _ _ _ _ _ X) as I. pose proof (exec_finished _ _ _ _ _ X) as F.
  destruct (i_ret _ I _ H) as [R Q].
  assert (M : q_mtx s = Some (Client i)) by (apply (i_mk _ I); eauto).
  unfold hist. rewrite Q, F. pose proof (i_flag _ I) as FL. rewrite R in FL.
  assert (NC : holds_c (q_c s) = false).
  { destruct (holds_c (q_c s)) eqn:E; auto. apply (i_mc _ I) in E. congruence. }
  destruct (q_c s); cbn in *; try discriminate; rewrite ?app_nil_r; reflexivity.
Qed.

Lemma step_waitret lk na s i s' : step lk na s (Ev (WaitRet i)) s' -> nth_error (q_k s) i = Some WRet.
Proof. intros St. inversion St; subst; auto. Qed.

(** The state just before the last event of a trace. *)
Lemma exec_last lk na n tr s : exec lk na n tr s -> forall tr1 e, tr = tr1 ++ [e] ->
  exists s1 s2, exec lk na n tr1 s1 /\ step lk na s1 (Ev e) s2.
Proof.
  induction 1 as [|tr s l s' X IH St]; intros tr1 e E.
  - destruct tr1; discriminate.
  - destruct (ev_of l) as [|e0 [|]] eqn:L.
    + rewrite app_nil_r in E. eauto.
    + apply app_inj_tail in E. destruct E as [-> ->].
      destruct l; try discriminate. cbn in L. injection L as ->. eauto.
    + destruct l; discriminate.
Qed.

Lemma exec_prefix lk na n tr s tr1 tr2 : exec lk na n tr s -> tr = tr1 ++ tr2 -> exists s1, exec lk na n tr1 s1.
Proof. intros X E. destruct (exec_split _ _ _ _ _ X _ _ E) as (s1 & X1 & _). eauto. Qed.

Lemma exec_wait_all lk na n tr s tr1 tr2 tr3 i t : exec lk na n tr s ->
  tr = tr1 ++ WaitCall i :: tr2 ++ WaitRet i :: tr3 -> enq_returned t tr1 ->
  In t (finished (tr1 ++ WaitCall i :: tr2)).
Proof.
  intros X E (j & R).
  destruct (exec_prefix _ _ _ _ _ (tr1 ++ WaitCall i :: tr2 ++ [WaitRet i]) tr3 X) as (s1 & X1).
  { rewrite E. rewrite <- !app_assoc. cbn. now rewrite <- app_assoc. }
  destruct (exec_last _ _ _ _ _ X1 (tr1 ++ WaitCall i :: tr2) (WaitRet i)) as (s2 & s3 & X2 & St).
  { rewrite <- app_assoc. reflexivity. }
  rewrite <- (exec_waitret _ _ _ _ _ _ X2 (step_waitret _ _ _ _ _ St)).
  eapply exec_pushed; eauto. apply in_or_app; eauto.
Qed.

(** ** The destructor *)
Lemma step_exit lk na s l s' : step lk na s l s' -> q_c s' = CExit ->
  q_c s = CExit \/ (q_c s = CCheck /\ q_stop s = true /\ q_tasks s = []).
Proof.
  intros St. step_cases St; cbn; auto; try discriminate.
  - apply notify_wakes in H0. destruct (wk_c _ _ H0) as [->|[E1 E2]]; cbn; [discriminate|]. rewrite E2. discriminate.
  - apply notify_wakes in H0. destruct (wk_c _ _ H0) as [->|[E1 E2]]; cbn; [auto|]. rewrite E2. discriminate.
  - apply notify_wakes in H0. destruct (wk_c _ _ H0) as [->|[E1 E2]]; cbn; [auto|]. rewrite E2. discriminate.
Qed.

Lemma step_exited lk na s l s' : step lk na s l s' -> q_c s = CExit -> q_c s' = CExit /\ started (ev_of l) = [].
Proof.
  intros St C. step_cases St; cbn; try congruence; auto.
  - apply notify_wakes in H0. destruct (wk_c _ _ H0) as [->|[E1 E2]]; cbn in *; auto. congruence.
  - apply notify_wakes in H0. destruct (wk_c _ _ H0) as [->|[E1 E2]]; cbn in *; auto. congruence.
Qed.

Lemma in_finished_app t a b : In t (finished a) -> In t (finished (a ++ b)).
Proof. rewrite finished_app. intro. apply in_or_app; auto. Qed.

Lemma steps_dtor lk na n tr1 s1 tr2 s : exec lk na n tr1 s1 -> q_c s1 <> CExit -> steps lk na s1 tr2 s ->
  q_c s = CExit -> forall t, In t (hist tr1 s1) -> In t (finished (tr1 ++ tr2)).
Proof.
  intros X NE B. induction B as [s0|s0 tr s2 l s3 B IH C]; intros CE t I; [contradiction|].
  rewrite app_assoc.
  destruct (step_exit _ _ _ _ _ C CE) as [E|(E & _ & Q)].
  - apply in_finished_app. apply IH; auto.
  - apply in_finished_app. destruct (steps_hist _ _ _ _ _ B tr1) as (x & Hx).
    assert (X2 := exec_steps _ _ _ _ _ _ _ X B).
    pose proof (exec_finished _ _ _ _ _ X2) as F. unfold hist at 1 in Hx. rewrite E, Q in Hx. cbn in Hx.
    rewrite E in F. cbn in F. rewrite app_nil_r in F, Hx. rewrite <- F, Hx. apply in_or_app; auto.
Qed.

Definition dk (k : kpc) : bool := match k with DLock | DHold | DSet | DNotify | DJoin => true | _ => false end.

Lemma step_dk lk na s l s' : step lk na s l s' ->
  (forall i k, nth_error (q_k s) i = Some k -> dk k = false) -> q_stop s = false -> q_c s <> CExit ->
  (exists i, l = Ev (DtorCall i)) \/
  ((forall i k, nth_error (q_k s') i = Some k -> dk k = false) /\ q_stop s' = false /\ q_c s' <> CExit).
Proof.
  intros St A B C.
  assert (UP : forall i k a, nth_error (q_k s) i = Some k -> dk a = false ->
     forall j k', nth_error (upd (q_k s) i a) j = Some k' -> dk k' = false).
  { intros i k a H D j k'. rewrite (nth_error_upd _ _ _ _ _ H). destruct (Nat.eqb i j); [|apply A]. intro E; injection E as <-; auto. }
  assert (WK : forall s1 s2, wakes s1 s2 -> (forall i k, nth_error (q_k s1) i = Some k -> dk k = false) -> q_stop s1 = false -> q_c s1 <> CExit ->
     (forall i k, nth_error (q_k s2) i = Some k -> dk k = false) /\ q_stop s2 = false /\ q_c s2 <> CExit).
  { intros s1 s2 W P1 P2 P3. split; [|split].
    - intros i k. destruct (wk_k _ _ W i) as [->|[_ ->]]; [apply P1|]. intro E; injection E as <-; reflexivity.
    - rewrite (wk_s _ _ W). auto.
    - destruct (wk_c _ _ W) as [->|[_ ->]]; auto. discriminate. }
  step_cases St; cbn;
   try (left; eexists; reflexivity);
   try (exfalso; match goal with K : nth_error _ _ = Some _ |- _ => apply A in K; discriminate end);
   try (right; split; [first [exact A | eapply UP; eauto; reflexivity]|split; [exact B|first [exact C|discriminate]]]; fail).
  - congruence.
  - right. eapply WK; [eapply notify_wakes; eauto|auto|auto|cbn; discriminate].
  - right. eapply WK; [eapply notify_wakes; eauto|cbn; eapply UP; eauto|auto|auto].
Qed.

Lemma exec_no_dtor lk na n tr s : exec lk na n tr s -> no_dtor tr ->
  (forall i k, nth_error (q_k s) i = Some k -> dk k = false) /\ q_stop s = false /\ q_c s <> CExit.
Proof.
  induction 1 as [|tr s l s' X IH St]; intros ND.
  - cbn. split; [|split; [auto|discriminate]]. intros i k H. apply nth_error_In, repeat_spec in H. subst; auto.
  - destruct IH as (A & B & C). { intros i I. apply (ND i). apply in_or_app; auto. }
    destruct (step_dk _ _ _ _ _ St A B C) as [(i & ->)|R]; auto.
    exfalso. apply (ND i). apply in_or_app. right; left; auto.
Qed.

Lemma exec_exit_finished lk na n tr s tr1 tr2 t : exec lk na n tr s -> q_c s = CExit -> tr = tr1 ++ tr2 ->
  no_dtor tr1 -> enq_returned t tr1 -> In t (finished tr).
Proof.
  intros X CE E ND (j & R). destruct (exec_split _ _ _ _ _ X _ _ E) as (s1 & X1 & S1).
  rewrite E. eapply steps_dtor; eauto.
  - apply (exec_no_dtor _ _ _ _ _ X1 ND).
  - eapply exec_pushed; eauto.
Qed.

Lemma step_dtorret lk na s i s' : step lk na s (Ev (DtorRet i)) s' -> q_c s = CExit.
Proof. intros St. inversion St; subst; auto. Qed.

Lemma exec_dtor lk na n tr s tr1 tr2 tr3 i t : exec lk na n tr s ->
  tr = tr1 ++ DtorCall i :: tr2 ++ DtorRet i :: tr3 -> no_dtor tr1 -> enq_returned t tr1 ->
  In t (finished (tr1 ++ DtorCall i :: tr2)).
Proof.
  intros X E ND R.
  destruct (exec_prefix _ _ _ _ _ (tr1 ++ DtorCall i :: tr2 ++ [DtorRet i]) tr3 X) as (s1 & X1).
  { rewrite E. rewrite <- !app_assoc. cbn. now rewrite <- app_assoc. }
  destruct (exec_last _ _ _ _ _ X1 (tr1 ++ DtorCall i :: tr2) (DtorRet i)) as (s2 & s3 & X2 & St).
  { rewrite <- app_assoc. reflexivity. }
  eapply exec_exit_finished; eauto. eapply step_dtorret; eauto.
Qed.

Lemma steps_exited lk na s tr s' : steps lk na s tr s' -> q_c s = CExit -> started tr = [] /\ q_c s' = CExit.
Proof.
  induction 1 as [s0|s0 tr s1 l s2 B IH C]; intros E; [auto|].
  destruct (IH E) as [P Q]. destruct (step_exited _ _ _ _ _ C Q) as [P2 Q2].
  rewrite started_app, P, Q2. auto.
Qed.

Lemma exec_after_dtor lk na n tr s tr1 tr2 i : exec lk na n tr s -> tr = tr1 ++ DtorRet i :: tr2 -> 
  started tr = started tr1 /\ started tr1 = finished tr1.
Proof.
  intros X E. destruct (exec_split _ _ _ _ _ X (tr1 ++ [DtorRet i]) tr2) as (s1 & X1 & S1).
  { rewrite <- app_assoc. exact E. }
  destruct (exec_last _ _ _ _ _ X1 _ _ eq_refl) as (s2 & s3 & X2 & St).
  assert (CE := step_dtorret _ _ _ _ _ St).
  split.
  - destruct (exec_split _ _ _ _ _ X tr1 (DtorRet i :: tr2) E) as (s4 & X4 & S4).
    (* the state reached after tr1 by this very run need not be s2: use exec_split at tr1 ++ [DtorRet] *)
    assert (CE1 : q_c s1 = CExit).
    { clear - X1. remember (tr1 ++ [DtorRet i]) as T eqn:ET.
      revert tr1 ET. induction X1 as [|tr s l s' X IH St]; intros tr1 ET; [destruct tr1; discriminate|].
      destruct (ev_of l) as [|e0 [|]] eqn:L.
      - rewrite app_nil_r in ET. specialize (IH _ ET). eapply step_exited; eauto.
      - apply app_inj_tail in ET. destruct ET as [-> ->]. destruct l; try discriminate. cbn in L. injection L as ->.
        pose proof (step_dtorret _ _ _ _ _ St) as CE. eapply step_exited; eauto.
      - destruct l; discriminate. }
    destruct (steps_exited _ _ _ _ _ S1 CE1) as [P _]. rewrite E, started_app. cbn. rewrite P. apply app_nil_r.
  - pose proof (exec_finished _ _ _ _ _ X2) as F. rewrite CE in F. cbn in F. rewrite app_nil_r in F. exact F.
Qed.

(** ** What the clients are doing *)
Definition kind (k : kpc) : option activity :=
  match k with
  | Idle => None
  | ELock _ | EHold _ | EPushed _ | ENotify _ => Some InEnqueue
  | WLock | WCheck | WCheck2 | WBlock | WSleep | WRet => Some InWaitAll
  | DLock | DHold | DSet | DNotify | DJoin => Some InDestructor
  end.

Lemma doing_app i a b : doing i (a ++ b) = doing_from (doing i a) i b.
Proof. unfold doing. generalize (@None activity). induction a as [|e a IH]; intro o; cbn; auto. Qed.

Lemma step_doing lk na s l s' i k' : step lk na s l s' -> nth_error (q_k s') i = Some k' ->
  exists k, nth_error (q_k s) i = Some k /\ kind k' = doing_from (kind k) i (ev_of l).
Proof.
  intros St.
  assert (NW : forall s1 s2, wakes s1 s2 -> nth_error (q_k s2) i = Some k' -> exists k, nth_error (q_k s1) i = Some k /\ kind k' = kind k).
  { intros s1 s2 W H. destruct (wk_k _ _ W i) as [E|[E1 E2]]; [exists k'; split; congruence|].
    exists WSleep. split; auto. rewrite E2 in H. injection H as <-. reflexivity. }
  step_cases St; cbn; intro G;
   try (exists k'; split; [exact G|reflexivity]);
   try (rewrite (nth_error_upd _ _ _ _ _ H) in G; destruct (Nat.eqb_spec i' i) as [->|];
        [injection G as <-; eexists; split; [exact H|reflexivity]|exists k'; split; [exact G|reflexivity]]; fail).
  - apply notify_wakes in H0. destruct (NW _ _ H0 G) as (k & E1 & E2). cbn in E1. eauto.
  - apply notify_wakes in H0. destruct (NW _ _ H0 G) as (k & E1 & E2). cbn in E1.
    rewrite (nth_error_upd _ _ _ _ _ H) in E1. destruct (Nat.eqb_spec i' i) as [->|]; [|eauto].
    injection E1 as <-. eexists; split; [exact H|exact E2].
  - apply notify_wakes in H0. destruct (NW _ _ H0 G) as (k & E1 & E2). cbn in E1.
    rewrite (nth_error_upd _ _ _ _ _ H) in E1. destruct (Nat.eqb_spec i' i) as [->|]; [|eauto].
    injection E1 as <-. eexists; split; [exact H|exact E2].
Qed.

Lemma step_length lk na s l s' : step lk na s l s' -> length (q_k s') = length (q_k s).
Proof.
  intros St. step_cases St; cbn; rewrite ?upd_length; auto.
  - apply notify_wakes in H0. exact (wk_l _ _ H0).
  - apply notify_wakes in H0. rewrite (wk_l _ _ H0). cbn. apply upd_length.
  - apply notify_wakes in H0. rewrite (wk_l _ _ H0). cbn. apply upd_length.
Qed.

Lemma exec_length lk na n tr s : exec lk na n tr s -> length (q_k s) = n.
Proof. induction 1; [apply repeat_length|]. erewrite step_length; eauto. Qed.

Lemma exec_doing lk na n tr s : exec lk na n tr s -> forall i,
  doing i tr = match nth_error (q_k s) i with Some k => kind k | None => None end.
Proof.
  induction 1 as [|tr s l s' X IH St]; intros i.
  - cbn. destruct (nth_error (repeat Idle n) i) as [k|] eqn:E; auto. apply nth_error_In, repeat_spec in E. subst; auto.
  - rewrite doing_app, IH. destruct (nth_error (q_k s') i) as [k'|] eqn:E.
    + destruct (step_doing _ _ _ _ _ _ _ St E) as (k & -> & ->). reflexivity.
    + assert (E2 : nth_error (q_k s) i = None).
      { apply nth_error_None. apply nth_error_None in E. now rewrite (step_length _ _ _ _ _ St) in E. }
      rewrite E2.
      assert (OUT : forall j k, nth_error (q_k s) j = Some k -> Nat.eqb j i = false).
      { intros j k Hj. apply Nat.eqb_neq. intros ->. congruence. }
      step_cases St; cbn; auto; match goal with K : nth_error _ _ = Some _ |- _ => rewrite (OUT _ _ K) end; auto.
Qed.
