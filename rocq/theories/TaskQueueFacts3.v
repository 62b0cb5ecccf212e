(** Progress of the task queue: termination, absence and presence of deadlocks. *)
From Coq Require Import List Arith Bool Lia Permutation Wf_nat.
Import ListNotations.
From Verif Require Import Outcome BaseFacts TaskQueue SpecTaskQueue TaskQueueFacts TaskQueueFacts2.

Lemma kpc_eq_dec (a b : kpc) : {a = b} + {a <> b}.
Proof. decide equality; apply Nat.eq_dec. Qed.

Lemma notify_total na s : exists s', notify na s s'.
Proof.
  destruct na; [eexists; apply ntf_all; reflexivity|].
  destruct (q_c s) eqn:C; try (
    destruct (in_dec kpc_eq_dec WSleep (q_k s)) as [I|I];
    [apply In_nth_error in I; destruct I as (i & I); eexists; eapply ntf_k; eauto
    |eexists; apply ntf_none; auto; congruence]; fail).
  eexists. apply ntf_c; auto.
Qed.

(** ** Stuck states *)
Lemma stuck_shape lk na s : inv s -> stuck lk na s ->
  (q_c s = CSleep \/ q_c s = CExit) /\
  (forall i k, nth_error (q_k s) i = Some k -> k = Idle \/ k = WSleep \/ (k = DJoin /\ q_c s <> CExit)).
Proof.
  intros I ST.
  assert (P : forall l s', step lk na s l s' -> is_call l = false -> l <> Spur -> False).
  { intros l s' S1 S2 S3. eapply ST. exists l; eauto. }
  assert (M : q_mtx s = None).
  { destruct (q_mtx s) as [[|i]|] eqn:M; auto; exfalso.
    - apply (i_mc _ I) in M. destruct (q_c s) eqn:C; try discriminate.
      + destruct (q_tasks s) as [|t q] eqn:Q; [destruct (q_stop s) eqn:Z|].
        * eapply P; [apply c_exit; auto|reflexivity|discriminate].
        * eapply P; [apply c_wait; auto|reflexivity|discriminate].
        * eapply P; [eapply c_pop; eauto|reflexivity|discriminate].
      + eapply P; [apply c_block; auto|reflexivity|discriminate].
      + eapply P; [eapply c_flag; eauto|reflexivity|discriminate].
      + eapply P; [eapply c_unlock; eauto|reflexivity|discriminate].
    - apply (i_mk _ I) in M. destruct M as (k & K & Hk). destruct k; try discriminate.
      + eapply P; [eapply k_push; eauto|reflexivity|discriminate].
      + eapply P; [eapply k_eunlock; eauto|reflexivity|discriminate].
      + destruct (q_run s) eqn:R.
        * eapply P; [eapply k_wflag_true; eauto|reflexivity|discriminate].
        * eapply P; [eapply k_wflag_false; eauto|reflexivity|discriminate].
      + destruct (q_tasks s) eqn:Q.
        * eapply P; [eapply k_wempty; eauto|reflexivity|discriminate].
        * eapply P; [eapply k_wnonempty; eauto; congruence|reflexivity|discriminate].
      + eapply P; [eapply k_wblock; eauto|reflexivity|discriminate].
      + eapply P; [eapply k_wret; eauto|reflexivity|discriminate].
      + eapply P; [eapply k_dset; eauto|reflexivity|discriminate].
      + eapply P; [eapply k_dunlock; eauto|reflexivity|discriminate]. }
  split.
  - destruct (q_c s) eqn:C; auto; exfalso;
      try (assert (Z : holds_c (q_c s) = true) by (rewrite C; reflexivity); apply (i_mc _ I) in Z; congruence).
    + eapply P; [apply c_lock; auto|reflexivity|discriminate].
    + eapply P; [eapply c_start; eauto|reflexivity|discriminate].
    + eapply P; [eapply c_end; eauto|reflexivity|discriminate].
    + eapply P; [eapply c_clear; eauto|reflexivity|discriminate].
    + destruct (notify_total na (set_c s CLock)) as (s' & N).
      eapply P; [eapply c_notify; eauto|reflexivity|discriminate].
  - intros i k K.
    assert (HK : holds_k k = false).
    { destruct (holds_k k) eqn:E; auto. assert (q_mtx s = Some (Client i)) by (apply (i_mk _ I); eauto). congruence. }
    destruct k; auto; try discriminate.
    + exfalso. eapply P; [eapply k_elock; eauto|reflexivity|discriminate].
    + exfalso. destruct (notify_total na (set_k s i Idle)) as (s' & N).
      eapply P; [eapply k_enotify; eauto|reflexivity|discriminate].
    + exfalso. eapply P; [eapply k_wlock; eauto|reflexivity|discriminate].
    + exfalso. eapply P; [eapply k_dlock; eauto|reflexivity|discriminate].
    + exfalso. destruct (notify_total na (set_k s i DJoin)) as (s' & N).
      eapply P; [eapply k_dnotify; eauto|reflexivity|discriminate].
    + right; right. split; auto. intro CE.
      eapply P; [eapply k_djoin; eauto|reflexivity|discriminate].
Qed.

(** ** The consumer is never left asleep with work to do, when no [wait_all]
    can steal its notification *)
Definition notifier (k : kpc) : bool := match k with EPushed _ | ENotify _ | DSet | DNotify => true | _ => false end.
Definition awake (s : tq) : Prop :=
  q_c s = CSleep -> (q_tasks s <> [] \/ q_stop s = true) ->
  exists i k, nth_error (q_k s) i = Some k /\ notifier k = true.

(** No other client is asleep when client [i] is about to notify. *)
Definition no_thief (na : bool) (s : tq) : Prop :=
  na = true \/ forall i k, nth_error (q_k s) i = Some k -> notifier k = true -> forall j, nth_error (q_k s) j = Some WSleep -> False.

Lemma step_awake lk na s l s' : inv s -> awake s -> no_thief na s -> step lk na s l s' -> awake s'.
Proof.
  intros I A NT St. unfold awake in *.
  assert (KEEP : forall i k a, nth_error (q_k s) i = Some k -> notifier k = notifier a ->
     (exists j k', nth_error (q_k s) j = Some k' /\ notifier k' = true) ->
     exists j k', nth_error (upd (q_k s) i a) j = Some k' /\ notifier k' = true).
  { intros i k a H E (j & k' & H1 & H2). exists j. rewrite (nth_error_upd _ _ _ _ _ H).
    destruct (Nat.eqb_spec i j) as [->|]; eauto. exists a. split; auto. congruence. }
  assert (NTF : forall s1 s2, notify na s1 s2 -> q_c s1 = CSleep ->
     (forall j, nth_error (q_k s1) j = Some WSleep -> na = false -> False) -> q_c s2 = CSleep -> False).
  { intros s1 s2 N C J C2. destruct N as [E X Y|E X|j E X|E]; cbn in C2; try congruence.
    - eapply J; eauto.
    - rewrite C in C2. discriminate. }
  step_cases St; cbn; intros C W; try discriminate; try congruence.
  - (* c_block *) exfalso. destruct (i_block _ I H) as [Q1 Q2]. destruct W; congruence.
  - exfalso. destruct H0 as [E X Y|E X|j E X|E]; cbn in *; try congruence.
  - eapply KEEP; eauto.
  - eapply KEEP; eauto.
  - exists i', (EPushed t'). split; auto. rewrite (nth_error_upd _ _ _ _ _ H), Nat.eqb_refl. auto.
  - eapply KEEP; eauto.
  - exfalso. pose proof (notify_wakes _ _ _ H0) as WK.
    assert (C1 : q_c s = CSleep). { destruct (wk_c _ _ WK) as [E|[E1 E2]]; cbn in *; congruence. }
    eapply NTF; eauto. intros j Hj N0. cbn in Hj. rewrite (nth_error_upd _ _ _ _ _ H) in Hj.
    destruct (Nat.eqb i' j); [discriminate|]. destruct NT as [NT|NT]; [congruence|]. eapply NT; eauto.
  - eapply KEEP; eauto.
  - eapply KEEP; eauto.
  - eapply KEEP; eauto.
  - eapply KEEP; eauto.
  - eapply KEEP; eauto.
  - eapply KEEP; eauto.
  - eapply KEEP; eauto.
  - eapply KEEP; eauto.
  - eapply KEEP; eauto.
  - eapply KEEP; eauto.
  - eapply KEEP; eauto.
  - exists i', DSet. split; auto. rewrite (nth_error_upd _ _ _ _ _ H), Nat.eqb_refl. auto.
  - eapply KEEP; eauto.
  - exfalso. pose proof (notify_wakes _ _ _ H0) as WK.
    assert (C1 : q_c s = CSleep). { destruct (wk_c _ _ WK) as [E|[E1 E2]]; cbn in *; congruence. }
    eapply NTF; eauto. intros j Hj N0. cbn in Hj. rewrite (nth_error_upd _ _ _ _ _ H) in Hj.
    destruct (Nat.eqb i' j); [discriminate|]. destruct NT as [NT|NT]; [congruence|]. eapply NT; eauto.
Qed.

Lemma doing_no_wait tr : no_wait tr -> forall i, doing i tr <> Some InWaitAll.
Proof.
  intros NW i. unfold doing.
  assert (K : forall o, o <> Some InWaitAll -> doing_from o i tr <> Some InWaitAll).
  { revert NW. induction tr as [|e tr IH]; intros NW o Ho; auto. cbn. apply IH.
    - intros j Hj. apply (NW j). right; auto.
    - destruct e as [j t|j t|t|t|j|j|j|j]; try destruct (Nat.eqb j i); auto; try discriminate.
      exfalso. apply (NW j). left; auto. }
  apply K. discriminate.
Qed.

Lemma exec_no_thief lk na n tr s : exec lk na n tr s -> na = true \/ n = 1 \/ no_wait tr -> no_thief na s.
Proof.
  intros X [H|[H|H]]; [left; auto| |]; right; intros i k Hi Nk j Hj.
  - assert (L := exec_length _ _ _ _ _ X).
    assert (i < length (q_k s)) by (apply nth_error_Some; congruence).
    assert (j < length (q_k s)) by (apply nth_error_Some; congruence).
    assert (i = j) by lia. subst j. rewrite Hj in Hi. injection Hi as <-. discriminate.
  - pose proof (exec_doing _ _ _ _ _ X j) as D. rewrite Hj in D. cbn in D.
    exact (doing_no_wait _ H _ D).
Qed.

Lemma exec_awake lk na n tr s : exec lk na n tr s -> na = true \/ n = 1 \/ no_wait tr -> awake s.
Proof.
  induction 1 as [|tr s l s' X IH St]; intros Q.
  - intros C. discriminate.
  - assert (Q' : na = true \/ n = 1 \/ no_wait tr).
    { destruct Q as [Q|[Q|Q]]; auto. right; right. intros i Hi. apply (Q i). apply in_or_app; auto. }
    eapply step_awake; eauto.
    + eapply exec_inv; eauto.
    + eapply exec_no_thief; eauto.
Qed.

Lemma stuck_done lk na n tr s : exec lk na n tr s -> na = true \/ n = 1 \/ no_wait tr -> stuck lk na s ->
  (q_c s = CSleep /\ q_tasks s = [] /\ q_stop s = false \/ q_c s = CExit) /\
  (forall i, doing i tr = None \/ (doing i tr = Some InWaitAll /\ nth_error (q_k s) i = Some WSleep)).
Proof.
  intros X Q ST. pose proof (exec_inv _ _ _ _ _ X) as I.
  destruct (stuck_shape _ _ _ I ST) as [C K].
  assert (C' : q_c s = CSleep /\ q_tasks s = [] /\ q_stop s = false \/ q_c s = CExit).
  { destruct C as [C|C]; auto. left. split; auto.
    assert (NN : ~ (q_tasks s <> [] \/ q_stop s = true)).
    { intro W. destruct (exec_awake _ _ _ _ _ X Q C W) as (i & k & Hi & Nk).
      destruct (K _ _ Hi) as [->|[->|[-> _]]]; discriminate. }
    destruct (q_tasks s); [|exfalso; apply NN; left; discriminate].
    destruct (q_stop s); [exfalso; apply NN; auto|]. auto. }
  split; auto.
  intro i. rewrite (exec_doing _ _ _ _ _ X i). destruct (nth_error (q_k s) i) as [k|] eqn:Hi; auto.
  destruct (K _ _ Hi) as [->|[->|[-> NE]]]; auto.
  destruct C' as [[C1 [_ C2]]|C1]; [|congruence].
  exfalso.
  (* a joining destructor has set the stop flag *)
  assert (SJ : forall tr s, exec lk na n tr s -> forall i, nth_error (q_k s) i = Some DJoin \/ nth_error (q_k s) i = Some DNotify \/ nth_error (q_k s) i = Some DSet -> q_stop s = true).
  { clear. induction 1 as [|tr s l s' X IH St]; intros i H.
    - exfalso. destruct H as [H|[H|H]]; apply nth_error_In, repeat_spec in H; discriminate.
    - assert (MONO : q_stop s = true -> q_stop s' = true).
      { intro Z. clear - St Z. step_cases St; cbn; auto; apply notify_wakes in H0; rewrite (wk_s _ _ H0); exact Z. }
      assert (Z : q_stop s' = true \/ (nth_error (q_k s) i = Some DJoin \/ nth_error (q_k s) i = Some DNotify \/ nth_error (q_k s) i = Some DSet)).
      { clear - St H. rename H into HH. assert (NW : forall s1 s2, wakes s1 s2 -> forall k, k <> WLock -> nth_error (q_k s2) i = Some k -> nth_error (q_k s1) i = Some k).
        { intros s1 s2 W k Hk E. destruct (wk_k _ _ W i) as [<-|[E1 E2]]; auto. congruence. }
        step_cases St; cbn in *; auto;
         try (rewrite (nth_error_upd _ _ _ _ _ H) in HH; destruct (Nat.eqb_spec i' i) as [->|]; auto;
              destruct HH as [HH|[HH|HH]]; first [discriminate HH | (injection HH; intros; subst; auto)]; fail).
        all: match goal with N : notify _ _ _ |- _ => apply notify_wakes in N; rename N into WW end.
        all: right; destruct HH as [HH|[HH|HH]]; apply (NW _ _ WW) in HH; try discriminate; cbn in HH; auto.
        all: rewrite (nth_error_upd _ _ _ _ _ H) in HH; destruct (Nat.eqb_spec i' i) as [->|]; auto; try discriminate. }
      destruct Z as [Z|Z]; auto. apply MONO. eapply IH; eauto. }
  rewrite (SJ _ _ X i) in C2; [discriminate|auto].
Qed.

Lemma exec_all_run lk na n tr s tr1 tr2 t : exec lk na n tr s -> na = true \/ n = 1 \/ no_wait tr -> stuck lk na s ->
  tr = tr1 ++ tr2 -> no_dtor tr1 -> enq_returned t tr1 -> In t (finished tr).
Proof.
  intros X Q ST E ND R. destruct (stuck_done _ _ _ _ _ X Q ST) as [[(C & Z & _)|C] _].
  - pose proof (exec_finished _ _ _ _ _ X) as F.
    assert (I : In t (hist tr s)).
    { destruct R as (j & R). eapply exec_pushed; eauto. rewrite E. apply in_or_app; eauto. }
    unfold hist in I. rewrite C, Z, F, C in I. cbn in I. rewrite !app_nil_r in I. exact I.
  - eapply exec_exit_finished; eauto.
Qed.

(** ** The variant that clears the flag under the mutex and notifies everybody *)
Definition sleepers_ok (s : tq) : Prop :=
  (forall i, nth_error (q_k s) i = Some WBlock -> q_run s = true \/ q_tasks s <> []) /\
  (forall i, nth_error (q_k s) i = Some WSleep ->
     q_run s = true \/ q_tasks s <> [] \/ (exists t, q_c s = CPop t) \/ q_c s = CNotify).

Lemma step_sleepers s l s' : inv s -> sleepers_ok s -> step true true s l s' -> sleepers_ok s'.
Proof.
  intros I [A B] St.
  assert (HOLD : forall i k, nth_error (q_k s) i = Some k -> holds_k k = true -> q_mtx s = Some (Client i))
    by (intros; apply (i_mk _ I); eauto).
  assert (CH : holds_c (q_c s) = true -> q_mtx s = Some Consumer) by (apply (i_mc _ I)).
  assert (NW : forall s1, forall j k, nth_error (q_k (wake_all s1)) j = Some k -> k <> WSleep).
  { intros s1 j k H. cbn in H. rewrite nth_error_map in H. destruct (nth_error (q_k s1) j) as [k0|]; [|discriminate].
    cbn in H. injection H as <-. destruct k0; discriminate. }
  assert (NB : forall s1, forall j, nth_error (q_k (wake_all s1)) j = Some WBlock -> nth_error (q_k s1) j = Some WBlock).
  { intros s1 j H. cbn in H. rewrite nth_error_map in H. destruct (nth_error (q_k s1) j) as [k0|]; [|discriminate].
    cbn in H. injection H as H. destruct k0; try discriminate; auto. }
  assert (UPD : forall i k a j k', nth_error (q_k s) i = Some k -> nth_error (upd (q_k s) i a) j = Some k' ->
     (i = j /\ k' = a) \/ nth_error (q_k s) j = Some k').
  { intros i k a j k' H G. rewrite (nth_error_upd _ _ _ _ _ H) in G. destruct (Nat.eqb_spec i j); auto. injection G as <-. auto. }
  unfold sleepers_ok.
  step_cases St; cbn;
   try (split; [intros j Hj; apply A in Hj; exact Hj|intros j Hj; apply B in Hj; rewrite H in Hj; decompose [or ex] Hj; try discriminate; auto]; fail);
   try (split; intros j Hj; destruct (UPD _ _ _ _ _ H Hj) as [[_ Z]|Z]; try discriminate; [apply A in Z|apply B in Z]; auto; fail).
  - (* c_pop *) split.
    + intros j Hj. exfalso. assert (M := HOLD _ _ Hj eq_refl). rewrite CH in M; [discriminate|]. rewrite H. reflexivity.
    + intros j Hj. right; right; left; eauto.
  - (* c_flag *) split; auto.
  - (* c_clear *) split.
    + intros j Hj. exfalso. assert (M := HOLD _ _ Hj eq_refl). rewrite H0 in M by reflexivity. discriminate.
    + intros j Hj. auto.
  - inversion H0; subst; try discriminate. split.
    + intros j Hj. apply NB in Hj. apply A in Hj. exact Hj.
    + intros j Hj. exfalso. eapply NW; eauto.
  - (* push *) split; intros j Hj.
    + right. destruct (q_tasks s); discriminate.
    + right; left. destruct (q_tasks s); discriminate.
  - inversion H0; subst; try discriminate. split.
    + intros j Hj. apply NB in Hj. cbn in Hj. destruct (UPD _ _ _ _ _ H Hj) as [[_ Z]|Z]; [discriminate|]. apply A in Z; exact Z.
    + intros j Hj. exfalso. eapply NW; eauto.
  - split; intros j Hj; destruct (UPD _ _ _ _ _ H Hj) as [[_ Z]|Z]; try discriminate; auto;
      first [apply A in Z; auto; fail | apply B in Z; auto; fail | idtac].
  - split; intros j Hj; destruct (UPD _ _ _ _ _ H Hj) as [[_ Z]|Z]; try discriminate; auto;
      first [apply A in Z; auto; fail | apply B in Z; auto; fail | idtac].
  - (* wblock *) split; intros j Hj; destruct (UPD _ _ _ _ _ H Hj) as [[_ Z]|Z]; try discriminate.
    + apply A in Z; auto.
    + destruct (A _ H); auto.
    + apply B in Z; auto.
  - inversion H0; subst; try discriminate. split.
    + intros j Hj. apply NB in Hj. cbn in Hj. destruct (UPD _ _ _ _ _ H Hj) as [[_ Z]|Z]; [discriminate|]. apply A in Z; exact Z.
    + intros j Hj. exfalso. eapply NW; eauto.
Qed.

Lemma exec_sleepers n tr s : exec true true n tr s -> sleepers_ok s.
Proof.
  induction 1 as [|tr s l s' X IH St].
  - split; intros i H; apply nth_error_In, repeat_spec in H; discriminate.
  - eapply step_sleepers; eauto. eapply exec_inv; eauto.
Qed.

Lemma fixed_no_deadlock n tr s : exec true true n tr s -> no_dtor tr -> stuck true true s ->
  forall i, doing i tr = None.
Proof.
  intros X ND ST i. destruct (stuck_done _ _ _ _ _ X (or_introl eq_refl) ST) as [C D].
  destruct (D i) as [|[_ K]]; auto. exfalso.
  destruct (exec_no_dtor _ _ _ _ _ X ND) as (_ & _ & NE).
  destruct C as [(C & Q & _)|C]; [|contradiction].
  destruct (exec_sleepers _ _ _ X) as [_ B].
  pose proof (i_flag _ (exec_inv _ _ _ _ _ X)) as F. rewrite C in F. cbn in F.
  destruct (B _ K) as [Z|[Z|[(t & Z)|Z]]]; congruence.
Qed.

(** ** Termination *)
Definition wk_cost : nat := 4.
Definition kw (n : nat) (k : kpc) : nat :=
  let N := wk_cost * (n + 1) + 1 in
  match k with
  | Idle => 0
  | ELock _ => 2 * N + 12 | EHold _ => 2 * N + 11 | EPushed _ => N + 2 | ENotify _ => N + 1
  | WSleep => 0 | WBlock => 1 | WRet => 1 | WCheck2 => 2 | WCheck => 3 | WLock => 4
  | DLock => N + 6 | DHold => N + 5 | DSet => N + 4 | DNotify => N + 3 | DJoin => 1
  end.
Definition cw (n : nat) (c : cpc) : nat :=
  let N := wk_cost * (n + 1) + 1 in
  match c with
  | CSleep | CExit => 0 | CBlock => 1 | CCheck => 2 | CLock => 3
  | CNotify => N + 4 | CEnd _ => N + 5 | CRun _ => N + 6 | CStart _ => N + 7 | CPopped _ => N + 8 | CPop _ => N + 9
  end.
Fixpoint sumw (n : nat) (l : list kpc) : nat := match l with [] => 0 | k :: l' => kw n k + sumw n l' end.
Definition weight (s : tq) : nat :=
  let n := length (q_k s) in
  cw n (q_c s) + sumw n (q_k s) + length (q_tasks s) * (wk_cost * (n + 1) + 1 + 8).

Lemma sumw_upd n l i k a : nth_error l i = Some k -> sumw n (upd l i a) + kw n k = sumw n l + kw n a.
Proof.
  revert i. induction l as [|h l IH]; intros [|i] H; try discriminate; cbn in *.
  - injection H as ->. lia.
  - specialize (IH _ H). lia.
Qed.

Lemma sumw_wake n l : sumw n (map wake_k l) <= sumw n l + 4 * length l.
Proof. induction l as [|k l IH]; cbn; auto. destruct k; cbn in *; lia. Qed.

Lemma notify_weight na s s' : notify na s s' -> weight s' <= weight s + wk_cost * (length (q_k s) + 1).
Proof.
  intros N. destruct N as [E X Y|E X|j E X|E]; unfold weight, wk_cost; cbn [q_k q_c q_tasks set_c set_k wake_all].
  - lia.
  - rewrite X. cbn [cw]. lia.
  - rewrite upd_length. pose proof (sumw_upd (length (q_k s)) _ _ _ WLock X) as Q. cbn [kw] in Q. lia.
  - rewrite map_length. pose proof (sumw_wake (length (q_k s)) (q_k s)).
    assert (cw (length (q_k s)) (wake_c (q_c s)) <= cw (length (q_k s)) (q_c s) + 3) by (destruct (q_c s); cbn [cw wake_c]; lia).
    lia.
Qed.

Lemma progress_weight lk na s s' : progress lk na s s' -> weight s' < weight s.
Proof.
  intros (l & St & NC & NS).
  assert (KM : forall i k a, nth_error (q_k s) i = Some k -> sumw (length (q_k s)) (upd (q_k s) i a) + kw (length (q_k s)) k = sumw (length (q_k s)) (q_k s) + kw (length (q_k s)) a).
  { intros; apply sumw_upd; auto. }
  step_cases St; try discriminate; try congruence;
   try (unfold weight; cbn [q_k q_c q_tasks set_c set_k set_m set_q set_run set_stop]; rewrite ?upd_length, ?app_length;
        first [ match goal with |- context [upd (q_k s) ?j ?a] => pose proof (KM j _ a H) as Q; cbn [kw] in Q end | idtac ];
        rewrite ?H, ?H0; cbn [cw length]; unfold wk_cost in *; lia).
  - apply notify_weight in H0. cbn [set_c q_k] in H0.
    assert (weight (set_c s CLock) + (wk_cost * (length (q_k s) + 1) + 2) = weight s).
    { unfold weight. cbn [q_k q_c q_tasks set_c]. rewrite H. cbn [cw]. lia. }
    lia.
  - apply notify_weight in H0. cbn [set_k q_k] in H0. rewrite upd_length in H0.
    assert (weight (set_k s i' Idle) + (wk_cost * (length (q_k s) + 1) + 2) = weight s).
    { unfold weight. cbn [q_k q_c q_tasks set_k]. rewrite upd_length. pose proof (KM _ _ Idle H) as Q. cbn [kw] in Q. lia. }
    lia.
  - apply notify_weight in H0. cbn [set_k q_k] in H0. rewrite upd_length in H0.
    assert (weight (set_k s i' DJoin) + (wk_cost * (length (q_k s) + 1) + 3) = weight s).
    { unfold weight. cbn [q_k q_c q_tasks set_k]. rewrite upd_length. pose proof (KM _ _ DJoin H) as Q. cbn [kw] in Q. lia. }
    lia.
Qed.

Lemma progress_wf lk na s : Acc (fun s2 s1 => progress lk na s1 s2) s.
Proof.
  assert (W : well_founded (fun a b => weight a < weight b)) by (apply well_founded_ltof).
  induction (W s) as [s _ IH]. constructor. intros s' P. apply IH. eapply progress_weight; eauto.
Qed.
