(** Invariants of the task queue. *)
From Coq Require Import List Arith Bool Lia Permutation.
Import ListNotations.
From Verif Require Import Outcome BaseFacts TaskQueue SpecTaskQueue.

Lemma nth_error_upd {A} (l : list A) i j a k :
  nth_error l i = Some k -> nth_error (upd l i a) j = if Nat.eqb i j then Some a else nth_error l j.
Proof.
  intro H. destruct (Nat.eqb_spec i j) as [->|N].
  - apply nth_error_upd_eq. apply nth_error_Some. congruence.
  - apply nth_error_upd_neq; auto.
Qed.

(** What a notification may change. *)
Record wakes (s s' : tq) : Prop := mk_wakes {
  wk_q : q_tasks s' = q_tasks s;
  wk_r : q_run s' = q_run s;
  wk_s : q_stop s' = q_stop s;
  wk_m : q_mtx s' = q_mtx s;
  wk_c : q_c s' = q_c s \/ (q_c s = CSleep /\ q_c s' = CLock);
  wk_k : forall i, nth_error (q_k s') i = nth_error (q_k s) i \/
                   (nth_error (q_k s) i = Some WSleep /\ nth_error (q_k s') i = Some WLock);
  wk_l : length (q_k s') = length (q_k s)
}.

Lemma notify_wakes na s s' : notify na s s' -> wakes s s'.
Proof.
  intros [E C K|E C|i E K|E]; constructor; cbn; auto.
  - intro j. rewrite (nth_error_upd _ _ _ _ _ K). destruct (Nat.eqb_spec i j); subst; auto.
  - apply upd_length.
  - unfold wake_c. destruct (q_c s); auto.
  - intro j. rewrite nth_error_map. destruct (nth_error (q_k s) j) as [k|]; cbn; auto.
    destruct k; cbn; auto.
  - apply map_length.
Qed.

(** Who holds the mutex. *)
Definition holds_c (c : cpc) : bool := match c with CCheck | CBlock | CPop _ | CPopped _ => true | _ => false end.
Definition holds_k (k : kpc) : bool :=
  match k with EHold _ | EPushed _ | WCheck | WCheck2 | WBlock | WRet | DHold | DSet => true | _ => false end.
Definition flag_c (c : cpc) : bool := match c with CPopped _ | CStart _ | CRun _ | CEnd _ => true | _ => false end.

Record inv (s : tq) : Prop := mk_inv {
  i_mc : holds_c (q_c s) = true <-> q_mtx s = Some Consumer;
  i_mk : forall i, q_mtx s = Some (Client i) <-> exists k, nth_error (q_k s) i = Some k /\ holds_k k = true;
  i_flag : q_run s = flag_c (q_c s);
  i_block : q_c s = CBlock -> q_tasks s = [] /\ q_stop s = false;
  i_chk2 : forall i, nth_error (q_k s) i = Some WCheck2 -> q_run s = false;
  i_ret : forall i, nth_error (q_k s) i = Some WRet -> q_run s = false /\ q_tasks s = []
}.

Lemma inv_init n : inv (tq_init n).
Proof.
  assert (R : forall i k, nth_error (repeat Idle n) i = Some k -> k = Idle).
  { intros i k H. apply nth_error_In, repeat_spec in H. exact H. }
  constructor; cbn.
  - split; discriminate.
  - intro i; split; [discriminate|]. intros (k & H & E). rewrite (R _ _ H) in E. discriminate.
  - reflexivity.
  - discriminate.
  - intros i H. apply R in H. discriminate.
  - intros i H. apply R in H. discriminate.
Qed.

Lemma inv_wakes s s' : inv s -> wakes s s' -> inv s'.
Proof.
  intros [A B C D E F] [Q R T M WC WK _].
  constructor; rewrite ?Q, ?R, ?T, ?M.
  - rewrite <- A. destruct WC as [->|[-> ->]]; cbn; tauto.
  - intro i. rewrite B. destruct (WK i) as [->|[-> ->]]; [tauto|].
    split; intros (k & H & G); injection H as <-; discriminate.
  - rewrite C. destruct WC as [->|[-> ->]]; reflexivity.
  - destruct WC as [Z|[Y Z]]; rewrite Z; auto; discriminate.
  - intro i. destruct (WK i) as [Z|[Y Z]]; rewrite Z; [apply E|discriminate].
  - intro i. destruct (WK i) as [Z|[Y Z]]; rewrite Z; [apply F|discriminate].
Qed.

(** Local moves that preserve the invariant. *)
Lemma inv_step lk na s l s' : inv s -> step lk na s l s' -> inv s'.
Proof.
  intros I St.
  pose proof I as [A B C D E F].
  assert (NB : forall i k, nth_error (q_k s) i = Some k -> holds_k k = true -> q_mtx s = Some (Client i))
    by (intros i k H G; apply B; eauto).
  assert (UK : forall i k a (P : tq -> Prop),
     nth_error (q_k s) i = Some k -> (forall j, nth_error (upd (q_k s) i a) j = if Nat.eqb i j then Some a else nth_error (q_k s) j)).
  { intros i k a P H j. eapply nth_error_upd; eauto. }
  assert (KMOVE : forall i k a s1,
     nth_error (q_k s) i = Some k ->
     holds_k a = holds_k k -> a <> WCheck2 -> a <> WRet ->
     s1 = set_k s i a -> inv s1).
  { intros i k a s1 H Hh N1 N2 ->. constructor; cbn; auto.
    - intro j. rewrite B. rewrite (nth_error_upd _ _ _ _ _ H).
      destruct (Nat.eqb_spec i j) as [->|N]; [|tauto].
      split; intros (k0 & G & G2).
      + exists a. split; auto. rewrite H in G. injection G as <-. congruence.
      + injection G as <-. exists k. split; auto. congruence.
    - intro j. rewrite (nth_error_upd _ _ _ _ _ H). destruct (Nat.eqb_spec i j); [congruence|apply E].
    - intro j. rewrite (nth_error_upd _ _ _ _ _ H). destruct (Nat.eqb_spec i j); [congruence|apply F]. }
  assert (KACQ : forall i k a, nth_error (q_k s) i = Some k -> holds_k k = false -> q_mtx s = None ->
     holds_k a = true -> a <> WCheck2 -> a <> WRet -> inv (set_k (set_m s (Some (Client i))) i a)).
  { intros i k a H Hk M Ha N1 N2. constructor; cbn; auto.
    - rewrite A, M. split; discriminate.
    - intro j. rewrite (nth_error_upd _ _ _ _ _ H). destruct (Nat.eqb_spec i j) as [->|N].
      + split; [intros _; eauto|reflexivity].
      + split; [congruence|]. intros (k0 & G & G2). rewrite (NB _ _ G G2) in M. discriminate.
    - intro j. rewrite (nth_error_upd _ _ _ _ _ H). destruct (Nat.eqb_spec i j); [congruence|apply E].
    - intro j. rewrite (nth_error_upd _ _ _ _ _ H). destruct (Nat.eqb_spec i j); [congruence|apply F]. }
  assert (KREL : forall i k a, nth_error (q_k s) i = Some k -> holds_k k = true ->
     holds_k a = false -> inv (set_k (set_m s None) i a)).
  { intros i k a H Hk Ha.
    assert (M := NB _ _ H Hk). constructor; cbn; auto.
    - rewrite A, M. split; discriminate.
    - intro j. rewrite (nth_error_upd _ _ _ _ _ H). destruct (Nat.eqb_spec i j) as [->|N].
      + split; [discriminate|]. intros (k0 & G & G2). injection G as <-. congruence.
      + split; [discriminate|]. intros (k0 & G & G2). rewrite (NB _ _ G G2) in M. congruence.
    - intro j. rewrite (nth_error_upd _ _ _ _ _ H). destruct (Nat.eqb_spec i j); [|apply E].
      intro G; injection G as ->; discriminate.
    - intro j. rewrite (nth_error_upd _ _ _ _ _ H). destruct (Nat.eqb_spec i j); [|apply F].
      intro G; injection G as ->; discriminate. }
  assert (CMOVE : forall c, holds_c c = holds_c (q_c s) -> flag_c c = flag_c (q_c s) -> c <> CBlock -> inv (set_c s c)).
  { intros c H G N. constructor; cbn; auto; try congruence; try (rewrite H; exact A). }
  assert (MC : holds_c (q_c s) = true -> q_mtx s = Some Consumer) by (apply A).
  assert (CREL : forall c, holds_c (q_c s) = true -> holds_c c = false -> flag_c c = flag_c (q_c s) -> inv (set_c (set_m s None) c)).
  { intros c H1 H2 H3. specialize (MC H1). constructor; cbn; auto; try congruence.
    - rewrite H2. split; discriminate.
    - intro i. split; [discriminate|]. intros (k & G & G2). rewrite (NB _ _ G G2) in MC. discriminate.
    - intros ->. discriminate. }
  assert (NOC : forall i k, holds_c (q_c s) = true -> nth_error (q_k s) i = Some k -> holds_k k = true -> False).
  { intros i k H1 G1 G2. rewrite (NB _ _ G1 G2) in MC. specialize (MC H1). discriminate. }
  destruct St as [H M|H H0 H1|H|H|H H0 H1|t q H H0|t H|t H|t H|t H|t H H0|s' H H0
    |i t H|i t H M|i t H|i t H|i t s' H H0
    |i H|i H M|i H H0|i H H0|i H H0|i H H0|i H|i H|i H
    |i H|i H M|i H|i H|i s' H H0|i H H0].
  - (* c_lock *) constructor; cbn; auto.
    + tauto.
    + intro i. split; [discriminate|]. intros (k & G & G2). rewrite (NB _ _ G G2) in M. discriminate.
    + rewrite C, H. reflexivity.
    + discriminate.
  - constructor; cbn; auto.
    + rewrite H in A. exact A.
    + rewrite C, H. reflexivity.
  - apply CREL; rewrite ?H; reflexivity.
  - apply CMOVE; rewrite ?H; try reflexivity; discriminate.
  - apply CREL; rewrite ?H; reflexivity.
  - (* c_pop *) assert (HC : holds_c (q_c s) = true) by (rewrite H; reflexivity).
    constructor; cbn; auto.
    + rewrite H in A. exact A.
    + rewrite C, H. reflexivity.
    + discriminate.
    + intros i G. exfalso. eapply NOC; eauto.
  - assert (HC : holds_c (q_c s) = true) by (rewrite H; reflexivity).
    constructor; cbn; auto.
    + rewrite H in A. exact A.
    + discriminate.
    + intros i G. exfalso. eapply NOC; eauto.
    + intros i G. exfalso. eapply NOC; eauto.
  - apply CREL; rewrite ?H; reflexivity.
  - apply CMOVE; rewrite ?H; try reflexivity; discriminate.
  - apply CMOVE; rewrite ?H; try reflexivity; discriminate.
  - constructor; cbn; auto.
    + rewrite H in A. exact A.
    + discriminate.
    + intros i G. destruct (F _ G). auto.
  - eapply inv_wakes; [|eapply notify_wakes; eauto].
    apply CMOVE; rewrite ?H; try reflexivity; discriminate.
  - refine (KMOVE i _ _ _ H _ _ _ eq_refl); try discriminate; reflexivity.
  - refine (KACQ i _ _ H _ M _ _ _); try discriminate; reflexivity.
  - (* k_push *) assert (M := NB _ _ H eq_refl).
    constructor; cbn; auto.
    + intro j. rewrite B. rewrite (nth_error_upd _ _ _ _ _ H). destruct (Nat.eqb_spec i j) as [->|N]; [|tauto].
      split; intros _; eauto.
    + intro G. assert (q_mtx s = Some Consumer) by (apply A; rewrite G; reflexivity). congruence.
    + intro j. rewrite (nth_error_upd _ _ _ _ _ H). destruct (Nat.eqb_spec i j); [discriminate|apply E].
    + intro j. rewrite (nth_error_upd _ _ _ _ _ H). destruct (Nat.eqb_spec i j); [discriminate|].
      intro G. assert (M2 := NB _ _ G eq_refl). congruence.
  - refine (KREL i _ _ H _ _); reflexivity.
  - eapply inv_wakes; [|eapply notify_wakes; eauto]. refine (KMOVE i _ _ _ H _ _ _ eq_refl); try discriminate; reflexivity.
  - refine (KMOVE i _ _ _ H _ _ _ eq_refl); try discriminate; reflexivity.
  - refine (KACQ i _ _ H _ M _ _ _); try discriminate; reflexivity.
  - refine (KMOVE i _ _ _ H _ _ _ eq_refl); try discriminate; reflexivity.
  - (* WCheck2 *) constructor; cbn; auto.
    + intro j. rewrite B. rewrite (nth_error_upd _ _ _ _ _ H). destruct (Nat.eqb_spec i j) as [->|N]; [|tauto].
      split; intros _; eauto.
    + intro j. rewrite (nth_error_upd _ _ _ _ _ H). destruct (Nat.eqb_spec i j); [discriminate|apply F].
  - refine (KMOVE i _ _ _ H _ _ _ eq_refl); try discriminate; reflexivity.
  - (* WRet *) constructor; cbn; auto.
    + intro j. rewrite B. rewrite (nth_error_upd _ _ _ _ _ H). destruct (Nat.eqb_spec i j) as [->|N]; [|tauto].
      split; intros _; eauto.
    + intro j. rewrite (nth_error_upd _ _ _ _ _ H). destruct (Nat.eqb_spec i j); [discriminate|apply E].
    + intro j. rewrite (nth_error_upd _ _ _ _ _ H). destruct (Nat.eqb_spec i j); [|apply F].
      intros _. split; eauto.
  - refine (KREL i _ _ H _ _); reflexivity.
  - refine (KMOVE i _ _ _ H _ _ _ eq_refl); try discriminate; reflexivity.
  - refine (KREL i _ _ H _ _); reflexivity.
  - refine (KMOVE i _ _ _ H _ _ _ eq_refl); try discriminate; reflexivity.
  - refine (KACQ i _ _ H _ M _ _ _); try discriminate; reflexivity.
  - (* k_dset *) assert (M := NB _ _ H eq_refl).
    constructor; cbn; auto.
    + intro j. rewrite B. rewrite (nth_error_upd _ _ _ _ _ H). destruct (Nat.eqb_spec i j) as [->|N]; [|tauto].
      split; intros _; eauto.
    + intro G. assert (q_mtx s = Some Consumer) by (apply A; rewrite G; reflexivity). congruence.
    + intro j. rewrite (nth_error_upd _ _ _ _ _ H). destruct (Nat.eqb_spec i j); [discriminate|apply E].
    + intro j. rewrite (nth_error_upd _ _ _ _ _ H). destruct (Nat.eqb_spec i j); [discriminate|apply F].
  - refine (KREL i _ _ H _ _); reflexivity.
  - eapply inv_wakes; [|eapply notify_wakes; eauto]. refine (KMOVE i _ _ _ H _ _ _ eq_refl); try discriminate; reflexivity.
  - refine (KMOVE i _ _ _ H _ _ _ eq_refl); try discriminate; reflexivity.
Qed.

Lemma exec_inv lk na n tr s : exec lk na n tr s -> inv s.
Proof. induction 1; [apply inv_init|eapply inv_step; eauto]. Qed.

(** Several steps. *)
Inductive steps (lk na : bool) : tq -> list event -> tq -> Prop :=
| steps_nil s : steps lk na s [] s
| steps_snoc s tr s1 l s2 : steps lk na s tr s1 -> step lk na s1 l s2 -> steps lk na s (tr ++ ev_of l) s2.

Lemma exec_split lk na n tr s : exec lk na n tr s ->
  forall tr1 tr2, tr = tr1 ++ tr2 -> exists s1, exec lk na n tr1 s1 /\ steps lk na s1 tr2 s.
Proof.
  induction 1 as [|tr s l s' X IH St]; intros tr1 tr2 E.
  - symmetry in E. apply app_eq_nil in E. destruct E as [-> ->]. eexists; split; constructor.
  - destruct (ev_of l) as [|e [|e' r]] eqn:L.
    + rewrite app_nil_r in E. destruct (IH _ _ E) as (s1 & X1 & S1). exists s1. split; auto.
      rewrite <- (app_nil_r tr2). rewrite <- L. econstructor; eauto.
    + destruct tr2 as [|x tr2] using rev_ind.
      * rewrite app_nil_r in E. subst tr1. exists s'. split; [|constructor].
        rewrite <- L. econstructor; eauto.
      * clear IHtr2. rewrite app_assoc in E. apply app_inj_tail in E. destruct E as [E <-].
        destruct (IH _ _ E) as (s1 & X1 & S1). exists s1. split; auto.
        rewrite <- L. econstructor; eauto.
    + destruct l; discriminate.
Qed.

Lemma steps_cons lk na s l s1 tr s2 : step lk na s l s1 -> steps lk na s1 tr s2 -> steps lk na s (ev_of l ++ tr) s2.
Proof.
  intros A B. induction B as [s0|s0 tr s1 l' s2 B IH C].
  - rewrite app_nil_r. change (ev_of l) with ([] ++ ev_of l). econstructor; [constructor|eauto].
  - rewrite app_assoc. econstructor; [apply IH; exact A|exact C].
Qed.

Lemma exec_steps lk na n tr s tr' s' : exec lk na n tr s -> steps lk na s tr' s' -> exec lk na n (tr ++ tr') s'.
Proof.
  intros A B. induction B as [s0|s0 tr1 s1 l s2 B IH C]; [rewrite app_nil_r; auto|].
  rewrite app_assoc. econstructor; [apply IH; exact A|exact C].
Qed.

(** Traces. *)
Lemma called_app a b : called (a ++ b) = called a ++ called b.
Proof. induction a as [|e a IH]; auto. destruct e; cbn; rewrite ?IH; auto. Qed.
Lemma started_app a b : started (a ++ b) = started a ++ started b.
Proof. induction a as [|e a IH]; auto. destruct e; cbn; rewrite ?IH; auto. Qed.
Lemma finished_app a b : finished (a ++ b) = finished a ++ finished b.
Proof. induction a as [|e a IH]; auto. destruct e; cbn; rewrite ?IH; auto. Qed.

(** The submission order: tasks already started, then the one taken off the
    queue, then the queue. *)
Definition pend (c : cpc) : list task := match c with CPop t | CPopped t | CStart t => [t] | _ => [] end.
Definition runc (c : cpc) : list task := match c with CRun t => [t] | _ => [] end.
Definition hist (tr : list event) (s : tq) : list task := started tr ++ pend (q_c s) ++ q_tasks s.

Lemma wakes_pend s s' : wakes s s' -> pend (q_c s') = pend (q_c s).
Proof. intros W. destruct (wk_c _ _ W) as [->|[-> ->]]; reflexivity. Qed.
Lemma wakes_runc s s' : wakes s s' -> runc (q_c s') = runc (q_c s).
Proof. intros W. destruct (wk_c _ _ W) as [->|[-> ->]]; reflexivity. Qed.

(** Submitted but not yet pushed. *)
Definition prek (k : kpc) : list task := match k with ELock t | EHold t => [t] | _ => [] end.

Lemma flat_upd_perm {A B} (f : A -> list B) l i k a :
  nth_error l i = Some k -> Permutation (f k ++ flat_map f (upd l i a)) (f a ++ flat_map f l).
Proof.
  revert i. induction l as [|h l IH]; intros [|i] H; try discriminate; cbn in *.
  - injection H as ->. apply Permutation_app_swap_app.
  - etransitivity; [apply Permutation_app_swap_app|]. etransitivity; [apply Permutation_app_head, IH; eauto|].
    apply Permutation_app_swap_app.
Qed.

Lemma flat_upd_same {A B} (f : A -> list B) l i k a :
  nth_error l i = Some k -> f a = f k -> flat_map f (upd l i a) = flat_map f l.
Proof.
  revert i. induction l as [|h l IH]; intros [|i] H E; try discriminate; cbn in *.
  - injection H as ->. now rewrite E.
  - erewrite IH; eauto.
Qed.

Lemma notify_prek na s s' : notify na s s' -> flat_map prek (q_k s') = flat_map prek (q_k s).
Proof.
  intros [E C K|E C|i E K|E]; cbn; auto.
  - eapply flat_upd_same; eauto.
  - induction (q_k s) as [|k l IH]; auto. cbn. rewrite IH. destruct k; reflexivity.
Qed.

(** A step leaves the submission order alone, or adds one task to it. *)
Lemma step_kind lk na s l s' tr : step lk na s l s' ->
  (hist (tr ++ ev_of l) s' = hist tr s /\
     ((called (ev_of l) = [] /\ flat_map prek (q_k s') = flat_map prek (q_k s)) \/
      (exists i t, l = Ev (EnqCall i t) /\ Permutation (flat_map prek (q_k s')) (t :: flat_map prek (q_k s))))) \/
  (exists t, l = Tau /\ hist (tr ++ ev_of l) s' = hist tr s ++ [t] /\
      Permutation (t :: flat_map prek (q_k s')) (flat_map prek (q_k s))).
Proof.
  intros St. unfold hist. rewrite started_app.
  destruct St as [H M|H H0 H1|H|H|H H0 H1|t q H H0|t H|t H|t H|t H|t H H0|s' H H0
    |i t H|i t H M|i t H|i t H|i t s' H H0
    |i H|i H M|i H H0|i H H0|i H H0|i H H0|i H|i H|i H
    |i H|i H M|i H|i H|i s' H H0|i H H0]; cbn [ev_of started]; rewrite ?app_nil_r;
   try (left; split; [cbn; rewrite ?H, ?H0, ?H1; cbn; rewrite <- ?app_assoc; reflexivity|];
        left; split; [reflexivity|]; cbn; first [reflexivity | eapply flat_upd_same; eauto]; fail).
  - left. pose proof (notify_prek _ _ _ H0). apply notify_wakes in H0. split; [|left; split; auto].
    rewrite (wakes_pend _ _ H0), (wk_q _ _ H0). cbn. rewrite H. reflexivity.
  - left. split; [reflexivity|]. right. exists i, t. split; [reflexivity|]. cbn.
    exact (flat_upd_perm prek _ _ _ (ELock t) H).
  - right. exists t. cbn. split; [reflexivity|]. split; [now rewrite <- !app_assoc|].
    exact (flat_upd_perm prek _ _ _ (EPushed t) H).
  - left. pose proof (notify_prek _ _ _ H0) as PK. apply notify_wakes in H0. split; [|left; split; auto].
    + rewrite (wakes_pend _ _ H0), (wk_q _ _ H0). cbn. reflexivity.
    + rewrite PK. cbn. eapply flat_upd_same; eauto.
  - left. pose proof (notify_prek _ _ _ H0) as PK. apply notify_wakes in H0. split; [|left; split; auto].
    + rewrite (wakes_pend _ _ H0), (wk_q _ _ H0). cbn. reflexivity.
    + rewrite PK. cbn. eapply flat_upd_same; eauto.
Qed.

Lemma steps_hist lk na s tr2 s' : steps lk na s tr2 s' -> forall tr1, exists x, hist (tr1 ++ tr2) s' = hist tr1 s ++ x.
Proof.
  induction 1 as [s0|s0 tr s1 l s2 B IH C]; intro tr1.
  - exists []. rewrite !app_nil_r. reflexivity.
  - rewrite app_assoc. destruct (IH tr1) as (x & E).
    destruct (step_kind _ _ _ _ _ (tr1 ++ tr) C) as [[-> _]|(t & _ & -> & _)]; [eauto|].
    rewrite E. exists (x ++ [t]). now rewrite app_assoc.
Qed.

Lemma step_finished lk na s l s' tr : step lk na s l s' ->
  started tr = finished tr ++ runc (q_c s) -> 
  started (tr ++ ev_of l) = finished (tr ++ ev_of l) ++ runc (q_c s').
Proof.
  intros St. rewrite started_app, finished_app.
  destruct St as [H M|H H0 H1|H|H|H H0 H1|t q H H0|t H|t H|t H|t H|t H H0|s' H H0
    |i t H|i t H M|i t H|i t H|i t s' H H0
    |i H|i H M|i H H0|i H H0|i H H0|i H H0|i H|i H|i H
    |i H|i H M|i H|i H|i s' H H0|i H H0]; cbn [ev_of started finished]; rewrite ?app_nil_r; intros E;
    try (cbn; rewrite ?H in E; cbn in E; rewrite ?app_nil_r in *; auto; fail).
  - cbn. rewrite H in E. cbn in E. rewrite app_nil_r in E. rewrite E. reflexivity.
  - apply notify_wakes in H0. rewrite (wakes_runc _ _ H0). cbn. rewrite H in E. exact E.
  - apply notify_wakes in H0. rewrite (wakes_runc _ _ H0). cbn. exact E.
  - apply notify_wakes in H0. rewrite (wakes_runc _ _ H0). cbn. exact E.
Qed.

Lemma exec_finished lk na n tr s : exec lk na n tr s -> started tr = finished tr ++ runc (q_c s).
Proof. induction 1; [reflexivity|eapply step_finished; eauto]. Qed.


Lemma flat_prek_repeat n : flat_map prek (repeat Idle n) = [].
Proof. induction n; auto. Qed.

Lemma exec_called lk na n tr s : exec lk na n tr s -> Permutation (called tr) (hist tr s ++ flat_map prek (q_k s)).
Proof.
  induction 1 as [|tr s l s' X P St].
  - cbn. rewrite flat_prek_repeat. constructor.
  - rewrite called_app. destruct (step_kind _ _ _ _ _ tr St) as [[-> [[-> ->]|(i & t & -> & Q)]]|(t & -> & -> & Q)].
    + now rewrite app_nil_r.
    + cbn. rewrite <- Permutation_cons_append, Q, P. apply Permutation_middle.
    + cbn. rewrite app_nil_r, P, <- Q. rewrite <- app_assoc. reflexivity.
Qed.

(** A returned [enqueue] has put its task into the order. *)
Definition postk (k : kpc) : list task := match k with EPushed t | ENotify t => [t] | _ => [] end.

Lemma step_client_enq lk na s l s' i t : step lk na s l s' -> 
  (nth_error (q_k s') i = Some (ENotify t) -> nth_error (q_k s) i = Some (ENotify t) \/ nth_error (q_k s) i = Some (EPushed t)) /\
  (l = Ev (EnqRet i t) -> nth_error (q_k s) i = Some (ENotify t)).
Proof.
  intros St.
  destruct St as [H M|H H0 H1|H|H|H H0 H1|t' q H H0|t' H|t' H|t' H|t' H|t' H H0|s' H H0
    |i' t' H|i' t' H M|i' t' H|i' t' H|i' t' s' H H0
    |i' H|i' H M|i' H H0|i' H H0|i' H H0|i' H H0|i' H|i' H|i' H
    |i' H|i' H M|i' H|i' H|i' s' H H0|i' H H0]; (split; [|intro Q; first [discriminate | injection Q as -> ->; auto]]);
    cbn; auto;
   try (rewrite (nth_error_upd _ _ _ _ _ H); destruct (Nat.eqb_spec i' i) as [->|]; auto; intro Q; try discriminate; injection Q as <-; auto; fail).
  - apply notify_wakes in H0. destruct (wk_k _ _ H0 i) as [->|[E1 E2]]; cbn; auto. rewrite E2. discriminate.
  - apply notify_wakes in H0. destruct (wk_k _ _ H0 i) as [->|[E1 E2]]; cbn; [|rewrite E2; discriminate].
    rewrite (nth_error_upd _ _ _ _ _ H). destruct (Nat.eqb_spec i' i); auto. discriminate.
  - apply notify_wakes in H0. destruct (wk_k _ _ H0 i) as [->|[E1 E2]]; cbn; [|rewrite E2; discriminate].
    rewrite (nth_error_upd _ _ _ _ _ H). destruct (Nat.eqb_spec i' i); auto. discriminate.
Qed.

Lemma step_client_pushed lk na s l s' i t : step lk na s l s' -> nth_error (q_k s') i = Some (EPushed t) ->
  nth_error (q_k s) i = Some (EPushed t) \/ (nth_error (q_k s) i = Some (EHold t) /\ In t (q_tasks s')).
Proof.
  intros St.
  destruct St as [H M|H H0 H1|H|H|H H0 H1|t' q H H0|t' H|t' H|t' H|t' H|t' H H0|s' H H0
    |i' t' H|i' t' H M|i' t' H|i' t' H|i' t' s' H H0
    |i' H|i' H M|i' H H0|i' H H0|i' H H0|i' H H0|i' H|i' H|i' H
    |i' H|i' H M|i' H|i' H|i' s' H H0|i' H H0];
    cbn; auto;
   try (rewrite (nth_error_upd _ _ _ _ _ H); destruct (Nat.eqb_spec i' i) as [->|]; auto; intro Q; try discriminate; fail).
  - apply notify_wakes in H0. destruct (wk_k _ _ H0 i) as [->|[E1 E2]]; cbn; auto. rewrite E2. discriminate.
  - rewrite (nth_error_upd _ _ _ _ _ H). destruct (Nat.eqb_spec i' i) as [->|]; auto.
    intro Q. injection Q as <-. right. split; auto. apply in_or_app. right; left; auto.
  - apply notify_wakes in H0. destruct (wk_k _ _ H0 i) as [->|[E1 E2]]; cbn; [|rewrite E2; discriminate].
    rewrite (nth_error_upd _ _ _ _ _ H). destruct (Nat.eqb_spec i' i); auto. discriminate.
  - apply notify_wakes in H0. destruct (wk_k _ _ H0 i) as [->|[E1 E2]]; cbn; [|rewrite E2; discriminate].
    rewrite (nth_error_upd _ _ _ _ _ H). destruct (Nat.eqb_spec i' i); auto. discriminate.
Qed.

Lemma step_hist_in lk na s l s' tr t : step lk na s l s' -> In t (hist tr s) -> In t (hist (tr ++ ev_of l) s').
Proof.
  intros St Hin. destruct (step_kind _ _ _ _ _ tr St) as [[-> _]|(t' & _ & -> & _)]; auto. apply in_or_app; auto.
Qed.

Lemma exec_pushed lk na n tr s : exec lk na n tr s ->
  (forall i t, nth_error (q_k s) i = Some (ENotify t) -> In t (hist tr s)) /\
  (forall i t, nth_error (q_k s) i = Some (EPushed t) -> In t (hist tr s)) /\
  (forall i t, In (EnqRet i t) tr -> In t (hist tr s)).
Proof.
  induction 1 as [|tr s l s' X (A & B & C) St].
  - repeat split; cbn; try tauto; intros i t H; apply nth_error_In, repeat_spec in H; discriminate.
  - repeat split.
    + intros i t H. destruct (step_client_enq _ _ _ _ _ i t St) as [Q _]. apply (step_hist_in _ _ _ _ _ _ _ St).
      destruct (Q H); eauto.
    + intros i t H. destruct (step_client_pushed _ _ _ _ _ i t St H) as [Q|[_ Q]].
      * apply (step_hist_in _ _ _ _ _ _ _ St); eauto.
      * unfold hist. rewrite !in_app_iff. auto.
    + intros i t H. apply (step_hist_in _ _ _ _ _ _ _ St).
      apply in_app_or in H. destruct H as [H|H]; [eauto|].
      destruct l as [e| |]; cbn in H; try tauto. destruct H as [->|[]].
      destruct (step_client_enq _ _ _ _ _ i t St) as [_ Q]. eapply A. apply Q. reflexivity.
Qed.
