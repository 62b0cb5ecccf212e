(** fork_island: results, termination, the hang. *)
From Coq Require Import String List ZArith Lia Bool.
Import ListNotations.
From Verif Require Import ForkIsland SpecFork ForkFacts.
Local Open Scope nat_scope.
Local Arguments firstn : simpl never.
Local Arguments skipn : simpl never.

Section Facts.
Context {A P B : Type} (w : @world A P B) (a : A) (p : P) (AC : archive_contract w).
Lemma fork_result inh calls s : reachable w (init a p inh calls) s ->
  (st_parent s = PReturned -> evolves_to w a p (st_algo s) (st_pop s)) /\
  (forall e, st_parent s = PThrew e -> st_algo s = a /\ st_pop s = p) /\
  (finished s -> no_child_left s /\ st_pid s = false /\ st_wpar s = false /\ st_rpar s = false).
Proof.
  intros R. destruct (inv_reach w a p AC _ _ _ R) as [I _]. unfold pinv in I. split; [| split].
  - intros E. rewrite E in I. tauto.
  - intros e E. rewrite E in I. unfold same_isl in I. tauto.
  - intros [E | [e E]]; rewrite E in I; unfold fds, ended, no_child_left in *; [tauto |]. destruct e; unfold ended in *; tauto.
Qed.
Lemma fork_observed inh calls s : reachable w (init a p inh calls) s ->
  (st_algo s = a /\ st_pop s = p) \/ exists a' p', evolves_to w a p a' p' /\ st_algo s = a' /\ (st_pop s = p \/ st_pop s = p').
Proof.
  intros R. destruct (inv_reach w a p AC _ _ _ R) as [I _]. unfold pinv, same_isl in I. destruct (st_parent s); try tauto.
  - destruct I as [_ [_ [_ [E1 [E2 [[[a' [p' [G ->]]] | [x [_ [_ ->]]]] Z]]]]]]; [| discriminate Z]. right. exists a', p'. auto.
  - right. exists (st_algo s), (st_pop s). tauto.
Qed.
Lemma fork_child_error inh calls s what : reachable w (init a p inh calls) s -> st_parent s = PThrew (ChildError what) -> fails_with w a p what.
Proof. intros R E. destruct (inv_reach w a p AC _ _ _ R) as [I _]. unfold pinv in I. rewrite E in I. tauto. Qed.
Lemma fork_inherited inh calls s : reachable w (init a p inh calls) s -> st_parent s = PReturned \/ (exists what, st_parent s = PThrew (ChildError what)) -> st_inherited s = 0.
Proof. intros R [E | [x E]]; destruct (inv_reach w a p AC _ _ _ R) as [I _]; unfold pinv in I; rewrite E in I; tauto. Qed.
Lemma data_evolves a' p' : evolves_to w a p a' p' -> child_data w a p <> None.
Proof. intros [E [b S]]. unfold child_data. rewrite E, S. discriminate. Qed.
Lemma data_fails what : fails_with w a p what -> can_report w what -> child_data w a p <> None.
Proof.
  intros F [b S]. unfold child_data, child_error. destruct F as [-> | [[-> ->] | [a' [p' [-> [-> | [-> ->]]]]]]]; rewrite S; discriminate.
Qed.
Lemma fails_unique x y : fails_with w a p x -> fails_with w a p y -> x = y.
Proof. intros [E | [[E ->] | [a' [p' [E [S | [S ->]]]]]]] [F | [[F ->] | [b' [q' [F [T | [T ->]]]]]]]; rewrite E in F; try discriminate; try reflexivity; injection F; intros; subst; congruence. Qed.
Lemma evolves_not_fails a' p' x : evolves_to w a p a' p' -> fails_with w a p x -> False.
Proof. intros [E [b S]] [F | [[F ->] | [b' [q' [F [T | [T ->]]]]]]]; rewrite E in F; try discriminate; injection F; intros; subst; congruence. Qed.
Lemma fork_faultless inh calls s : reachable w (init a p inh calls) s -> finished s -> st_faults s = 0 ->
  (forall a' p', evolves_to w a p a' p' -> st_parent s = PReturned) /\
  (forall what, fails_with w a p what -> can_report w what -> st_parent s = PThrew (ChildError what)).
Proof.
  intros R F NF. destruct (inv_reach w a p AC _ _ _ R) as [I _]. unfold pinv in I. destruct F as [E | [e E]]; rewrite E in I |- *.
  - split; [auto |]. intros x FW _. exfalso. apply (evolves_not_fails (st_algo s) (st_pop s) x); tauto.
  - destruct e; unfold cause in I.
    + exfalso. tauto.
    + exfalso. tauto.
    + destruct I as [_ [_ [_ [_ Q]]]]. specialize (Q NF). split; [intros a' p' EV; now elim (data_evolves a' p' EV) | intros x FW CR; now elim (data_fails x FW CR)].
    + destruct I as [_ [_ [_ [_ [FW _]]]]]. split; [intros a' p' EV; now elim (evolves_not_fails a' p' what EV FW) | intros x FW' _; f_equal; f_equal; now apply fails_unique].
Qed.

(** every step decreases this *)
Definition total_bytes : nat := match child_data w a p with Some b => length b | None => 0 end.
Definition crank (c : @child B) : nat := match c with CNone => 2 * total_bytes + 9 | CLocks => 2 * total_bytes + 8 | CRun => 2 * total_bytes + 7 | CSend r => 2 * length r + 6 | CCloseW => 3 | CExit => 2 | CGone => 1 end.
Definition prank (x : @parent A P B) : nat := match x with PStart => 12 | PCloseW => 11 | PRead _ => 10 | PLoad _ => 9 | PCloseR _ => 8 | PWait _ => 7 | PCheck _ => 6 | PSetAlgo _ => 5 | PSetPop _ => 4 | PKill _ => 3 | PReap _ => 2 | _ => 0 end.
Definition measure (s : @state A P B) : nat := prank (st_parent s) + crank (st_child s) + length (st_pipe s) + st_inherited s + 2 * st_calls s + (if st_inside s then 1 else 0).
Lemma step_less s s' : pinv w a p s -> step w s s' -> measure s' < measure s.
Proof.
  intros I T. destruct s as [par chi pip wp rp inh calls ins clk pid rea ia ip flt]. destruct T; cbn [st_parent st_child st_pipe st_inherited st_clocked st_calls st_inside st_algo st_pop] in *; try subst par; try subst chi; unfold measure, leave; cbn [st_parent st_child st_pipe st_inherited st_calls st_inside set_parent set_child set_pipe set_ends set_inherited set_user set_clocked set_pid set_reaped set_isl set_fault prank crank].
  all: try lia.
  - unfold pinv in I. cbn in I. destruct I as [-> _]. cbn [crank]. lia.
  - rewrite skipn_length. lia.
  - destruct chi; cbn [crank]; lia.
  - assert (E : ia = a /\ ip = p). { unfold pinv, same_isl, over, ended, cause in I. cbn in I. destruct par; try tauto; try (destruct I as [[Q | Q] _]; discriminate); try (destruct I as [[Q _] _]; discriminate). }
    destruct E as [-> ->]. assert (total_bytes = length b) by (unfold total_bytes; now rewrite H0). lia.
  - rewrite app_length, skipn_length, firstn_length. lia.
  - rewrite app_length. lia.
  - destruct chi; cbn in *; try discriminate; lia.
  - subst. lia.
Qed.
Lemma fork_bounded inh calls : exists N, forall n s, steps w n (init a p inh calls) s -> n <= N.
Proof.
  exists (measure (init a p inh calls)). assert (G : forall n s0 s, steps w n s0 s -> s0 = init a p inh calls -> reachable w s0 s /\ n + measure s <= measure s0).
  { intros n s0 s H. induction H as [s | n s s' s'' H IH T]; intros E; [split; [constructor | lia] |]. destruct (IH E) as [R L]. split; [now apply r_step with s' |]. subst s. assert (measure s'' < measure s'); [| lia]. apply step_less; [apply (inv_reach w a p AC _ _ _ R) | exact T]. }
  intros n s H. destruct (G _ _ _ H eq_refl). lia.
Qed.
(** and a state that is not final has a step that is not a fault *)
Lemma fork_progress inh calls s : 100 <= w_capacity w -> w_evolve w a p <> Endless -> reachable w (init a p inh calls) s ->
  finished s \/ st_clocked s = true \/ exists s', step w s s' /\ st_faults s' = st_faults s.
Proof.
  intros CAP EV R. destruct (inv_reach w a p AC _ _ _ R) as [I _].
  destruct (st_clocked s) eqn:CL; [now right; left |].
  destruct (st_inside s) eqn:INS; [right; right; eexists; split; [now apply s_exit | reflexivity] |].
  destruct (st_inherited s) eqn:INH; [| right; right; eexists; split; [eapply s_other_ends, INH | reflexivity]].
  unfold finished. unfold pinv in I. destruct (st_parent s) eqn:E; try (now left; left); try (left; right; eexists; reflexivity); right; right.
  - eexists; split; [now apply s_fork | reflexivity].
  - eexists; split; [now apply s_close_w | reflexivity].
  - destruct I as [N [[WP _] [[EA EP] RC]]]. destruct (st_pipe s) as [| b pip] eqn:EP'.
    + destruct (st_child s) eqn:EC.
      * now elim N.
      * eexists; split; [now apply s_locks | reflexivity].
      * destruct (child_data w (st_algo s) (st_pop s)) eqn:D; [eexists; split; [eapply s_run; eauto | reflexivity] | eexists; split; [eapply s_run_fatal; auto; now rewrite EA, EP | reflexivity]].
      * destruct (Nat.lt_ge_cases (length rest) 100); [eexists; split; [eapply s_write_last; eauto; rewrite EP'; cbn; lia | reflexivity] | eexists; split; [eapply s_write; eauto; rewrite EP'; cbn; lia | reflexivity]].
      * eexists; split; [now apply s_child_close | reflexivity].
      * eexists; split; [eapply s_eof; eauto; unfold write_end_closed; now rewrite WP, EC, INH | reflexivity].
      * eexists; split; [eapply s_eof; eauto; unfold write_end_closed; now rewrite WP, EC, INH | reflexivity].
    + eexists; split; [eapply (s_read w s acc 1); auto; [lia | rewrite EP'; cbn; lia] | reflexivity].
  - destruct (run_loader (w_load w) acc) as [[m rest] |] eqn:L; [eexists; split; [eapply s_load; eauto | reflexivity] | eexists; split; [eapply s_load_fails; eauto | reflexivity]].
  - eexists; split; [eapply s_close_r, E | reflexivity].
  - destruct I as [[Q | Q] _]; [eexists; split; [now apply s_child_exit | reflexivity] | eexists; split; [eapply s_wait; eauto | reflexivity]].
  - destruct (Z.eq_dec (m_status m) 0); [eexists; split; [eapply s_check; eauto | reflexivity] | eexists; split; [eapply s_check_fails; eauto | reflexivity]].
  - eexists; split; [eapply s_set_algo; eauto | reflexivity].
  - eexists; split; [eapply s_set_pop; eauto | reflexivity].
  - eexists; split; [eapply s_kill, E | reflexivity].
  - eexists; split; [eapply s_reap; [exact E | tauto] | reflexivity].
Qed.
Lemma not_clocked inh s : reachable w (init a p inh 0) s -> st_clocked s = false /\ st_inside s = false /\ st_calls s = 0.
Proof.
  induction 1 as [| s s' R [C [I K]] T]; [auto |]. destruct T; cbn; rewrite ?I; auto; congruence.
Qed.
Lemma fork_ends inh s : 100 <= w_capacity w -> w_evolve w a p <> Endless -> reachable w (init a p inh 0) s ->
  finished s \/ exists s', step w s s' /\ st_faults s' = st_faults s.
Proof. intros CAP EV R. destruct (fork_progress inh 0 s CAP EV R) as [F | [F | F]]; auto. destruct (not_clocked _ _ R). congruence. Qed.
Lemma fork_can_end inh : 100 <= w_capacity w -> w_evolve w a p <> Endless -> exists s, reachable w (init a p inh 0) s /\ finished s /\ st_faults s = 0.
Proof.
  intros CAP EV. assert (G : forall n s, measure s < n -> reachable w (init a p inh 0) s -> st_faults s = 0 -> exists s', reachable w (init a p inh 0) s' /\ finished s' /\ st_faults s' = 0).
  { induction n as [| n IH]; intros s M R F; [lia |]. destruct (fork_ends inh s CAP EV R) as [FI | [s' [T F']]]; [eauto |]. apply (IH s'); [| now apply r_step with s | congruence].
    assert (measure s' < measure s); [| lia]. apply step_less; [apply (inv_reach w a p AC _ _ _ R) | exact T]. }
  apply (G _ (init a p inh 0) (Nat.lt_succ_diag_r _)); [constructor | reflexivity].
Qed.

(** the other thread is inside get_population when the process forks *)
Lemma reach_trans s0 s1 s2 : reachable w s0 s1 -> reachable w s1 s2 -> reachable w s0 s2.
Proof. intros R. induction 1; [exact R | now apply r_step with s]. Qed.
Lemma clocked_stays s s' : reachable w s s' -> st_parent s <> PStart -> st_parent s' <> PStart /\ (st_clocked s = true -> st_clocked s' = true).
Proof. induction 1 as [| s1 s2 R IH T]; [auto |]. intros N. destruct (IH N) as [Q1 Q2]. destruct T; cbn; (split; [congruence | auto]). all: contradiction. Qed.
Lemma fork_hangs inh calls : exists s, reachable w (init a p inh (S calls)) s /\ st_faults s = 0 /\ forall s', reachable w s s' -> st_faults s' = 0 -> ~ finished s'.
Proof.
  set (s1 := set_user (B := B) (init a p inh (S calls)) calls true). set (s2 := set_pid (set_clocked (set_child (set_parent s1 PCloseW) CLocks) (st_inside s1)) true).
  assert (R : reachable w (init a p inh (S calls)) s2). { eapply r_step; [eapply r_step; [apply r_here | apply (s_enter w _ calls); reflexivity] | now apply s_fork]. }
  exists s2. split; [exact R |]. split; [reflexivity |]. intros s' R' F0 FI. destruct (clocked_stays _ _ R') as [_ CL]; [discriminate |]. specialize (CL eq_refl).
  destruct (inv_reach w a p AC _ _ _ (reach_trans _ _ _ R R')) as [I C]. destruct (C CL) as [C' | C']; [| contradiction].
  unfold pinv, ended in I. destruct FI as [E | [e E]]; rewrite E in I; [destruct I as [[Q _] _]; congruence |]. destruct e; rewrite C' in I; destruct I as [_ [_ I]]; try (destruct I as [Q _]; discriminate); destruct I as [[Q _] _]; discriminate.
Qed.
End Facts.

(** Example: an algorithm and a population that are numbers; an archive of 150 units *)
Definition toy_world (ev : nat -> nat -> evolved nat nat) : @world nat nat (message nat nat) :=
  World ev (fun m => Bytes (repeat m 150)) (ReadBytes 150 (fun l => match l with m :: _ => Loaded m | [] => LoadError end)) 0 0 100.
Lemma toy_contract ev : archive_contract (toy_world ev).
Proof. split; [| reflexivity]. intros m b E. cbn in E. injection E as <-. reflexivity. Qed.
Lemma toy_run : let w := toy_world (fun a p => Evolved (a + 1) (2 * p)) in archive_contract w /\
  exists s, reachable w (init 3 5 0 0) s /\ st_faults s = 0 /\ st_parent s = PReturned /\ st_algo s = 4 /\ st_pop s = 10.
Proof.
  intros w. assert (AC : archive_contract w) by apply toy_contract. split; [exact AC |]. destruct (fork_can_end w 3 5 AC 0) as [s [R [F Z]]]; [cbn; lia | discriminate |]. exists s. split; [exact R |]. split; [exact Z |].
  assert (E : evolves_to w 3 5 4 10) by (split; [reflexivity | eexists; reflexivity]). assert (Q := proj1 (fork_faultless w 3 5 AC 0 0 s R F Z) _ _ E). split; [exact Q |].
  destruct (proj1 (fork_result w 3 5 AC 0 0 s R) Q) as [X _]. cbn in X. now injection X as <- <-.
Qed.
Lemma toy_error : let w := toy_world (fun a p => StdError "no") in archive_contract w /\
  exists s, reachable w (init 3 5 0 0) s /\ st_faults s = 0 /\ st_parent s = PThrew (ChildError "no") /\ st_algo s = 3 /\ st_pop s = 5.
Proof.
  intros w. assert (AC : archive_contract w) by apply toy_contract. split; [exact AC |]. destruct (fork_can_end w 3 5 AC 0) as [s [R [F Z]]]; [cbn; lia | discriminate |]. exists s. split; [exact R |]. split; [exact Z |].
  assert (E : fails_with w 3 5 "no") by (left; reflexivity). assert (Q := proj2 (fork_faultless w 3 5 AC 0 0 s R F Z) _ E ltac:(eexists; reflexivity)). split; [exact Q |]. apply (proj1 (proj2 (fork_result w 3 5 AC 0 0 s R)) _ Q).
Qed.
