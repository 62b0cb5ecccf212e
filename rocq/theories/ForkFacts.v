(** fork_island: invariant. *)
From Coq Require Import String List ZArith Lia Bool.
Import ListNotations.
From Verif Require Import ForkIsland SpecFork.
Local Open Scope nat_scope.

(** A proper prefix of an archive does not load. *)
Lemma run_prefix {B M} (l : loader B M) : forall s t m, run_loader l (s ++ t) = Some (m, []) -> t <> [] -> run_loader l s = None.
Proof.
  induction l as [m0 | | n k IH]; intros s t m H N; cbn [run_loader] in *.
  - injection H as _ H. destruct s; [cbn in H; contradiction | discriminate].
  - reflexivity.
  - destruct (Nat.ltb_spec (length (s ++ t)) n) as [Q | Q]; [discriminate |]. destruct (Nat.ltb_spec (length s) n) as [L | L]; [reflexivity |].
    rewrite firstn_app, skipn_app in H. replace (n - length s) with 0 in H by lia. rewrite firstn_O, app_nil_r in H. cbn [skipn] in H. now apply (IH _ _ _ _ H).
Qed.

Section Facts.
Context {A P B : Type} (w : @world A P B) (a : A) (p : P) (AC : archive_contract w).
Notation data := (child_data w a p).
Definition whole (st : list B) : Prop := data = Some st \/ w_evolve w a p <> Endless /\ data = None /\ st = [].
Definition part (st : list B) : Prop := st = [] \/ exists rest, data = Some (st ++ rest).
Definition recv (s : @state A P B) (acc : list B) : Prop :=
  match st_child s with
  | CNone | CLocks | CRun => acc ++ st_pipe s = []
  | CSend rest => data = Some (acc ++ st_pipe s ++ rest)
  | CCloseW => data = Some (acc ++ st_pipe s)
  | CExit => whole (acc ++ st_pipe s)
  | CGone => part (acc ++ st_pipe s) /\ (st_faults s = 0 -> whole (acc ++ st_pipe s))
  end.
(** the message the child sent *)
Definition good (m : message A P) : Prop := (exists a' p', evolves_to w a p a' p' /\ m = Msg 0 "" a' p') \/ (exists what, fails_with w a p what /\ can_report w what /\ m = Msg 1 what (w_algo0 w) (w_pop0 w)).
Definition over (s : @state A P B) : Prop := st_child s = CExit \/ st_child s = CGone.
Definition same_isl (s : @state A P B) : Prop := st_algo s = a /\ st_pop s = p.
Definition cause (s : @state A P B) (e : fork_error) : Prop := match e with
  | ForkFailed => False
  | ReadFailed => st_faults s <> 0
  | ArchiveFailed => over s /\ (st_faults s = 0 -> w_evolve w a p <> Endless /\ data = None)
  | ChildError _ => False end.
Definition fds (s : @state A P B) (wr rd pid : bool) : Prop := st_wpar s = wr /\ st_rpar s = rd /\ st_pid s = pid.
Definition ended (s : @state A P B) : Prop := st_child s = CGone /\ st_reaped s = true.
Definition pinv (s : @state A P B) : Prop :=
  match st_parent s with
  | PStart => st_child s = CNone /\ st_pipe s = [] /\ fds s true true false /\ same_isl s /\ st_faults s = 0 /\ st_clocked s = false
  | PCloseW => st_child s <> CNone /\ fds s true true true /\ same_isl s /\ recv s []
  | PRead acc => st_child s <> CNone /\ fds s false true true /\ same_isl s /\ recv s acc
  | PLoad acc => over s /\ st_pipe s = [] /\ st_inherited s = 0 /\ fds s false true true /\ same_isl s /\ recv s acc
  | PCloseR m => over s /\ st_inherited s = 0 /\ fds s false true true /\ same_isl s /\ good m
  | PWait m => over s /\ st_inherited s = 0 /\ fds s false false true /\ same_isl s /\ good m
  | PCheck m => ended s /\ st_inherited s = 0 /\ fds s false false true /\ same_isl s /\ good m
  | PSetAlgo m => ended s /\ st_inherited s = 0 /\ fds s false false true /\ same_isl s /\ good m /\ m_status m = 0%Z
  | PSetPop m => ended s /\ st_inherited s = 0 /\ fds s false false true /\ st_algo s = m_algo m /\ st_pop s = p /\ good m /\ m_status m = 0%Z
  | PKill e => st_child s <> CNone /\ fds s false true true /\ same_isl s /\ cause s e
  | PReap e => st_child s = CGone /\ fds s false true true /\ same_isl s /\ cause s e
  | PReturned => ended s /\ st_inherited s = 0 /\ fds s false false false /\ evolves_to w a p (st_algo s) (st_pop s)
  | PThrew e => fds s false false false /\ same_isl s /\
      match e with
      | ForkFailed => st_child s = CNone /\ st_faults s <> 0
      | ChildError what => ended s /\ st_inherited s = 0 /\ fails_with w a p what /\ can_report w what
      | e => ended s /\ cause s e end
  end.
Definition cinv (s : @state A P B) : Prop := st_clocked s = true -> st_child s = CLocks \/ st_faults s <> 0.

Lemma inv_init inh calls : pinv (init a p inh calls) /\ cinv (init a p inh calls).
Proof. unfold pinv, cinv, fds, same_isl. cbn. repeat split; auto; discriminate. Qed.

Lemma data_good b m : data = Some b -> run_loader (w_load w) b = Some (m, []) -> good m.
Proof.
  destruct AC as [AL _]. intros D L. unfold child_data, child_error in D. unfold good, evolves_to, fails_with.
  assert (K : forall what b', w_save w (Msg 1 what (w_algo0 w) (w_pop0 w)) = Bytes b' -> b' = b -> can_report w what /\ m = Msg 1 what (w_algo0 w) (w_pop0 w)).
  { intros what b' S ->. split; [exists b; exact S |]. rewrite (AL _ _ S) in L. now injection L as <-. }
  destruct (w_evolve w a p) as [a' p' | what | |] eqn:E.
  - destruct (w_save w (Msg 0 "" a' p')) as [b' | what |] eqn:S.
    + injection D as ->. rewrite (AL _ _ S) in L. injection L as <-. left. exists a', p'. eauto.
    + destruct (w_save w (Msg 1 what _ _)) eqn:S2; try discriminate. injection D as D. destruct (K _ _ S2 D). right. exists what. split; [right; right; exists a', p'; split; [reflexivity | rewrite S; auto] | auto].
    + destruct (w_save w (Msg 1 "" _ _)) eqn:S2; try discriminate. injection D as D. destruct (K _ _ S2 D). right. exists ""%string. split; [right; right; exists a', p'; split; [reflexivity | rewrite S; auto] | auto].
  - destruct (w_save w (Msg 1 what _ _)) eqn:S2; try discriminate. injection D as D. destruct (K _ _ S2 D). right. exists what. auto.
  - destruct (w_save w (Msg 1 "" _ _)) eqn:S2; try discriminate. injection D as D. destruct (K _ _ S2 D). right. exists ""%string. auto 6.
  - discriminate.
Qed.
Lemma data_loads b : data = Some b -> exists m, run_loader (w_load w) b = Some (m, []).
Proof.
  destruct AC as [AL _]. intros D. unfold child_data, child_error in D. destruct (w_evolve w a p) as [a' p' | what | |].
  - destruct (w_save w (Msg 0 "" a' p')) as [b' | what |] eqn:S; [injection D as ->; eauto | |]; match goal with H : match ?x with _ => _ end = _ |- _ => destruct x eqn:S2; try discriminate end; injection D as ->; eauto.
  - destruct (w_save w (Msg 1 what _ _)) eqn:S2; try discriminate. injection D as ->; eauto.
  - destruct (w_save w (Msg 1 "" _ _)) eqn:S2; try discriminate. injection D as ->; eauto.
  - discriminate.
Qed.
(** a stream the parent loads is all that the child sent *)
Lemma part_load st m rest : part st -> run_loader (w_load w) st = Some (m, rest) -> data = Some st /\ good m.
Proof.
  intros [-> | [t D]] L; [rewrite (proj2 AC) in L; discriminate |]. destruct (data_loads _ D) as [m' L'].
  destruct t as [| b t]; [| rewrite (run_prefix _ _ _ _ L') in L; discriminate]. rewrite app_nil_r in *. rewrite L' in L. injection L as -> <-. split; [exact D | now apply (data_good st)].
Qed.
Lemma whole_part st : whole st -> part st.
Proof. intros [D | [_ [_ ->]]]; [right; exists []; now rewrite app_nil_r | now left]. Qed.
Lemma recv_part s acc : recv s acc -> part (acc ++ st_pipe s).
Proof.
  unfold recv. destruct (st_child s); intros H; try (now left); try (now destruct H); try (now apply whole_part).
  - right. exists rest. now rewrite <- app_assoc.
  - right. exists []. now rewrite app_nil_r.
Qed.
Lemma closed_spec (s : @state A P B) : write_end_closed s = true -> st_wpar s = false /\ child_writes (st_child s) = false /\ st_inherited s = 0.
Proof. unfold write_end_closed. rewrite !andb_true_iff, !negb_true_iff, Nat.eqb_eq. tauto. Qed.

Local Arguments firstn : simpl never.
Local Arguments skipn : simpl never.
Ltac ph := unfold pinv, cause, leave in *; unfold recv, fds, same_isl, over, ended in *; cbn in *.
Ltac fe := try match goal with e : fork_error |- _ => destruct e end.
Ltac fin := intuition (try congruence; try discriminate; auto).
Lemma inv_step s s' : pinv s -> cinv s -> step w s s' -> pinv s' /\ cinv s'.
Proof.
  intros I C T. destruct s as [par chi pip wp rp inh calls ins clk pid rea ia ip flt]. destruct T; cbn [st_parent st_child st_pipe st_inherited st_clocked st_calls st_inside st_algo st_pop] in *; try subst par; try subst chi.
  - (* fork *) ph. destruct I as [-> [-> [F [S [-> ->]]]]]. unfold cinv; cbn. fin.
  - (* fork fails *) ph. destruct I as [-> [-> [F [S [-> ->]]]]]. unfold cinv; cbn. fin.
  - (* close_w *) ph. fin.
  - (* read *) unfold cinv in *. ph. destruct I as [N [F [S R]]]. split; [| exact C]. repeat split; try tauto. destruct chi; rewrite <- ?app_assoc; cbn in *; rewrite ?app_assoc, <- ?(app_assoc acc), ?firstn_skipn in *; exact R.
  - (* eof *) destruct (closed_spec _ H1) as [Q1 [Q2 Q3]]. unfold cinv in *. ph. subst pip. split; [| exact C]. destruct I as [N [F [S R]]]. destruct chi; try discriminate; try contradiction; repeat split; tauto.
  - (* read fails *) unfold cinv in *. ph. fin.
  - (* load *) unfold cinv in *. ph. split; [| exact C]. destruct I as [O [-> [I0 [F [S R]]]]].
    assert (PT : part acc). { destruct O as [-> | ->]; rewrite app_nil_r in R; [now apply whole_part | tauto]. } destruct (part_load _ _ _ PT H0) as [_ G]. tauto.
  - (* load fails *) unfold cinv in *. ph. split; [| exact C]. destruct I as [O [-> [I0 [F [S R]]]]]. rewrite app_nil_r in R. split; [destruct O; congruence |]. split; [exact F |]. split; [exact S |]. split; [exact O |]. intros FL.
    assert (W : whole acc) by (destruct O as [-> | ->]; [exact R | now apply R]). destruct W as [D | D]; [destruct (data_loads _ D); congruence | tauto].
  - (* close_r *) unfold cinv in *. ph. fin.
  - (* wait *) unfold cinv in *. ph. fin.
  - (* check fails *) unfold cinv in *. ph. split; [| exact C]. destruct I as [E [I0 [F [S [[a' [p' [G ->]]] | [x [FW [CR ->]]]]]]]]; [now elim H0 |]. cbn. tauto.
  - unfold cinv in *. ph. fin.
  - unfold cinv in *. ph. fin.
  - unfold cinv in *. ph. split; [| exact C]. destruct I as [E [I0 [F [S [S' [[[a' [p' [G ->]]] | [x [FW [CR ->]]]] Z]]]]]]; [| discriminate Z]. cbn in *. subst. tauto.
  - (* kill *) unfold cinv in *. ph. split; [destruct e; fin |]. intros Q. destruct (C Q) as [-> | Q2]; [| now right]. destruct e; fin.
  - (* reap *) unfold cinv in *. ph. split; [destruct e; fin | exact C].
  - (* locks *) unfold cinv in *. ph. split; [destruct par; fe; fin | intros Q; congruence].
  - (* run *) assert (Q : recv (State par CRun pip wp rp inh calls ins clk pid rea ia ip flt) match par with PRead acc => acc | _ => [] end -> True) by auto. clear Q. unfold cinv in *. split; [| intros Q; destruct (C Q); [discriminate | now right]].
    ph. destruct par; fe; try (fin; fail).
    + destruct I as [N [F [[-> ->] R]]]. cbn in R. subst pip. cbn. fin.
    + destruct I as [N [F [[-> ->] R]]]. apply app_eq_nil in R. destruct R as [-> ->]. cbn. fin.
  - (* run fatal *) unfold cinv in *. split; [| intros Q; destruct (C Q); [discriminate | now right]].
    ph. destruct par; fe; try (fin; fail).
    + destruct I as [N [F [[-> ->] R]]]. cbn in R. subst pip. cbn. unfold whole. fin.
    + destruct I as [N [F [[-> ->] R]]]. rewrite R. unfold whole. fin.
  - (* write *) unfold cinv in *. split; [| intros Q; destruct (C Q); [discriminate | now right]].
    ph. destruct par; fe; try (fin; fail).
    + destruct I as [N [F [S R]]]. repeat split; try tauto; [discriminate |]. rewrite <- app_assoc. now rewrite firstn_skipn.
    + destruct I as [N [F [S R]]]. repeat split; try tauto; [discriminate |]. now rewrite <- (app_assoc pip), firstn_skipn.
  - (* last write *) unfold cinv in *. split; [| intros Q; destruct (C Q); [discriminate | now right]].
    ph. destruct par; fe; try (fin; fail).
  - (* close *) unfold cinv in *. split; [| intros Q; destruct (C Q); [discriminate | now right]].
    ph. unfold whole. destruct par; fe; try (fin; fail).
  - (* exit *) unfold cinv in *. split; [| intros Q; destruct (C Q); [discriminate | now right]].
    ph. destruct par; fe; try (fin; fail); intuition (auto using whole_part; try congruence).
  - (* dies *) assert (RP : forall acc, recv (State par chi pip wp rp inh calls ins clk pid rea ia ip flt) acc -> part (acc ++ pip)) by (intros acc R; apply (recv_part _ _ R)).
    unfold cinv in *. split; [| now right]. ph. destruct par; fe; try (destruct chi; fin; fail).
    + destruct I as [N [F [S R]]]. repeat split; try tauto; try discriminate. apply (RP [] R).
  - (* other *) unfold cinv in *. ph. split; [| exact C]. destruct par; fe; fin. 
  - unfold cinv in *. ph. split; [| exact C]. destruct par; fe; fin.
  - unfold cinv in *. ph. split; [| exact C]. destruct par; fe; fin.
Qed.
Lemma inv_reach inh calls s : reachable w (init a p inh calls) s -> pinv s /\ cinv s.
Proof. induction 1 as [| s s' R [I C] T]; [apply inv_init | now apply (inv_step s)]. Qed.
End Facts.
