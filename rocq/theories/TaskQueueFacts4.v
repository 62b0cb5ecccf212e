(** Two schedules of the task queue that end in a deadlock, and one that does not. *)
From Coq Require Import List Arith Bool Lia.
Import ListNotations.
From Verif Require Import Outcome BaseFacts TaskQueue SpecTaskQueue.

Lemma exec_tau lk na n tr s s' : exec lk na n tr s -> step lk na s Tau s' -> exec lk na n tr s'.
Proof. intros X St. rewrite <- (app_nil_r tr). exact (exec_step _ _ _ _ _ _ _ X St). Qed.
Lemma exec_ev lk na n tr s e s' : exec lk na n tr s -> step lk na s (Ev e) s' -> exec lk na n (tr ++ [e]) s'.
Proof. intros X St. exact (exec_step _ _ _ _ _ _ _ X St). Qed.

Ltac tau E c := eapply exec_tau in E; [|eapply c; first [reflexivity | discriminate | intro; discriminate]]; cbn in E.
Ltac evt E c := eapply exec_ev in E; [|eapply c; reflexivity]; cbn in E.

(** enqueue; the consumer finishes the task; wait_all sees the flag still set;
    the consumer clears it and notifies nobody; wait_all goes to sleep. *)
Definition lost_trace : list event := [EnqCall 0 7; EnqRet 0 7; Start 7; End 7; WaitCall 0].
Definition lost_state : tq := mktq [] false false None CSleep [WSleep].

Lemma lost_run : exec false false 1 lost_trace lost_state.
Proof.
  pose proof (exec_init false false 1) as E. cbn in E.
  evt E (k_enq false false (tq_init 1) 0 7).
  eapply exec_tau in E; [|eapply (k_elock _ _ _ 0 7); reflexivity]; cbn in E.
  eapply exec_tau in E; [|eapply (k_push _ _ _ 0 7); reflexivity]; cbn in E.
  eapply exec_tau in E; [|eapply (k_eunlock _ _ _ 0 7); reflexivity]; cbn in E.
  eapply exec_ev in E; [|eapply (k_enotify _ _ _ 0 7); [reflexivity|apply ntf_none; [reflexivity|discriminate|cbn; intros [|[]]; discriminate]]]; cbn in E.
  eapply exec_tau in E; [|eapply c_lock; reflexivity]; cbn in E.
  eapply exec_tau in E; [|eapply c_pop; reflexivity]; cbn in E.
  eapply exec_tau in E; [|eapply c_flag; reflexivity]; cbn in E.
  eapply exec_tau in E; [|eapply c_unlock; reflexivity]; cbn in E.
  eapply exec_ev in E; [|eapply c_start; reflexivity]; cbn in E.
  eapply exec_ev in E; [|eapply c_end; reflexivity]; cbn in E.
  eapply exec_ev in E; [|eapply (k_wcall _ _ _ 0); reflexivity]; cbn in E.
  eapply exec_tau in E; [|eapply (k_wlock _ _ _ 0); reflexivity]; cbn in E.
  eapply exec_tau in E; [|eapply (k_wflag_true _ _ _ 0); reflexivity]; cbn in E.
  eapply exec_tau in E; [|eapply c_clear; [reflexivity|discriminate]]; cbn in E.
  eapply exec_tau in E; [|eapply c_notify; [reflexivity|apply ntf_none; [reflexivity|discriminate|cbn; intros [|[]]; discriminate]]]; cbn in E.
  eapply exec_tau in E; [|eapply (k_wblock _ _ _ 0); reflexivity]; cbn in E.
  eapply exec_tau in E; [|eapply c_lock; reflexivity]; cbn in E.
  eapply exec_tau in E; [|eapply c_wait; reflexivity]; cbn in E.
  eapply exec_tau in E; [|eapply c_block; reflexivity]; cbn in E.
  exact E.
Qed.

Ltac no_move :=
  intros s' (l & St & NC & NS); inversion St; subst; cbn in *; try discriminate; try congruence;
  match goal with K : nth_error _ ?i = Some _ |- _ => destruct i as [|[|[|i]]]; cbn in K; discriminate end.

Lemma lost_stuck : stuck false false lost_state.
Proof. no_move. Qed.

(** The consumer sleeps; client 0 pushes; client 1 calls wait_all and sleeps;
    client 0's notification wakes client 1 instead of the consumer. *)
Definition stolen_trace : list event := [EnqCall 0 7; WaitCall 1; EnqRet 0 7].
Definition stolen_state : tq := mktq [7] false false None CSleep [Idle; WSleep].

Lemma stolen_run : exec false false 2 stolen_trace stolen_state.
Proof.
  pose proof (exec_init false false 2) as E. cbn in E.
  eapply exec_tau in E; [|eapply c_lock; reflexivity]; cbn in E.
  eapply exec_tau in E; [|eapply c_wait; reflexivity]; cbn in E.
  eapply exec_tau in E; [|eapply c_block; reflexivity]; cbn in E.
  eapply exec_ev in E; [|eapply (k_enq _ _ _ 0 7); reflexivity]; cbn in E.
  eapply exec_tau in E; [|eapply (k_elock _ _ _ 0 7); reflexivity]; cbn in E.
  eapply exec_tau in E; [|eapply (k_push _ _ _ 0 7); reflexivity]; cbn in E.
  eapply exec_tau in E; [|eapply (k_eunlock _ _ _ 0 7); reflexivity]; cbn in E.
  eapply exec_ev in E; [|eapply (k_wcall _ _ _ 1); reflexivity]; cbn in E.
  eapply exec_tau in E; [|eapply (k_wlock _ _ _ 1); reflexivity]; cbn in E.
  eapply exec_tau in E; [|eapply (k_wflag_false _ _ _ 1); reflexivity]; cbn in E.
  eapply exec_tau in E; [|eapply (k_wnonempty _ _ _ 1); [reflexivity|discriminate]]; cbn in E.
  eapply exec_tau in E; [|eapply (k_wblock _ _ _ 1); reflexivity]; cbn in E.
  eapply exec_ev in E; [|eapply (k_enotify _ _ _ 0 7); [reflexivity|apply (ntf_k _ _ 1); reflexivity]]; cbn in E.
  eapply exec_tau in E; [|eapply (k_wlock _ _ _ 1); reflexivity]; cbn in E.
  eapply exec_tau in E; [|eapply (k_wflag_false _ _ _ 1); reflexivity]; cbn in E.
  eapply exec_tau in E; [|eapply (k_wnonempty _ _ _ 1); [reflexivity|discriminate]]; cbn in E.
  eapply exec_tau in E; [|eapply (k_wblock _ _ _ 1); reflexivity]; cbn in E.
  exact E.
Qed.

Lemma stolen_stuck : stuck false false stolen_state.
Proof. no_move. Qed.

(** Two tasks enqueued by two clients, a wait and the destructor, all completed. *)
Definition good_trace : list event :=
  [EnqCall 0 7; EnqRet 0 7; EnqCall 1 8; EnqRet 1 8; Start 7; End 7; WaitCall 0; Start 8; End 8; WaitRet 0; DtorCall 0; DtorRet 0].
Definition good_state : tq := mktq [] false true None CExit [Idle; Idle].

Lemma good_run : exec false false 2 good_trace good_state.
Proof.
  pose proof (exec_init false false 2) as E. cbn in E.
  eapply exec_ev in E; [|eapply (k_enq _ _ _ 0 7); reflexivity]; cbn in E.
  eapply exec_tau in E; [|eapply (k_elock _ _ _ 0 7); reflexivity]; cbn in E.
  eapply exec_tau in E; [|eapply (k_push _ _ _ 0 7); reflexivity]; cbn in E.
  eapply exec_tau in E; [|eapply (k_eunlock _ _ _ 0 7); reflexivity]; cbn in E.
  eapply exec_ev in E; [|eapply (k_enotify _ _ _ 0 7); [reflexivity|apply ntf_none; [reflexivity|discriminate|cbn; intros [|[|[]]]; discriminate]]]; cbn in E.
  eapply exec_ev in E; [|eapply (k_enq _ _ _ 1 8); reflexivity]; cbn in E.
  eapply exec_tau in E; [|eapply (k_elock _ _ _ 1 8); reflexivity]; cbn in E.
  eapply exec_tau in E; [|eapply (k_push _ _ _ 1 8); reflexivity]; cbn in E.
  eapply exec_tau in E; [|eapply (k_eunlock _ _ _ 1 8); reflexivity]; cbn in E.
  eapply exec_ev in E; [|eapply (k_enotify _ _ _ 1 8); [reflexivity|apply ntf_none; [reflexivity|discriminate|cbn; intros [|[|[]]]; discriminate]]]; cbn in E.
  eapply exec_tau in E; [|eapply c_lock; reflexivity]; cbn in E.
  eapply exec_tau in E; [|eapply c_pop; reflexivity]; cbn in E.
  eapply exec_tau in E; [|eapply c_flag; reflexivity]; cbn in E.
  eapply exec_tau in E; [|eapply c_unlock; reflexivity]; cbn in E.
  eapply exec_ev in E; [|eapply c_start; reflexivity]; cbn in E.
  eapply exec_ev in E; [|eapply c_end; reflexivity]; cbn in E.
  eapply exec_tau in E; [|eapply c_clear; [reflexivity|discriminate]]; cbn in E.
  eapply exec_ev in E; [|eapply (k_wcall _ _ _ 0); reflexivity]; cbn in E.
  eapply exec_tau in E; [|eapply (k_wlock _ _ _ 0); reflexivity]; cbn in E.
  eapply exec_tau in E; [|eapply (k_wflag_false _ _ _ 0); reflexivity]; cbn in E.
  eapply exec_tau in E; [|eapply (k_wnonempty _ _ _ 0); [reflexivity|discriminate]]; cbn in E.
  eapply exec_tau in E; [|eapply (k_wblock _ _ _ 0); reflexivity]; cbn in E.
  eapply exec_tau in E; [|eapply c_notify; [reflexivity|apply (ntf_k _ _ 0); reflexivity]]; cbn in E.
  eapply exec_tau in E; [|eapply c_lock; reflexivity]; cbn in E.
  eapply exec_tau in E; [|eapply c_pop; reflexivity]; cbn in E.
  eapply exec_tau in E; [|eapply c_flag; reflexivity]; cbn in E.
  eapply exec_tau in E; [|eapply c_unlock; reflexivity]; cbn in E.
  eapply exec_ev in E; [|eapply c_start; reflexivity]; cbn in E.
  eapply exec_ev in E; [|eapply c_end; reflexivity]; cbn in E.
  eapply exec_tau in E; [|eapply c_clear; [reflexivity|discriminate]]; cbn in E.
  eapply exec_tau in E; [|eapply c_notify; [reflexivity|apply ntf_none; [reflexivity|discriminate|cbn; intros [|[|[]]]; discriminate]]]; cbn in E.
  eapply exec_tau in E; [|eapply (k_wlock _ _ _ 0); reflexivity]; cbn in E.
  eapply exec_tau in E; [|eapply (k_wflag_false _ _ _ 0); reflexivity]; cbn in E.
  eapply exec_tau in E; [|eapply (k_wempty _ _ _ 0); reflexivity]; cbn in E.
  eapply exec_ev in E; [|eapply (k_wret _ _ _ 0); reflexivity]; cbn in E.
  eapply exec_ev in E; [|eapply (k_dcall _ _ _ 0); reflexivity]; cbn in E.
  eapply exec_tau in E; [|eapply (k_dlock _ _ _ 0); reflexivity]; cbn in E.
  eapply exec_tau in E; [|eapply (k_dset _ _ _ 0); reflexivity]; cbn in E.
  eapply exec_tau in E; [|eapply (k_dunlock _ _ _ 0); reflexivity]; cbn in E.
  eapply exec_tau in E; [|eapply (k_dnotify _ _ _ 0); [reflexivity|apply ntf_none; [reflexivity|discriminate|cbn; intros [|[|[]]]; discriminate]]]; cbn in E.
  eapply exec_tau in E; [|eapply c_lock; reflexivity]; cbn in E.
  eapply exec_tau in E; [|eapply c_exit; reflexivity]; cbn in E.
  eapply exec_ev in E; [|eapply (k_djoin _ _ _ 0); reflexivity]; cbn in E.
  exact E.
Qed.

Lemma good_stuck : stuck false false good_state.
Proof. no_move. Qed.

(** The repaired variant: enqueue and wait_all complete. *)
Definition fixed_trace : list event := [EnqCall 0 7; EnqRet 0 7; Start 7; End 7; WaitCall 0; WaitRet 0].
Definition fixed_state : tq := mktq [] false false None CSleep [Idle].

Lemma fixed_run : exec true true 1 fixed_trace fixed_state.
Proof.
  pose proof (exec_init true true 1) as E. cbn in E.
  eapply exec_ev in E; [|eapply (k_enq _ _ _ 0 7); reflexivity]; cbn in E.
  eapply exec_tau in E; [|eapply (k_elock _ _ _ 0 7); reflexivity]; cbn in E.
  eapply exec_tau in E; [|eapply (k_push _ _ _ 0 7); reflexivity]; cbn in E.
  eapply exec_tau in E; [|eapply (k_eunlock _ _ _ 0 7); reflexivity]; cbn in E.
  eapply exec_ev in E; [|eapply (k_enotify _ _ _ 0 7); [reflexivity|apply ntf_all; reflexivity]]; cbn in E.
  eapply exec_tau in E; [|eapply c_lock; reflexivity]; cbn in E.
  eapply exec_tau in E; [|eapply c_pop; reflexivity]; cbn in E.
  eapply exec_tau in E; [|eapply c_flag; reflexivity]; cbn in E.
  eapply exec_tau in E; [|eapply c_unlock; reflexivity]; cbn in E.
  eapply exec_ev in E; [|eapply c_start; reflexivity]; cbn in E.
  eapply exec_ev in E; [|eapply c_end; reflexivity]; cbn in E.
  eapply exec_ev in E; [|eapply (k_wcall _ _ _ 0); reflexivity]; cbn in E.
  eapply exec_tau in E; [|eapply (k_wlock _ _ _ 0); reflexivity]; cbn in E.
  eapply exec_tau in E; [|eapply (k_wflag_true _ _ _ 0); reflexivity]; cbn in E.
  eapply exec_tau in E; [|eapply (k_wblock _ _ _ 0); reflexivity]; cbn in E.
  eapply exec_tau in E; [|eapply c_clear; [reflexivity|reflexivity]]; cbn in E.
  eapply exec_tau in E; [|eapply c_notify; [reflexivity|apply ntf_all; reflexivity]]; cbn in E.
  eapply exec_tau in E; [|eapply c_lock; reflexivity]; cbn in E.
  eapply exec_tau in E; [|eapply c_wait; reflexivity]; cbn in E.
  eapply exec_tau in E; [|eapply c_block; reflexivity]; cbn in E.
  eapply exec_tau in E; [|eapply (k_wlock _ _ _ 0); reflexivity]; cbn in E.
  eapply exec_tau in E; [|eapply (k_wflag_false _ _ _ 0); reflexivity]; cbn in E.
  eapply exec_tau in E; [|eapply (k_wempty _ _ _ 0); reflexivity]; cbn in E.
  eapply exec_ev in E; [|eapply (k_wret _ _ _ 0); reflexivity]; cbn in E.
  exact E.
Qed.

Lemma fixed_stuck : stuck true true fixed_state.
Proof. no_move. Qed.

Lemma stolen_refutes : exists tr s,
  run_of 2 tr s /\ stuck false false s /\ enq_returned 7 tr /\ ~ In 7 (started tr) /\ no_dtor tr.
Proof.
  exists stolen_trace, stolen_state. split; [exact stolen_run|]. split; [exact stolen_stuck|].
  split; [exists 0; cbn; auto 10|]. split; [cbn; tauto|]. intros i H. cbn in H. intuition discriminate.
Qed.

Lemma lost_refutes : exists tr s,
  run_of 1 tr s /\ stuck false false s /\ no_dtor tr /\
  called tr = [7] /\ finished tr = [7] /\ doing 0 tr = Some InWaitAll.
Proof.
  exists lost_trace, lost_state. split; [exact lost_run|]. split; [exact lost_stuck|].
  split; [|repeat split]. intros i H. cbn in H. intuition discriminate.
Qed.
