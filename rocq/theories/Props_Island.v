(** Properties C54 and C55: status, wait and wait_check of islands and archipelagos.
    Only statements, non-vacuity examples and assumption listings. *)
From Coq Require Import List Bool Arith.
From Verif Require Import Outcome Island SpecIsland IslandFacts IslandFacts2.
Import ListNotations.

(** ** C54: an island. [irun tr s]: after the events [tr], in some schedule. *)

(** status() returns busy exactly when some submitted evolution has not ended, and the
    error flag exactly when some evolution failed since the last wait_check(). *)
Theorem C54_status : forall tr st s, irun (tr ++ [StatusRet st]) s ->
  st = status_of (finished tr <? submitted tr) (match first_error tr with Some _ => true | None => false end).
Proof. exact status_ret. Qed.
Print Assumptions C54_status.
(** wait() returns when all evolutions have ended, and forgets no error. *)
Theorem C54_wait : forall tr s, irun (tr ++ [WaitRet]) s -> finished tr = submitted tr /\ first_error (tr ++ [WaitRet]) = first_error tr.
Proof. exact wait_ret. Qed.
Print Assumptions C54_wait.
(** wait_check() returns when all evolutions have ended, raises the first error if there
    is one, and clears it. *)
Theorem C54_wait_check : forall tr r s, irun (tr ++ [CheckRet r]) s -> finished tr = submitted tr /\ r = first_error tr /\ first_error (tr ++ [CheckRet r]) = None.
Proof. exact check_ret. Qed.
Print Assumptions C54_wait_check.
(** No call ever touches a future that has no state (which would be undefined). *)
Theorem C54_defined : forall tr s, irun tr s -> finished tr <= submitted tr /\ is_pos s <> KUndef.
Proof. exact irun_bounds. Qed.
Print Assumptions C54_defined.
(** status() always returns, and so do wait() and wait_check() once the evolutions end. *)
Theorem C54_returns : forall tr s, irun tr s -> (exists i e, is_pos s = KStatus i e) \/ finished tr = submitted tr -> exists s', isteps s s' /\ is_pos s' = KIdle.
Proof. exact returns. Qed.
Print Assumptions C54_returns.
(** Three evolutions, the second fails: busy, busy_error, then wait keeps the error, and
    wait_check raises it once. *)
Example C54_case : exists s, irun [Submit; Submit; Submit; StatusRet SBusy; Finish None; Finish (Some RuntimeError); StatusRet SBusyError; Finish (Some DomainError); WaitRet;
  StatusRet SIdleError; CheckRet (Some RuntimeError); StatusRet SIdle; CheckRet None] s.
Proof.
  eexists. apply (iplay_run [DoCall CallEvolve; DoCall CallEvolve; DoCall CallEvolve; DoCall CallStatus; DoStep; DoFinish None; DoFinish (Some RuntimeError); DoCall CallStatus; DoStep; DoStep; DoStep;
    DoFinish (Some DomainError); DoCall CallWait; DoStep; DoStep; DoStep; DoStep; DoCall CallStatus; DoStep; DoStep; DoCall CallCheck; DoStep; DoStep; DoCall CallStatus; DoStep; DoCall CallCheck; DoStep]). reflexivity.
Qed.

(** ** C55: an archipelago of n islands. *)

(** status() collects the islands' states one after the other. A busy answer means some
    island was busy when the call began, a non-busy one that none is when it returns; the
    error flag means some island has failed, its absence that none had when the call began. *)
Theorem C55_status : forall n tr st s, arun n (tr ++ [AStatusRet st]) s -> exists tr0 mid, tr = tr0 ++ AStatusCall :: mid /\ forallb is_finish mid = true /\
  (is_busy st = true -> exists j, j < n /\ busy_in tr0 j) /\ (is_busy st = false -> forall j, j < n -> ~ busy_in tr j) /\
  (is_error st = true -> exists j, j < n /\ error_in tr j <> None) /\ (is_error st = false -> forall j, j < n -> error_in tr0 j = None).
Proof. exact astatus_ret. Qed.
Print Assumptions C55_status.
(** If no evolution ends during the call the answer is exact. *)
Theorem C55_status_quiet : forall n tr0 st s, arun n (tr0 ++ [AStatusCall] ++ [AStatusRet st]) s ->
  (is_busy st = true <-> exists j, j < n /\ busy_in tr0 j) /\ (is_error st = true <-> exists j, j < n /\ error_in tr0 j <> None).
Proof. exact astatus_quiet. Qed.
Print Assumptions C55_status_quiet.
(** "The answer was true at some moment of the call" fails: busy_error can be returned
    although at no moment an island was busy and an island had failed. *)
Theorem C55_status_snapshot_refuted : exists n tr0 mid s, arun n (tr0 ++ AStatusCall :: mid ++ [AStatusRet SBusyError]) s /\ forallb is_finish mid = true /\
  forall m1 m2, mid = m1 ++ m2 -> ~ ((exists j, j < n /\ busy_in (tr0 ++ AStatusCall :: m1) j) /\ (exists j, j < n /\ error_in (tr0 ++ AStatusCall :: m1) j <> None)).
Proof. exact snapshot_refuted. Qed.
Print Assumptions C55_status_snapshot_refuted.
Theorem C55_wait : forall n tr s, arun n (tr ++ [AWaitRet]) s -> (forall j, j < n -> ~ busy_in tr j) /\ forall j, error_in (tr ++ [AWaitRet]) j = error_in tr j.
Proof. exact await_ret. Qed.
Print Assumptions C55_wait.
(** wait_check() waits for every island, raises the error of the first island that failed
    and clears the errors of all. *)
Theorem C55_wait_check : forall n tr r s, arun n (tr ++ [ACheckRet r]) s ->
  (forall j, j < n -> ~ busy_in tr j) /\ r = lowest (map (error_in tr) (seq 0 n)) /\ forall j, error_in (tr ++ [ACheckRet r]) j = None.
Proof. exact acheck_ret. Qed.
Print Assumptions C55_wait_check.
Theorem C55_returns : forall n tr s, arun n tr s -> (exists i a b c d, as_pos s = AStatus i a b c d) \/ (forall j, j < n -> ~ busy_in tr j) -> exists s', asteps s s' /\ as_pos s' = AIdle.
Proof. exact areturns. Qed.
Print Assumptions C55_returns.
(** Island 2 fails before island 1: wait_check raises the error of island 1. *)
Example C55_case : exists s, arun 3 [ASubmit 0; ASubmit 1; ASubmit 2; AFinish 2 (Some DomainError); AStatusCall; AStatusRet SBusyError; AFinish 0 None; AFinish 1 (Some RuntimeError); AWaitRet;
  AStatusCall; AStatusRet SIdleError; ACheckRet (Some RuntimeError); AStatusCall; AStatusRet SIdle] s.
Proof.
  eexists. apply (aplay_run 3 [DoSubmit 0; DoSubmit 1; DoSubmit 2; DoAFinish 2 (Some DomainError); DoStatus; DoAStep; DoAStep; DoAStep; DoAStep; DoAFinish 0 None; DoAFinish 1 (Some RuntimeError);
    DoWait; DoAStep; DoAStep; DoAStep; DoAStep; DoStatus; DoAStep; DoAStep; DoAStep; DoAStep; DoCheck; DoAStep; DoAStep; DoAStep; DoAStep; DoStatus; DoAStep; DoAStep; DoAStep; DoAStep]). reflexivity.
Qed.
