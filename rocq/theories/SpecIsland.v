(** Vocabulary for C54 and C55: what a history of events says about an island. *)
From Coq Require Import List Bool Arith.
From Verif Require Import Outcome Island.
Import ListNotations.

(** How many evolutions were submitted, how many have ended. *)
Fixpoint submitted (tr : list ievent) : nat := match tr with [] => 0 | Submit :: t => S (submitted t) | _ :: t => submitted t end.
Fixpoint finished (tr : list ievent) : nat := match tr with [] => 0 | Finish _ :: t => S (finished t) | _ :: t => finished t end.
(** The error of the first evolution that failed since wait_check() last returned. *)
Definition after (er : option exn) (ev : ievent) : option exn :=
  match ev with CheckRet _ => None | Finish e => match er with Some _ => er | None => e end | _ => er end.
Definition first_error (tr : list ievent) : option exn := fold_left after tr None.

(** The documented meaning of the four states. *)
Definition status_of (busy error : bool) : evolve_status :=
  match busy, error with
  | false, false => SIdle | true, false => SBusy | false, true => SIdleError | true, true => SBusyError
  end.

(** The events of island j in a history of an archipelago. *)
Fixpoint of_island (j : nat) (tr : list aevent) : list ievent :=
  match tr with
  | [] => []
  | ASubmit k :: t => if Nat.eqb k j then Submit :: of_island j t else of_island j t
  | AFinish k e :: t => if Nat.eqb k j then Finish e :: of_island j t else of_island j t
  | ACheckRet e :: t => CheckRet e :: of_island j t
  | _ :: t => of_island j t
  end.
Definition busy_in (tr : list aevent) (j : nat) : Prop := finished (of_island j tr) < submitted (of_island j tr).
Definition error_in (tr : list aevent) (j : nat) : option exn := first_error (of_island j tr).
Definition is_busy (s : evolve_status) : bool := match s with SBusy | SBusyError => true | _ => false end.
Definition is_error (s : evolve_status) : bool := match s with SIdleError | SBusyError => true | _ => false end.
(** The first error in the order of the islands. *)
Fixpoint lowest (l : list (option exn)) : option exn := match l with [] => None | Some e :: _ => Some e | None :: t => lowest t end.

(** The client goes on with its call, on its own. *)
Inductive isteps : istate -> istate -> Prop :=
| is_refl s : isteps s s
| is_step s ev s1 s2 : client_step s = Some (ev, s1) -> isteps s1 s2 -> isteps s s2.
Inductive asteps : astate -> astate -> Prop :=
| as_refl s : asteps s s
| as_step s ev s1 s2 : aclient_step s = Some (ev, s1) -> asteps s1 s2 -> asteps s s2.
Definition is_finish (ev : aevent) : bool := match ev with AFinish _ _ => true | _ => false end.
