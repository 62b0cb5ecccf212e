(** Vocabulary for fork_island. *)
From Coq Require Import String List ZArith.
Import ListNotations.
From Verif Require Import ForkIsland.

Section Spec.
Context {A P B : Type}.
(** The archive: what was saved is loaded again, using all of it, and an empty stream is not an
    archive. *)
Definition archive_contract (w : @world A P B) : Prop :=
  (forall m b, w_save w m = Bytes b -> run_loader (w_load w) b = Some (m, [])) /\ run_loader (w_load w) [] = None.
(** run_evolve has returned or thrown. *)
Definition finished (s : @state A P B) : Prop := st_parent s = PReturned \/ exists e, st_parent s = PThrew e.
(** The evolution of the island in the child ends, with a result that can be sent. *)
Definition evolves_to (w : @world A P B) (a : A) (p : P) (a' : A) (p' : P) : Prop :=
  w_evolve w a p = Evolved a' p' /\ exists b, w_save w (Msg 0 "" a' p') = Bytes b.
(** It ends with an error, or its result cannot be sent: what a std::exception says, the empty
    string for other exceptions. *)
Definition fails_with (w : @world A P B) (a : A) (p : P) (what : string) : Prop :=
  w_evolve w a p = StdError what \/ w_evolve w a p = OtherError /\ what = ""%string \/
  exists a' p', w_evolve w a p = Evolved a' p' /\
    (w_save w (Msg 0 "" a' p') = SaveStdError what \/ w_save w (Msg 0 "" a' p') = SaveOtherError /\ what = ""%string).
(** The error itself can be sent. *)
Definition can_report (w : @world A P B) (what : string) : Prop := exists b, w_save w (Msg 1 what (w_algo0 w) (w_pop0 w)) = Bytes b.
(** No process is left: no child was started, or it has ended and been waited for. *)
Definition no_child_left (s : @state A P B) : Prop := st_child s = CNone \/ st_child s = CGone /\ st_reaped s = true.
End Spec.
(** n steps lead from s to s'. *)
Inductive steps {A P B : Type} (w : @world A P B) : nat -> state -> state -> Prop :=
| steps_none : forall s, steps w 0 s s
| steps_more : forall n s s' s'', steps w n s s' -> step w s' s'' -> steps w (S n) s s''.
