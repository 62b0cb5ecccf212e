(** Vocabulary for C56 and C57. *)
From Coq Require Import List Bool Arith.
From Verif Require Import Outcome Policies Archipelago.
Import ListNotations.

(** ** C57 *)
(** The operation can change entry i. *)
Definition writes (i : nat) (o : db_op) : bool :=
  match o with DExtract k | DSet k _ => Nat.eqb k i | DReplace _ => true | DGet _ | DGrow => false end.
Definition count {A} (P : A -> bool) (l : list A) : nat := length (filter P l).
(** How many of the extractions delivered a batch with P. *)
Fixpoint delivered (P : group -> bool) (ops : list db_op) (rs : list (outcome group)) : nat :=
  match ops, rs with
  | DExtract _ :: ops', Ok g :: rs' => (if P g then 1 else 0) + delivered P ops' rs'
  | _ :: ops', _ :: rs' => delivered P ops' rs'
  | _, _ => 0
  end.
(** How many batches with P were put in. *)
Fixpoint put_in (P : group -> bool) (ops : list db_op) : nat :=
  match ops with
  | [] => 0
  | DSet _ g :: ops' => (if P g then 1 else 0) + put_in P ops'
  | DReplace db :: ops' => count P db + put_in P ops'
  | _ :: ops' => put_in P ops'
  end.

(** ** C56 *)
Section S.
Context {T L C : Type}.
(** The database replaced by one of another size: only set_migrants_db and loading a file
    not written by save can do this. *)
Definition resizes (w : world (T := T) (L := L) (C := C)) (o : op (T := T) (L := L) (C := C)) : bool :=
  match o with
  | SetDb A db => match w_arch w A with Some a => negb (Nat.eqb (length db) (length (a_islands a))) | None => false end
  | LoadOk A l db _ _ _ => negb (Nat.eqb (length db) (length l))
  | _ => false
  end.
Inductive sized_history (t_push : T -> T * outcome unit) (c_default : C) : list op -> world -> Prop :=
| sh_nil : sized_history t_push c_default [] (empty_world (T := T) (L := L) (C := C))
| sh_step ops w o w' r : sized_history t_push c_default ops w -> resizes w o = false -> step t_push c_default w o = Some (w', r) ->
    sized_history t_push c_default (ops ++ [o]) w'.
End S.
