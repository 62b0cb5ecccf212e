(** Properties C56 and C57: the archipelago's bookkeeping and the migrants database.
    Only statements, non-vacuity examples and assumption listings. *)
From Coq Require Import List Bool Arith ZArith Lia.
From Verif Require Import Dbl Outcome Policies Archipelago SpecArchi ArchiFacts ArchiFacts2.
Import ListNotations.
Local Open Scope nat_scope.

(** ** C56. [history t_push c ops w]: the world w after the operations ops, for any
    topology (t_push may throw) and any addresses given out by the allocator. *)

(** Indexing and index lookup are inverse to each other; both raise for what is not there. *)
Theorem C56_lookup : forall T L C (t_push : T -> T * outcome unit) (c : C) ops (w : world (L := L)) A a, history t_push c ops w -> w_arch w A = Some a ->
  (forall i x, island_at a i = Ok x <-> get_island_idx a x = Ok i) /\
  (forall i, i < length (a_islands a) -> exists x, island_at a i = Ok x) /\
  (forall i, length (a_islands a) <= i -> island_at a i = Throw OutOfRange) /\
  (forall x, ~ In x (a_islands a) -> get_island_idx a x = Throw InvalidArgument).
Proof. exact @lookup. Qed.
Print Assumptions C56_lookup.
(** An island points to the one archipelago that holds it: no island is lost, shared or
    left with a pointer to a dead archipelago. *)
Theorem C56_owner : forall T L C (t_push : T -> T * outcome unit) (c : C) ops (w : world (L := L)) x, history t_push c ops w ->
  (forall A, w_isl w x = Some (Some A) <-> exists a, w_arch w A = Some a /\ In x (a_islands a)) /\
  (w_isl w x = None <-> forall A a, w_arch w A = Some a -> ~ In x (a_islands a)) /\ w_isl w x <> Some None /\
  (forall A a, w_arch w A = Some a -> NoDup (a_islands a)).
Proof. exact @owner. Qed.
Print Assumptions C56_owner.
(** The assertions in the destructor hold whenever it is called. *)
Theorem C56_destructor_asserts : forall T L C (t_push : T -> T * outcome unit) (c : C) ops (w : world (L := L)) A a, history t_push c ops w -> w_arch w A = Some a -> dtor_asserts w A a = true.
Proof. exact @asserts. Qed.
Print Assumptions C56_destructor_asserts.
(** One database entry per island, unless the user put in a database of another size. *)
Theorem C56_db_size : forall T L C (t_push : T -> T * outcome unit) (c : C) ops (w : world (L := L)) A a, sized_history t_push c ops w -> w_arch w A = Some a -> length (a_mig a) = length (a_islands a).
Proof. exact @db_size. Qed.
Print Assumptions C56_db_size.
(** push_back adds the island and its empty entry, also when the topology raises. *)
Theorem C56_push_back : forall T L C (t_push : T -> T * outcome unit) (c : C) (w : world (L := L)) A a x w' r, w_arch w A = Some a -> step t_push c w (PushBack A x) = Some (w', r) ->
  r = snd (topo_push t_push (a_topo a)) /\
  exists a', w_arch w' A = Some a' /\ a_islands a' = a_islands a ++ [x] /\ a_mig a' = a_mig a ++ [empty_group] /\ a_topo a' = fst (topo_push t_push (a_topo a)) /\ a_log a' = a_log a /\ a_cfg a' = a_cfg a.
Proof. exact @push_spec. Qed.
Print Assumptions C56_push_back.
(** A copy has as many islands, all different objects, and the same other members. *)
Theorem C56_copy : forall T L C (t_push : T -> T * outcome unit) (c : C) ops (w : world (L := L)) A a B l w' r, history t_push c ops w -> w_arch w A = Some a -> step t_push c w (Copy A B l) = Some (w', r) ->
  r = Ok tt /\ w_arch w' A = Some a /\
  exists b, w_arch w' B = Some b /\ length (a_islands b) = length (a_islands a) /\ (forall x, In x (a_islands b) -> ~ In x (a_islands a)) /\ a_mig b = a_mig a /\ a_log b = a_log a /\ a_topo b = a_topo a /\ a_cfg b = a_cfg a.
Proof. exact @copy_spec. Qed.
Print Assumptions C56_copy.
(** Copy assignment: likewise, the temporary is gone and the old islands are freed. *)
Theorem C56_copy_assign : forall T L C (t_push : T -> T * outcome unit) (c : C) ops (w : world (L := L)) A a B b tmp l w' r,
  history t_push c ops w -> w_arch w A = Some a -> w_arch w B = Some b -> A <> B -> step t_push c w (CopyAssign A B tmp l) = Some (w', r) ->
  r = Ok tt /\ w_arch w' B = Some b /\ w_arch w' tmp = None /\ (forall x, In x (a_islands a) -> ~ In x l -> w_isl w' x = None) /\
  exists a', w_arch w' A = Some a' /\ a_islands a' = l /\ length l = length (a_islands b) /\ a_mig a' = a_mig b /\ a_log a' = a_log b /\ a_topo a' = a_topo b /\ a_cfg a' = a_cfg b.
Proof. exact @assign_spec. Qed.
Print Assumptions C56_copy_assign.
(** A move hands over everything and leaves the source empty. *)
Theorem C56_move : forall T L C (t_push : T -> T * outcome unit) (c : C) (w : world (L := L)) A a B w' r, w_arch w A = Some a -> A <> B ->
  step t_push c w (Move A B) = Some (w', r) \/ step t_push c w (MoveAssign B A) = Some (w', r) ->
  r = Ok tt /\ w_arch w' B = Some a /\ exists e, w_arch w' A = Some e /\ a_islands e = [] /\ a_map e = [] /\ a_mig e = [] /\ a_log e = [].
Proof. exact @move_spec. Qed.
Print Assumptions C56_move.

(** Push two islands (the second push_back of the topology raises), copy, assign back,
    move: archipelago 3 ends up with islands at the addresses 20 and 21. *)
Definition t_demo (n : nat) : nat * outcome unit := (S n, if Nat.eqb n 1 then Throw InvalidArgument else Ok tt).
Definition ops_demo : list (op (T := nat) (L := nat) (C := bool)) :=
  [New 1 (TUser 0); PushBack 1 10; PushBack 1 11; Copy 1 2 [12; 13]; TaskSet 2 1 (mkgrp [7%Z] [] []); CopyAssign 1 2 9 [20; 21]; Move 1 3; Destroy 2; PushBack 3 10].
Fixpoint play (w : world (T := nat) (L := nat) (C := bool)) l := match l with [] => Some w | o :: l' => match step t_demo true w o with Some (w', _) => play w' l' | None => None end end.
Example C56_case : exists w a, sized_history t_demo true ops_demo w /\ w_arch w 3 = Some a /\ a_islands a = [20; 21; 10] /\ a_mig a = [empty_group; mkgrp [7%Z] [] []; empty_group] /\
  get_island_idx a 21 = Ok 1 /\ island_at a 1 = Ok 21 /\ a_topo a = TUser 3 /\ w_isl w 12 = None /\ w_arch w 2 = None.
Proof.
  assert (P : forall l1 w1, sized_history t_demo true l1 w1 -> forall l2 w2, play w1 l2 = Some w2 -> forallb (fun o => match o with SetDb _ _ | LoadOk _ _ _ _ _ _ => false | _ => true end) l2 = true -> sized_history t_demo true (l1 ++ l2) w2).
  { intros l1 w1 H l2. revert l1 w1 H. induction l2 as [|o l2 IH]; intros l1 w1 H w2 E F; cbn [play] in E; [injection E as <-; now rewrite app_nil_r|].
    destruct (step t_demo true w1 o) as [[w' r]|] eqn:S; [|discriminate]. cbn [forallb] in F. apply andb_true_iff in F. destruct F as [F1 F2]. change (o :: l2) with ([o] ++ l2). rewrite app_assoc. apply (IH (l1 ++ [o]) w'); auto.
    econstructor; [exact H| |exact S]. destruct o; try reflexivity; discriminate. }
  destruct (play empty_world ops_demo) as [w|] eqn:E; [|discriminate E]. exists w. pose proof (P [] _ (sh_nil _ _) ops_demo w E eq_refl) as H. cbn in E. injection E as <-. eexists. repeat split; [exact H|..]; reflexivity.
Qed.

(** ** C57. [db_run db ops]: the results of the operations ops, in the order in which they
    take the mutex, and the database afterwards. *)

(** get_migrants returns the entry and changes nothing. *)
Theorem C57_get : forall db i, snd (db_step db (DGet i)) = db /\ (forall g, nth_error db i = Some g -> fst (db_step db (DGet i)) = Ok g) /\ (length db <= i -> fst (db_step db (DGet i)) = Throw OutOfRange).
Proof. exact db_get_spec. Qed.
Print Assumptions C57_get.
(** extract_migrants returns the entry and empties it, and it only. *)
Theorem C57_extract : forall db i, let r := db_step db (DExtract i) in
  (forall g, nth_error db i = Some g -> fst r = Ok g /\ nth_error (snd r) i = Some (mkgrp [] [] [])) /\
  (forall k, k <> i -> nth_error (snd r) k = nth_error db k) /\ length (snd r) = length db /\ (length db <= i -> fst r = Throw OutOfRange /\ snd r = db).
Proof. exact db_extract_spec. Qed.
Print Assumptions C57_extract.
(** set_migrants changes its entry only. *)
Theorem C57_set : forall db i g, let r := db_step db (DSet i g) in
  (i < length db -> fst r = Ok (mkgrp [] [] []) /\ nth_error (snd r) i = Some g) /\
  (forall k, k <> i -> nth_error (snd r) k = nth_error db k) /\ length (snd r) = length db /\ (length db <= i -> fst r = Throw OutOfRange /\ snd r = db).
Proof. exact db_set_spec. Qed.
Print Assumptions C57_set.
(** What was set stays until the entry is set, extracted or the database replaced. *)
Theorem C57_last_set : forall db ops1 i g mid, i < length (snd (db_run db ops1)) -> forallb (fun o => negb (writes i o)) mid = true ->
  nth_error (snd (db_run db (ops1 ++ DSet i g :: mid))) i = Some g.
Proof. exact last_set. Qed.
Print Assumptions C57_last_set.
(** Of two extractions with no set in between the second gets nothing. *)
Theorem C57_extract_once : forall db ops1 i mid g, nth_error (snd (db_run db ops1)) i = Some g -> forallb (fun o => negb (writes i o)) mid = true ->
  exists rs1 rs2 db', db_run db (ops1 ++ DExtract i :: mid ++ [DExtract i]) = (rs1 ++ Ok g :: rs2 ++ [Ok (mkgrp [] [] [])], db') /\ length rs1 = length ops1 /\ length rs2 = length mid.
Proof. exact extract_twice. Qed.
Print Assumptions C57_extract_once.
(** Conservation, for any property P of batches that the empty one has not (say, "contains
    individual 7"): extractions deliver no more such batches than were put in. A batch put in
    once is evicted at most once, and not at all while it is still in the database. *)
Theorem C57_conservation : forall P db ops, P (mkgrp [] [] []) = false ->
  delivered P ops (fst (db_run db ops)) + count P (snd (db_run db ops)) <= count P db + put_in P ops.
Proof. exact conservation. Qed.
Print Assumptions C57_conservation.
Example C57_case : let g := mkgrp [7%Z] [] [] in let ops := [DSet 1 g; DGet 1; DExtract 0; DExtract 1; DGrow; DExtract 1; DExtract 5; DSet 2 g] in
  let has7 := fun g => existsb (Z.eqb 7) (g_id g) in
  db_run [empty_group; empty_group] ops = ([Ok empty_group; Ok g; Ok empty_group; Ok g; Ok empty_group; Ok empty_group; Throw OutOfRange; Ok empty_group], [empty_group; empty_group; g]) /\
  delivered has7 ops (fst (db_run [empty_group; empty_group] ops)) = 1 /\ put_in has7 ops = 2.
Proof. repeat split. Qed.
