(** Consequences of the archipelago invariant, and the migrants database. *)
From Coq Require Import List Bool Arith Lia.
From Verif Require Import Outcome BaseFacts Policies Archipelago SpecArchi ArchiFacts.
Import ListNotations.

(** ** the database *)
Lemma vget_in {A} (l : list A) i : i < length l -> exists a, nth_error l i = Some a /\ vget l i = Ok a.
Proof. intros H. destruct (nth_error l i) as [a|] eqn:E; [exists a; unfold vget; rewrite E; auto|]. apply nth_error_None in E. lia. Qed.
Lemma db_get_spec db i : snd (db_step db (DGet i)) = db /\ (forall g, nth_error db i = Some g -> fst (db_step db (DGet i)) = Ok g) /\ (length db <= i -> fst (db_step db (DGet i)) = Throw OutOfRange).
Proof.
  cbn. unfold db_get. repeat split.
  - intros g E. assert (i < length db) by (apply nth_error_Some; congruence). destruct (Nat.leb_spec (length db) i); [lia|]. unfold vget. now rewrite E.
  - intros H. destruct (Nat.leb_spec (length db) i); [reflexivity|lia].
Qed.
Lemma db_extract_spec db i : let r := db_step db (DExtract i) in
  (forall g, nth_error db i = Some g -> fst r = Ok g /\ nth_error (snd r) i = Some empty_group) /\
  (forall k, k <> i -> nth_error (snd r) k = nth_error db k) /\ length (snd r) = length db /\ (length db <= i -> fst r = Throw OutOfRange /\ snd r = db).
Proof.
  cbn. unfold db_extract. destruct (Nat.leb_spec (length db) i) as [H|H]; cbn [fst snd].
  - split; [|auto]. intros g E. assert (i < length db) by (apply nth_error_Some; congruence). lia.
  - split; [intros g E; split; [unfold vget; now rewrite E|apply nth_error_upd_eq; lia]|]. repeat split; try lia.
    + intros k D. apply nth_error_upd_neq; auto.
    + apply upd_length.
Qed.
Lemma db_set_spec db i g : let r := db_step db (DSet i g) in
  (i < length db -> fst r = Ok empty_group /\ nth_error (snd r) i = Some g) /\
  (forall k, k <> i -> nth_error (snd r) k = nth_error db k) /\ length (snd r) = length db /\ (length db <= i -> fst r = Throw OutOfRange /\ snd r = db).
Proof.
  cbn. unfold db_set. destruct (Nat.leb_spec (length db) i) as [H|H]; cbn [fst snd bind].
  - repeat split; try lia; auto.
  - split; [intros _; split; [reflexivity|apply nth_error_upd_eq; lia]|]. repeat split; try lia.
    + intros k D. apply nth_error_upd_neq; auto.
    + apply upd_length.
Qed.
Lemma step_nowrite db o i g : writes i o = false -> nth_error db i = Some g -> nth_error (snd (db_step db o)) i = Some g.
Proof.
  destruct o as [k|k|k g'|db'|]; cbn [writes]; intros W E.
  - exact E.
  - apply Nat.eqb_neq in W. pose proof (db_extract_spec db k) as (_ & H & _). rewrite H by congruence. exact E.
  - apply Nat.eqb_neq in W. pose proof (db_set_spec db k g') as (_ & H & _). rewrite H by congruence. exact E.
  - discriminate.
  - cbn. rewrite nth_error_app1; [exact E|]. apply nth_error_Some. congruence.
Qed.
Lemma run_nowrite ops db i g : forallb (fun o => negb (writes i o)) ops = true -> nth_error db i = Some g -> nth_error (snd (db_run db ops)) i = Some g.
Proof.
  revert db. induction ops as [|o ops IH]; intros db W E; [exact E|]. cbn in W. apply andb_true_iff in W. destruct W as [W1 W2]. apply negb_true_iff in W1.
  cbn [db_run]. pose proof (step_nowrite db o i g W1 E) as S1. destruct (db_step db o) as [r db1]. cbn [snd] in S1. specialize (IH db1 W2 S1). destruct (db_run db1 ops) as [rs db2]. exact IH.
Qed.
Lemma run_app db o1 o2 : db_run db (o1 ++ o2) = let (r1, d1) := db_run db o1 in let (r2, d2) := db_run d1 o2 in (r1 ++ r2, d2).
Proof.
  revert db. induction o1 as [|o o1 IH]; intros db; cbn [app db_run]; [destruct (db_run db o2); reflexivity|].
  destruct (db_step db o) as [r d]. rewrite IH. destruct (db_run d o1) as [r1 d1]. destruct (db_run d1 o2) as [r2 d2]. reflexivity.
Qed.
Lemma extract_twice db ops1 i mid g : nth_error (snd (db_run db ops1)) i = Some g -> forallb (fun o => negb (writes i o)) mid = true ->
  exists rs1 rs2 db', db_run db (ops1 ++ DExtract i :: mid ++ [DExtract i]) = (rs1 ++ Ok g :: rs2 ++ [Ok empty_group], db') /\ length rs1 = length ops1 /\ length rs2 = length mid.
Proof.
  intros E W. rewrite run_app. assert (LEN : forall l d, length (fst (db_run d l)) = length l).
  { induction l as [|o l IH]; intros d; [reflexivity|]. cbn [db_run]. destruct (db_step d o) as [r d1]. specialize (IH d1). destruct (db_run d1 l). cbn in *. lia. }
  pose proof (LEN ops1 db) as L1. destruct (db_run db ops1) as [rs1 d1]. cbn [fst snd] in *. cbn [app db_run].
  pose proof (db_extract_spec d1 i) as (X & _). specialize (X g E). destruct X as [X1 X2]. destruct (db_step d1 (DExtract i)) as [r d2]. cbn [fst snd] in X1, X2. subst r.
  rewrite run_app. pose proof (run_nowrite mid d2 i _ W X2) as X3. pose proof (LEN mid d2) as L2. destruct (db_run d2 mid) as [rs2 d3]. cbn [fst snd] in *. cbn [db_run].
  pose proof (db_extract_spec d3 i) as (Y & _). specialize (Y _ X3). destruct Y as [Y1 Y2]. destruct (db_step d3 (DExtract i)) as [r d4]. cbn [fst snd] in Y1. subst r. exists rs1, rs2, d4. auto.
Qed.
Lemma last_set db ops1 i g mid : i < length (snd (db_run db ops1)) -> forallb (fun o => negb (writes i o)) mid = true ->
  nth_error (snd (db_run db (ops1 ++ DSet i g :: mid))) i = Some g.
Proof.
  intros H W. rewrite run_app. destruct (db_run db ops1) as [rs1 d1]. cbn [snd] in H. cbn [db_run]. pose proof (db_set_spec d1 i g) as (X & _). specialize (X H). destruct X as [_ X]. destruct (db_step d1 (DSet i g)) as [r d2]. cbn [snd] in X.
  pose proof (run_nowrite mid d2 i g W X) as Y. destruct (db_run d2 mid). exact Y.
Qed.

Lemma count_app {A} P (a b : list A) : count P (a ++ b) = count P a + count P b.
Proof. unfold count. now rewrite filter_app, app_length. Qed.
Lemma count_upd {A} (P : A -> bool) (l : list A) i a v : nth_error l i = Some a -> count P (upd l i v) + (if P a then 1 else 0) = count P l + (if P v then 1 else 0).
Proof.
  revert i. induction l as [|x l IH]; intros [|i] E; try discriminate; cbn in E.
  - injection E as ->. cbn. destruct (P a), (P v); cbn; lia.
  - specialize (IH i E). unfold count in *. cbn. destruct (P x); cbn; lia.
Qed.
Lemma conservation P db ops : P empty_group = false -> delivered P ops (fst (db_run db ops)) + count P (snd (db_run db ops)) <= count P db + put_in P ops.
Proof.
  intros PE. revert db. induction ops as [|o ops IH]; intros db; [change (0 + count P db <= count P db + 0); lia|]. cbn [db_run]. destruct (db_step db o) as [r d] eqn:ES. specialize (IH d). destruct (db_run d ops) as [rs d2]. cbn [fst snd] in *.
  destruct o as [k|k|k g|db'|]; cbn [db_step] in ES.
  - injection ES as <- <-. cbn [delivered put_in]. lia.
  - unfold db_extract in ES. destruct (Nat.leb_spec (length db) k) as [H|H]; injection ES as <- <-; cbn [delivered put_in]; [lia|].
    destruct (vget_in db k H) as (a & E & ->). pose proof (count_upd P db k a empty_group E) as Q. rewrite PE in Q. lia.
  - unfold db_set in ES. destruct (Nat.leb_spec (length db) k) as [H|H]; injection ES as <- <-; cbn [delivered put_in bind]; [lia|].
    destruct (vget_in db k H) as (a & E & _). pose proof (count_upd P db k a g E) as Q. lia.
  - injection ES as <- <-. cbn [delivered put_in]. lia.
  - injection ES as <- <-. rewrite count_app in IH. cbn [delivered put_in]. unfold count in IH at 2. cbn in IH. rewrite PE in IH. cbn in IH. unfold count in *. lia.
Qed.

(** ** archipelagos *)
Section F.
Context {T L C : Type} (t_push : T -> T * outcome unit) (c_default : C).
Notation archi := (archi (T := T) (L := L) (C := C)).
Notation world := (world (T := T) (L := L) (C := C)).
Notation history := (history t_push c_default).
Implicit Types (w : world) (a b : archi).

Lemma reach_ok ops w A a : history ops w -> w_arch w A = Some a -> arch_ok w A a.
Proof. intros H E. exact (proj1 (history_ok _ _ _ _ H) A a ltac:(discriminate) E). Qed.
Lemma lookup ops w A a : history ops w -> w_arch w A = Some a ->
  (forall i x, island_at a i = Ok x <-> get_island_idx a x = Ok i) /\
  (forall i, i < length (a_islands a) -> exists x, island_at a i = Ok x) /\
  (forall i, length (a_islands a) <= i -> island_at a i = Throw OutOfRange) /\
  (forall x, ~ In x (a_islands a) -> get_island_idx a x = Throw InvalidArgument).
Proof.
  intros H E. destruct (reach_ok _ _ _ _ H E) as ((ND & F & Len) & _).
  assert (AT : forall i x, island_at a i = Ok x <-> nth_error (a_islands a) i = Some x).
  { intros i x. unfold island_at, vget. destruct (Nat.leb_spec (length (a_islands a)) i) as [G|G].
    - apply nth_error_None in G. rewrite G. split; discriminate.
    - destruct (nth_error (a_islands a) i); split; congruence. }
  split; [|split; [|split]].
  - intros i x. rewrite AT. unfold get_island_idx. specialize (F x i). destruct (map_find (a_map a) x); rewrite <- F; split; congruence.
  - intros i Hi. destruct (nth_error (a_islands a) i) as [x|] eqn:X; [exists x; now apply AT|]. apply nth_error_None in X. lia.
  - intros i Hi. unfold island_at. destruct (Nat.leb_spec (length (a_islands a)) i); [reflexivity|lia].
  - intros x NI. unfold get_island_idx. destruct (map_find (a_map a) x) as [i|] eqn:X; [|reflexivity]. apply F in X. apply nth_error_In in X. contradiction.
Qed.
Lemma owner ops w x : history ops w ->
  (forall A, w_isl w x = Some (Some A) <-> exists a, w_arch w A = Some a /\ In x (a_islands a)) /\
  (w_isl w x = None <-> forall A a, w_arch w A = Some a -> ~ In x (a_islands a)) /\ w_isl w x <> Some None /\
  (forall A a, w_arch w A = Some a -> NoDup (a_islands a)).
Proof.
  intros H. pose proof (history_ok _ _ _ _ H) as [O1 O2]. assert (O : forall A a, w_arch w A = Some a -> arch_ok w A a) by (intros A a E; apply O1; [discriminate|exact E]).
  repeat split.
  - intros E. destruct (O2 x _ E) as (B & b & [= <-] & _ & EB & I). eauto.
  - intros (a & E & I). now apply (O A a E).
  - intros E A a EA I. destruct (O A a EA) as [_ P]. specialize (P x I). congruence.
  - intros N. destruct (w_isl w x) as [p|] eqn:E; [|reflexivity]. destruct (O2 x p E) as (B & b & -> & _ & EB & I). exfalso. exact (N B b EB I).
  - intros E. destruct (O2 x _ E) as (B & b & [=] & _).
  - intros A a E. apply (O A a E).
Qed.
Lemma asserts ops w A a : history ops w -> w_arch w A = Some a -> dtor_asserts w A a = true.
Proof.
  intros H E. destruct (reach_ok _ _ _ _ H E) as ((ND & F & Len) & P). unfold dtor_asserts. rewrite !andb_true_iff. repeat split.
  - apply forallb_forall. intros x I. rewrite (P x I). apply Nat.eqb_refl.
  - apply Nat.eqb_eq. exact Len.
  - apply forallb_forall. intros i I. apply in_seq in I. destruct (nth_error (a_islands a) i) as [x|] eqn:X; [|apply nth_error_None in X; lia]. apply F in X. rewrite X. apply Nat.eqb_refl.
Qed.

(** database size *)
Definition sized (X : option nat) (w : world) : Prop := forall A a, Some A <> X -> w_arch w A = Some a -> length (a_mig a) = length (a_islands a).
Lemma sized_set w A a : sized (Some A) w -> length (a_mig a) = length (a_islands a) -> sized None (set_arch w A (Some a)).
Proof. intros S E B b _ EB. destruct (Nat.eq_dec B A) as [->|D]; [rewrite set_arch_eq in EB; injection EB as <-; exact E|]. rewrite set_arch_neq in EB by exact D. apply (S B b); congruence. Qed.
Lemma sized_drop w A : sized (Some A) w -> sized None (set_arch w A None).
Proof. intros S B b _ EB. destruct (Nat.eq_dec B A) as [->|D]; [rewrite set_arch_eq in EB; discriminate|]. rewrite set_arch_neq in EB by exact D. apply (S B b); congruence. Qed.
Lemma sized_weak w X : sized None w -> sized X w.
Proof. intros S A a _ E. apply (S A a); [discriminate|exact E]. Qed.
Lemma sized_arch w w' X : (forall A, w_arch w' A = w_arch w A) -> sized X w -> sized X w'.
Proof. intros H S A a N E. apply (S A a N). now rewrite <- H. Qed.
Lemma sized_move w A a B : sized None w -> w_arch w A = Some a -> sized None (move_into w A a B).
Proof.
  intros S E. apply sized_set; [|reflexivity]. apply sized_weak. apply sized_set; [|apply (S A a); [discriminate|exact E]]. apply sized_weak. eapply sized_arch; [apply point_arch|exact S].
Qed.
Lemma sized_push w A a x : sized None w -> w_arch w A = Some a -> sized None (fst (push_back_impl t_push w A a x)).
Proof.
  intros S E. unfold push_back_impl. destruct (topo_push _ _) as [t r]. cbn [fst]. apply sized_set; [apply sized_weak; exact (sized_arch w _ None (fun _ => eq_refl) S)|].
  cbn [a_mig a_islands]. rewrite !app_length, (S A a); auto. discriminate.
Qed.
Lemma sized_assign w A B w' r : sized None w -> move_assign w A B = Some (w', r) -> sized None w'.
Proof.
  intros S H. unfold move_assign in H. destruct (w_arch w A) as [a|] eqn:EA; [|discriminate]. destruct (w_arch w B) as [b|] eqn:EB; [|discriminate]. destruct (Nat.eqb A B); injection H as <- _; [exact S|].
  apply sized_move; [|now rewrite free_arch]. eapply sized_arch; [apply free_arch|exact S].
Qed.
Lemma sized_destroy w A w' r : sized None w -> destroy w A = Some (w', r) -> sized None w'.
Proof. intros S H. unfold destroy in H. destruct (w_arch w A) as [a|] eqn:EA; [|discriminate]. injection H as <- _. apply sized_drop, sized_weak. eapply sized_arch; [apply free_arch|exact S]. Qed.
Lemma sized_with w A f w' r : sized None w -> (forall a, w_arch w A = Some a -> length (a_mig a) = length (a_islands a) -> length (a_mig (f a)) = length (a_islands (f a))) -> with_members w A f = Some (w', r) -> sized None w'.
Proof.
  intros S Hf H. unfold with_members in H. destruct (w_arch w A) as [a|] eqn:EA; [|discriminate]. injection H as <- _. apply sized_set; [now apply sized_weak|]. apply Hf; [reflexivity|]. apply (S A a); [discriminate|exact EA].
Qed.
Lemma sized_copy w A a B l : ok w -> w_arch w A = Some a -> w_arch w B = None -> fresh w l = true -> length l = length (a_islands a) -> sized None w -> sized None (copy_into t_push c_default w a B l).
Proof.
  intros O E N F Hl S K k _ EK. destruct (copy_ok t_push c_default w A a B l O E N F) as (_ & (b & EB & I & M & _) & OT). destruct (Nat.eq_dec K B) as [->|D].
  - assert (k = b) by congruence. subst k. rewrite I, M, Hl. apply (S A a); [discriminate|exact E].
  - rewrite OT in EK by exact D. apply (S K k); [discriminate|exact EK].
Qed.
Lemma sized_step w o w' r : ok w -> sized None w -> resizes w o = false -> step t_push c_default w o = Some (w', r) -> sized None w'.
Proof.
  intros O S R H. destruct o; cbn [step resizes] in H, R.
  - destruct (w_arch w A) eqn:E; [discriminate|]. injection H as <- _. apply sized_set; [now apply sized_weak|reflexivity].
  - destruct (w_arch w A) as [a|] eqn:E; [|discriminate]. destruct (fresh w [x]); [|discriminate]. apply (f_equal (option_map fst)) in H. cbn [option_map] in H. injection H as <-. now apply sized_push.
  - destruct (w_arch w A) as [a|] eqn:E; [|discriminate]. destruct (w_arch w B) eqn:EB; [discriminate|]. destruct (fresh w l && _) eqn:F; [|discriminate]. apply andb_true_iff in F. destruct F as [F G]. apply Nat.eqb_eq in G. injection H as <- _. eapply sized_copy; eauto.
  - destruct (w_arch w A) as [a|] eqn:E; [|discriminate]. destruct (w_arch w B) eqn:EB; [discriminate|]. injection H as <- _. now apply sized_move.
  - destruct (w_arch w A) as [a|] eqn:E; [|discriminate]. destruct (w_arch w B) as [b|] eqn:EB; [|discriminate]. destruct (w_arch w tmp) eqn:ET; [discriminate|]. destruct (Nat.eqb A B); [injection H as <- _; exact S|].
    destruct (fresh w l && _) eqn:F; [|discriminate]. apply andb_true_iff in F. destruct F as [F G]. apply Nat.eqb_eq in G. destruct (move_assign _ A tmp) as [[w1 r1]|] eqn:MA; [|discriminate].
    eapply sized_destroy; [|exact H]. eapply sized_assign; [|exact MA]. eapply sized_copy; eauto.
  - eapply sized_assign; eauto.
  - eapply sized_destroy; eauto.
  - eapply sized_with; [exact S| |exact H]. auto.
  - eapply sized_with; [exact S| |exact H]. intros a E _. rewrite E in R. apply negb_false_iff, Nat.eqb_eq in R. exact R.
  - eapply sized_with; [exact S| |exact H]. auto.
  - eapply sized_with; [exact S| |exact H]. intros a _ E. cbn [a_mig a_islands]. unfold db_extract. destruct (Nat.leb _ _); cbn [snd]; [exact E|]. now rewrite upd_length.
  - eapply sized_with; [exact S| |exact H]. intros a _ E. cbn [a_mig a_islands]. unfold db_set. destruct (Nat.leb _ _); cbn [snd]; [exact E|]. now rewrite upd_length.
  - eapply sized_with; [exact S| |exact H]. auto.
  - destruct (w_arch w A) as [a|] eqn:E; [|discriminate]. destruct (fresh _ l); [|discriminate]. injection H as <- _. apply negb_false_iff, Nat.eqb_eq in R. apply sized_set; [|exact R]. eapply sized_arch; [intros; rewrite point_arch; apply free_arch|]. now apply sized_weak.
  - destruct (w_arch w A) as [a|] eqn:E; [|discriminate]. injection H as <- _. apply sized_set; [|reflexivity]. eapply sized_arch; [apply free_arch|]. now apply sized_weak.
Qed.
Lemma sized_is_history ops w : sized_history t_push c_default ops w -> history ops w.
Proof. induction 1; [constructor|econstructor; eauto]. Qed.
Lemma db_size ops w A a : sized_history t_push c_default ops w -> w_arch w A = Some a -> length (a_mig a) = length (a_islands a).
Proof.
  intros H E. assert (S : sized None w); [|apply (S A a); [discriminate|exact E]]. clear E. induction H as [|ops w o w' r H IH R E]; [intros B b _ X; discriminate|].
  apply (sized_step w o w' r); auto. apply (history_ok t_push c_default ops). now apply sized_is_history.
Qed.

(** single operations *)
Lemma push_spec w A a x w' r : w_arch w A = Some a -> step t_push c_default w (PushBack A x) = Some (w', r) ->
  r = snd (topo_push t_push (a_topo a)) /\
  exists a', w_arch w' A = Some a' /\ a_islands a' = a_islands a ++ [x] /\ a_mig a' = a_mig a ++ [empty_group] /\ a_topo a' = fst (topo_push t_push (a_topo a)) /\ a_log a' = a_log a /\ a_cfg a' = a_cfg a.
Proof.
  intros E H. cbn [step] in H. rewrite E in H. destruct (fresh w [x]); [|discriminate]. unfold push_back_impl in H. destruct (topo_push t_push (a_topo a)) as [t q]. injection H as <- <-. split; [reflexivity|]. eexists. rewrite set_arch_eq. split; [reflexivity|]. cbn. auto.
Qed.
Lemma copy_spec ops w A a B l w' r : history ops w -> w_arch w A = Some a -> step t_push c_default w (Copy A B l) = Some (w', r) ->
  r = Ok tt /\ w_arch w' A = Some a /\
  exists b, w_arch w' B = Some b /\ length (a_islands b) = length (a_islands a) /\ (forall x, In x (a_islands b) -> ~ In x (a_islands a)) /\ a_mig b = a_mig a /\ a_log b = a_log a /\ a_topo b = a_topo a /\ a_cfg b = a_cfg a.
Proof.
  intros HI E H. pose proof (history_ok _ _ _ _ HI) as O. cbn [step] in H. rewrite E in H. destruct (w_arch w B) eqn:EB; [discriminate|]. destruct (fresh w l && _) eqn:F; [|discriminate]. apply andb_true_iff in F. destruct F as [F G]. apply Nat.eqb_eq in G.
  injection H as <- <-. split; [reflexivity|]. destruct (copy_ok t_push c_default w A a B l O E EB F) as (_ & (b & Eb & I & M & LG & TP & CF) & OT). split; [rewrite OT by congruence; exact E|]. exists b. rewrite I. repeat split; auto.
  intros x Hx Hy. apply fresh_spec in F. destruct F as [_ F]. specialize (F x Hx). destruct (reach_ok _ _ _ _ HI E) as [_ P]. specialize (P x Hy). congruence.
Qed.
Lemma move_spec w A a B w' r : w_arch w A = Some a -> A <> B -> step t_push c_default w (Move A B) = Some (w', r) \/ step t_push c_default w (MoveAssign B A) = Some (w', r) ->
  r = Ok tt /\ w_arch w' B = Some a /\ exists e, w_arch w' A = Some e /\ a_islands e = [] /\ a_map e = [] /\ a_mig e = [] /\ a_log e = [].
Proof.
  intros E D [H|H]; cbn [step] in H.
  - rewrite E in H. destruct (w_arch w B); [discriminate|]. injection H as <- <-. unfold move_into. rewrite set_arch_neq by auto. rewrite !set_arch_eq. repeat split; auto. eexists. split; [reflexivity|]. cbn. auto.
  - unfold move_assign in H. rewrite E in H. destruct (w_arch w B) as [b|]; [|discriminate]. destruct (Nat.eqb_spec B A); [congruence|]. injection H as <- <-. unfold move_into. rewrite set_arch_neq by auto. rewrite !set_arch_eq. repeat split; auto. eexists. split; [reflexivity|]. cbn. auto.
Qed.
Lemma assign_spec ops w A a B b tmp l w' r : history ops w -> w_arch w A = Some a -> w_arch w B = Some b -> A <> B -> step t_push c_default w (CopyAssign A B tmp l) = Some (w', r) ->
  r = Ok tt /\ w_arch w' B = Some b /\ w_arch w' tmp = None /\ (forall x, In x (a_islands a) -> ~ In x l -> w_isl w' x = None) /\
  exists a', w_arch w' A = Some a' /\ a_islands a' = l /\ length l = length (a_islands b) /\ a_mig a' = a_mig b /\ a_log a' = a_log b /\ a_topo a' = a_topo b /\ a_cfg a' = a_cfg b.
Proof.
  intros HI EA EB D H. pose proof (h_step _ _ _ _ _ _ _ HI H) as HI'. pose proof (history_ok _ _ _ _ HI) as O. cbn [step] in H. rewrite EA, EB in H. destruct (w_arch w tmp) eqn:ET; [discriminate|]. destruct (Nat.eqb_spec A B); [contradiction|].
  destruct (fresh w l && _) eqn:F; [|discriminate]. apply andb_true_iff in F. destruct F as [F G]. apply Nat.eqb_eq in G.
  destruct (copy_ok t_push c_default w B b tmp l O EB ET F) as (O1 & (c & Ec & I & M & LG & TP & CF) & OT). set (w1 := copy_into t_push c_default w b tmp l) in *.
  assert (DA : A <> tmp) by congruence. assert (DB : B <> tmp) by congruence. unfold move_assign in H. rewrite (OT A DA), EA, Ec in H. destruct (Nat.eqb_spec A tmp); [contradiction|].
  unfold destroy in H. unfold move_into in H at 1. rewrite set_arch_eq in H. cbn [moved_from a_islands free_all fold_left] in H. injection H as <- <-.
  assert (RA : w_arch (set_arch (move_into (free_all w1 (a_islands a)) tmp c A) tmp None) A = Some c) by (unfold move_into; rewrite !set_arch_neq, set_arch_eq by auto; reflexivity).
  assert (RB : w_arch (set_arch (move_into (free_all w1 (a_islands a)) tmp c A) tmp None) B = Some b) by (unfold move_into; rewrite !set_arch_neq, point_arch, free_arch, OT by auto; exact EB).
  repeat split; auto.
  - apply set_arch_eq.
  - intros x Hx Hn. cbn [set_arch move_into w_isl]. unfold move_into. cbn [set_arch w_isl]. rewrite point_isl, free_isl, I. rewrite (proj2 (exb_false _ _) Hn), (proj2 (exb_in _ _) Hx). reflexivity.
  - exists c. rewrite RA. auto 10.
Qed.
End F.
