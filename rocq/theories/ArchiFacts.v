(** Facts on the archipelago's bookkeeping. *)
From Coq Require Import List Bool Arith Lia.
From Verif Require Import Outcome BaseFacts Policies Archipelago.
Import ListNotations.

Section F.
Context {T L C : Type} (t_push : T -> T * outcome unit) (c_default : C).
Notation archi := (archi (T := T) (L := L) (C := C)).
Notation world := (world (T := T) (L := L) (C := C)).
Implicit Types (w : world) (a b : archi).

Definition map_ok (a : archi) : Prop :=
  NoDup (a_islands a) /\ (forall x i, map_find (a_map a) x = Some i <-> nth_error (a_islands a) i = Some x) /\ length (a_map a) = length (a_islands a).
Definition arch_ok (w : world) (A : nat) (a : archi) : Prop := map_ok a /\ forall x, In x (a_islands a) -> w_isl w x = Some (Some A).
(** everything is in order, but for archipelago X *)
Definition ok_but (X : option nat) (w : world) : Prop :=
  (forall A a, Some A <> X -> w_arch w A = Some a -> arch_ok w A a) /\
  (forall x p, w_isl w x = Some p -> exists A a, p = Some A /\ Some A <> X /\ w_arch w A = Some a /\ In x (a_islands a)).
Definition ok (w : world) : Prop := ok_but None w.

Lemma free_arch l w A : w_arch (free_all w l) A = w_arch w A.
Proof. unfold free_all. revert w. induction l as [|x l IH]; intros w; cbn [fold_left]; [reflexivity|]. rewrite IH. reflexivity. Qed.
Lemma free_isl l w x : w_isl (free_all w l) x = if existsb (Nat.eqb x) l then None else w_isl w x.
Proof.
  unfold free_all. revert w. induction l as [|y l IH]; intros w; cbn [fold_left existsb]; [reflexivity|]. rewrite IH. cbn [set_isl w_isl]. destruct (Nat.eqb x y) eqn:E; cbn [orb]; [destruct (existsb (Nat.eqb x) l); reflexivity|reflexivity].
Qed.
Lemma point_arch l w B A : w_arch (point_all w l B) A = w_arch w A.
Proof. unfold point_all. revert w. induction l as [|x l IH]; intros w; cbn [fold_left]; [reflexivity|]. rewrite IH. reflexivity. Qed.
Lemma point_isl l w B x : w_isl (point_all w l B) x = if existsb (Nat.eqb x) l then Some (Some B) else w_isl w x.
Proof.
  unfold point_all. revert w. induction l as [|y l IH]; intros w; cbn [fold_left existsb]; [reflexivity|]. rewrite IH. cbn [set_isl w_isl]. destruct (Nat.eqb x y) eqn:E; cbn [orb]; [destruct (existsb (Nat.eqb x) l); reflexivity|reflexivity].
Qed.
Lemma exb_in x l : existsb (Nat.eqb x) l = true <-> In x l.
Proof. rewrite existsb_exists. split; [intros (y & H & E); apply Nat.eqb_eq in E; now subst|intros H; exists x; split; [exact H|apply Nat.eqb_refl]]. Qed.
Lemma exb_false x l : existsb (Nat.eqb x) l = false <-> ~ In x l.
Proof. rewrite <- exb_in. destruct (existsb (Nat.eqb x) l); split; congruence. Qed.
Lemma fresh_spec w l : fresh w l = true <-> NoDup l /\ forall x, In x l -> w_isl w x = None.
Proof.
  induction l as [|x l IH]; cbn [fresh]; [split; [intros _; split; [constructor|intros x []]|reflexivity]|]. destruct (w_isl w x) as [p|] eqn:E.
  - split; [discriminate|]. intros [_ H]. specialize (H x (or_introl eq_refl)). congruence.
  - rewrite andb_true_iff, negb_true_iff, exb_false, IH. split.
    + intros (N & D & H). split; [constructor; auto|]. intros y [<-|Hy]; auto.
    + intros (D & H). inversion D; subst. split; [assumption|]. split; [assumption|]. intros y Hy. apply H. now right.
Qed.

(** the map *)
Lemma find_emplace m x i y : map_find (map_emplace m x i) y = match map_find m x with Some _ => map_find m y | None => if Nat.eqb y x then Some i else map_find m y end.
Proof. unfold map_emplace. destruct (map_find m x); reflexivity. Qed.
Lemma emplace_length m x i : map_find m x = None -> length (map_emplace m x i) = S (length m).
Proof. unfold map_emplace. now intros ->. Qed.
Lemma push_map_ok a x g lg t c : map_ok a -> ~ In x (a_islands a) -> map_ok (mkar (a_islands a ++ [x]) (map_emplace (a_map a) x (length (a_islands a))) g lg t c).
Proof.
  intros (ND & F & Len) NI. assert (NF : map_find (a_map a) x = None). { destruct (map_find (a_map a) x) as [i|] eqn:E; [|reflexivity]. apply F in E. apply nth_error_In in E. contradiction. }
  split; [|split]; cbn [a_islands a_map].
  - apply NoDup_app_intro; auto; [repeat constructor; intros []|]. intros y Hy [->|[]]. contradiction.
  - intros y i. rewrite find_emplace, NF. destruct (Nat.eqb_spec y x) as [->|D].
    + split; [intros [= <-]; rewrite nth_error_app2, Nat.sub_diag by lia; reflexivity|]. intros H. destruct (lt_dec i (length (a_islands a))) as [Hi|Hi]; [rewrite nth_error_app1 in H by lia; apply nth_error_In in H; contradiction|].
      assert (i < length (a_islands a ++ [x])) by (apply nth_error_Some; congruence). rewrite app_length in *. cbn in *. f_equal. lia.
    + rewrite F. destruct (lt_dec i (length (a_islands a))) as [Hi|Hi]; [rewrite nth_error_app1 by lia; reflexivity|]. rewrite nth_error_app2 by lia. split; [intros H; exfalso; apply Hi; apply nth_error_Some; congruence|].
      destruct (i - length (a_islands a)) as [|k]; cbn; [congruence|destruct k; discriminate].
  - rewrite emplace_length by exact NF. rewrite app_length. cbn. lia.
Qed.
Lemma index_map_snoc l x i m : index_map (l ++ [x]) i m = map_emplace (index_map l i m) x (i + length l).
Proof. revert i m. induction l as [|y l IH]; intros i m; cbn [app index_map length]; [now rewrite Nat.add_0_r|]. rewrite IH. f_equal. lia. Qed.
Lemma index_map_ok l g lg t c : NoDup l -> map_ok (mkar l (index_map l 0 []) g lg t c).
Proof.
  induction l as [|x l IH] using rev_ind; intros ND.
  - split; [constructor|]. split; [|reflexivity]. intros x i. cbn. destruct i; split; discriminate.
  - assert (NoDup l /\ ~ In x l) as [N1 N2]. { pose proof (NoDup_remove _ _ _ ND) as [P Q]. rewrite app_nil_r in *. auto. }
    pose proof (push_map_ok (mkar l (index_map l 0 []) g lg t c) x g lg t c (IH N1) N2) as H. cbn [a_islands a_map] in H. rewrite index_map_snoc. exact H.
Qed.
Lemma empty_map_ok g lg t c : map_ok (mkar [] [] g lg t c).
Proof. apply (index_map_ok []). constructor. Qed.

(** what each part of an operation does *)
Lemma set_arch_eq w A v : w_arch (set_arch w A v) A = v.
Proof. cbn. now rewrite Nat.eqb_refl. Qed.
Lemma set_arch_neq w A B v : B <> A -> w_arch (set_arch w A v) B = w_arch w B.
Proof. cbn. intros H. destruct (Nat.eqb_spec B A); congruence. Qed.
Lemma arch_ok_isl w w' A a : (forall x, In x (a_islands a) -> w_isl w' x = w_isl w x) -> arch_ok w A a -> arch_ok w' A a.
Proof. intros H [M P]. split; [exact M|]. intros x Hx. rewrite H by exact Hx. now apply P. Qed.

Lemma but_absent w A : ok w -> w_arch w A = None -> ok_but (Some A) w.
Proof.
  intros [O1 O2] N. split; [intros B b _ E; apply O1; [discriminate|exact E]|]. intros x p E. destruct (O2 x p E) as (B & b & -> & _ & EB & I). exists B, b. repeat split; auto. congruence.
Qed.
Lemma but_free w A a : ok w -> w_arch w A = Some a -> ok_but (Some A) (free_all w (a_islands a)).
Proof.
  intros [O1 O2] E. split.
  - intros B b N EB. rewrite free_arch in EB. assert (B <> A) by congruence. destruct (O1 B b ltac:(discriminate) EB) as [M P]. split; [exact M|]. intros x Hx. rewrite free_isl.
    destruct (existsb _ _) eqn:X; [|now apply P]. apply exb_in in X. destruct (O1 A a ltac:(discriminate) E) as [_ Q]. specialize (Q x X). specialize (P x Hx). congruence.
  - intros x p H. rewrite free_isl in H. destruct (existsb _ _) eqn:X; [discriminate|]. apply exb_false in X. destruct (O2 x p H) as (B & b & -> & _ & EB & I). exists B, b. rewrite free_arch. repeat split; auto. intros [= ->]. rewrite E in EB. injection EB as <-. contradiction.
Qed.
(** giving archipelago A the new islands l *)
Lemma fill w A a' : ok_but (Some A) w -> map_ok a' -> (forall x, In x (a_islands a') -> w_isl w x = None) -> ok (set_arch (point_all w (a_islands a') A) A (Some a')).
Proof.
  intros [O1 O2] M F. split.
  - intros B b _ E. destruct (Nat.eq_dec B A) as [->|D].
    + rewrite set_arch_eq in E. injection E as <-. split; [exact M|]. intros x Hx. cbn [set_arch w_isl]. rewrite point_isl, (proj2 (exb_in _ _) Hx). reflexivity.
    + rewrite set_arch_neq, point_arch in E by exact D. assert (N : Some B <> Some A) by congruence. destruct (O1 B b N E) as [M' P]. split; [exact M'|]. intros x Hx. cbn [set_arch w_isl]. rewrite point_isl.
      destruct (existsb _ _) eqn:X; [|now apply P]. apply exb_in in X. specialize (F x X). specialize (P x Hx). congruence.
  - intros x p H. cbn [set_arch w_isl] in H. rewrite point_isl in H. destruct (existsb _ _) eqn:X.
    + injection H as <-. exists A, a'. rewrite set_arch_eq. repeat split; auto; [discriminate|now apply exb_in].
    + destruct (O2 x p H) as (B & b & -> & N & EB & I). exists B, b. rewrite set_arch_neq, point_arch by congruence. repeat split; auto. discriminate.
Qed.
Lemma drop w A : ok_but (Some A) w -> ok (set_arch w A None).
Proof.
  intros [O1 O2]. split.
  - intros B b _ E. destruct (Nat.eq_dec B A) as [->|D]; [rewrite set_arch_eq in E; discriminate|]. rewrite set_arch_neq in E by exact D. exact (O1 B b ltac:(congruence) E).
  - intros x p H. destruct (O2 x p H) as (B & b & -> & N & EB & I). exists B, b. rewrite set_arch_neq by congruence. repeat split; auto. discriminate.
Qed.
Lemma set_empty w A a' : ok_but (Some A) w -> a_islands a' = [] -> map_ok a' -> ok (set_arch w A (Some a')).
Proof. intros O E M. pose proof (fill w A a' O M) as H. rewrite E in H. cbn [point_all fold_left] in H. apply H. intros x []. Qed.
Lemma members w A a a' : ok w -> w_arch w A = Some a -> a_islands a' = a_islands a -> a_map a' = a_map a -> ok (set_arch w A (Some a')).
Proof.
  intros [O1 O2] E HI HM. split.
  - intros B b _ EB. destruct (Nat.eq_dec B A) as [->|D].
    + rewrite set_arch_eq in EB. injection EB as <-. destruct (O1 A a ltac:(discriminate) E) as [M P]. unfold arch_ok, map_ok in *. rewrite HI, HM. split; [exact M|exact P].
    + rewrite set_arch_neq in EB by exact D. exact (O1 B b ltac:(discriminate) EB).
  - intros x p H. destruct (O2 x p H) as (B & b & -> & _ & EB & I). destruct (Nat.eq_dec B A) as [->|D].
    + exists A, a'. rewrite set_arch_eq, HI. repeat split; auto; [discriminate|congruence].
    + exists B, b. rewrite set_arch_neq by exact D. repeat split; auto. discriminate.
Qed.
Lemma move_ok w A a B : ok_but (Some B) w -> A <> B -> w_arch w A = Some a -> ok (move_into w A a B).
Proof.
  intros [O1 O2] D E. destruct (O1 A a ltac:(congruence) E) as [M P]. split.
  - intros K k _ EK. unfold move_into in *. destruct (Nat.eq_dec K A) as [->|DA].
    + rewrite set_arch_eq in EK. injection EK as <-. split; [apply empty_map_ok|]. intros x [].
    + rewrite set_arch_neq in EK by exact DA. destruct (Nat.eq_dec K B) as [->|DB].
      * rewrite set_arch_eq in EK. injection EK as <-. split; [exact M|]. intros x Hx. cbn [set_arch w_isl]. rewrite point_isl, (proj2 (exb_in _ _) Hx). reflexivity.
      * rewrite set_arch_neq, point_arch in EK by exact DB. destruct (O1 K k ltac:(congruence) EK) as [M' P']. split; [exact M'|]. intros x Hx. cbn [set_arch w_isl]. rewrite point_isl.
        destruct (existsb _ _) eqn:X; [|now apply P']. apply exb_in in X. specialize (P x X). specialize (P' x Hx). congruence.
  - intros x p H. unfold move_into in *. cbn [set_arch w_isl] in H. rewrite point_isl in H. destruct (existsb _ _) eqn:X.
    + injection H as <-. exists B, a. rewrite set_arch_neq by auto. rewrite set_arch_eq. repeat split; auto; [discriminate|now apply exb_in].
    + destruct (O2 x p H) as (K & k & -> & N & EK & I). exists K, k. assert (K <> A). { intros ->. assert (k = a) by congruence. subst k. apply exb_false in X. contradiction. }
      rewrite !set_arch_neq, point_arch by congruence. repeat split; auto. discriminate.
Qed.
Lemma push_ok w A a x : ok w -> w_arch w A = Some a -> w_isl w x = None -> ok (fst (push_back_impl t_push w A a x)).
Proof.
  intros [O1 O2] E F. unfold push_back_impl. destruct (topo_push t_push (a_topo a)) as [t r]. cbn [fst]. destruct (O1 A a ltac:(discriminate) E) as [M P].
  assert (NI : ~ In x (a_islands a)) by (intros I; specialize (P x I); congruence).
  assert (MO := push_map_ok a x (a_mig a ++ [empty_group]) (a_log a) t (a_cfg a) M NI). split.
  - intros B b _ EB. destruct (Nat.eq_dec B A) as [->|D].
    + rewrite set_arch_eq in EB. injection EB as <-. split; [exact MO|]. intros y Hy. cbn [set_arch set_isl w_isl a_islands] in *. apply in_app_or in Hy. destruct (Nat.eqb_spec y x) as [->|Dy]; [reflexivity|].
      destruct Hy as [Hy|[Hy|[]]]; [now apply P|congruence].
    + rewrite set_arch_neq in EB by exact D. cbn [set_isl w_arch] in EB. destruct (O1 B b ltac:(discriminate) EB) as [M' P']. split; [exact M'|]. intros y Hy. cbn [set_arch set_isl w_isl]. specialize (P' y Hy).
      destruct (Nat.eqb_spec y x) as [->|Dy]; [congruence|exact P'].
  - intros y p H. cbn [set_arch set_isl w_isl] in H. destruct (Nat.eqb_spec y x) as [->|Dy].
    + injection H as <-. eexists A, _. rewrite set_arch_eq. repeat split; [discriminate|]. cbn [a_islands]. apply in_or_app. right. now left.
    + destruct (O2 y p H) as (B & b & -> & _ & EB & I). destruct (Nat.eq_dec B A) as [->|D].
      * eexists A, _. rewrite set_arch_eq. repeat split; [discriminate|]. cbn [a_islands]. apply in_or_app. left. congruence.
      * exists B, b. rewrite set_arch_neq by exact D. repeat split; auto. discriminate.
Qed.
Lemma push_isl w A a x y : w_isl (fst (push_back_impl t_push w A a x)) y = if Nat.eqb y x then Some (Some A) else w_isl w y.
Proof. unfold push_back_impl. destruct (topo_push _ _). reflexivity. Qed.
Lemma push_arch w A a x : exists t, w_arch (fst (push_back_impl t_push w A a x)) A = Some (mkar (a_islands a ++ [x]) (map_emplace (a_map a) x (length (a_islands a))) (a_mig a ++ [empty_group]) (a_log a) t (a_cfg a)).
Proof. unfold push_back_impl. destruct (topo_push _ _) as [t r]. exists t. cbn [fst]. apply set_arch_eq. Qed.
Lemma push_other w A a x B : B <> A -> w_arch (fst (push_back_impl t_push w A a x)) B = w_arch w B.
Proof. intros D. unfold push_back_impl. destruct (topo_push _ _) as [t r]. cbn [fst]. now rewrite set_arch_neq. Qed.
Lemma copies_ok l w B b : ok w -> w_arch w B = Some b -> NoDup l -> (forall x, In x l -> w_isl w x = None) ->
  ok (push_copies t_push w B l) /\ (exists b', w_arch (push_copies t_push w B l) B = Some b' /\ a_islands b' = a_islands b ++ l) /\ (forall A, A <> B -> w_arch (push_copies t_push w B l) A = w_arch w A).
Proof.
  revert w b. induction l as [|x l IH]; intros w b O E ND F; cbn [push_copies].
  - split; [exact O|]. split; [exists b; rewrite app_nil_r; auto|reflexivity].
  - rewrite E. inversion ND; subst. destruct (push_arch w B b x) as (t & EB).
    destruct (IH _ _ (push_ok w B b x O E (F x (or_introl eq_refl))) EB H2) as (O' & (b' & EB' & I') & OT).
    + intros y Hy. rewrite push_isl. destruct (Nat.eqb_spec y x) as [->|D]; [contradiction|]. apply F. now right.
    + split; [exact O'|]. split; [exists b'; rewrite I'; cbn [a_islands]; rewrite <- app_assoc; auto|]. intros A D. rewrite OT by exact D. now apply push_other.
Qed.
Lemma copy_ok w A a B l : ok w -> w_arch w A = Some a -> w_arch w B = None -> fresh w l = true ->
  ok (copy_into t_push c_default w a B l) /\ (exists b, w_arch (copy_into t_push c_default w a B l) B = Some b /\ a_islands b = l /\ a_mig b = a_mig a /\ a_log b = a_log a /\ a_topo b = a_topo a /\ a_cfg b = a_cfg a) /\
  (forall K, K <> B -> w_arch (copy_into t_push c_default w a B l) K = w_arch w K).
Proof.
  intros O E N F. apply fresh_spec in F. destruct F as [ND F]. unfold copy_into.
  assert (O0 : ok (set_arch w B (Some (default_archi c_default)))) by (apply set_empty; [now apply but_absent|reflexivity|apply empty_map_ok]).
  destruct (copies_ok l _ B _ O0 (set_arch_eq _ _ _) ND F) as (O1 & (b & EB & I) & OT). rewrite EB. cbn [a_islands default_archi app] in I. split; [|split].
  - eapply members; [exact O1|exact EB| |]; reflexivity.
  - eexists. rewrite set_arch_eq. split; [reflexivity|]. cbn. auto.
  - intros K D. rewrite set_arch_neq, OT by exact D. now apply set_arch_neq.
Qed.
Lemma assign_ok w A B w' r : ok w -> move_assign w A B = Some (w', r) -> ok w'.
Proof.
  intros O H. unfold move_assign in H. destruct (w_arch w A) as [a|] eqn:EA; [|discriminate]. destruct (w_arch w B) as [b|] eqn:EB; [|discriminate]. destruct (Nat.eqb_spec A B) as [->|D].
  - injection H as <- _. exact O.
  - injection H as <- _. apply move_ok; [now apply but_free|congruence|now rewrite free_arch].
Qed.
Lemma destroy_ok w A w' r : ok w -> destroy w A = Some (w', r) -> ok w'.
Proof. intros O H. unfold destroy in H. destruct (w_arch w A) as [a|] eqn:EA; [|discriminate]. injection H as <- _. apply drop. now apply but_free. Qed.
Lemma with_ok w A f w' r : ok w -> (forall a, a_islands (f a) = a_islands a /\ a_map (f a) = a_map a) -> with_members w A f = Some (w', r) -> ok w'.
Proof. intros O Hf H. unfold with_members in H. destruct (w_arch w A) as [a|] eqn:EA; [|discriminate]. injection H as <- _. eapply members; [exact O|exact EA| |]; apply Hf. Qed.
Lemma step_ok w o w' r : ok w -> step t_push c_default w o = Some (w', r) -> ok w'.
Proof.
  intros O H. destruct o; cbn [step] in H; try (eapply with_ok; [exact O| |exact H]; intros; split; reflexivity).
  - destruct (w_arch w A) eqn:E; [discriminate|]. injection H as <- _. apply set_empty; [now apply but_absent|reflexivity|apply empty_map_ok].
  - destruct (w_arch w A) as [a|] eqn:E; [|discriminate]. destruct (fresh w [x]) eqn:F; [|discriminate]. apply fresh_spec in F. destruct F as [_ F]. assert (W : w' = fst (push_back_impl t_push w A a x)) by (apply (f_equal (option_map fst)) in H; cbn in H; congruence). rewrite W. apply push_ok; auto. apply F. now left.
  - destruct (w_arch w A) as [a|] eqn:E; [|discriminate]. destruct (w_arch w B) eqn:EB; [discriminate|]. destruct (fresh w l && _) eqn:F; [|discriminate]. apply andb_true_iff in F. destruct F as [F _]. injection H as <- _. now apply (copy_ok w A a B l O E EB F).
  - destruct (w_arch w A) as [a|] eqn:E; [|discriminate]. destruct (w_arch w B) eqn:EB; [discriminate|]. injection H as <- _. apply move_ok; [now apply but_absent|congruence|exact E].
  - destruct (w_arch w A) as [a|] eqn:E; [|discriminate]. destruct (w_arch w B) as [b|] eqn:EB; [|discriminate]. destruct (w_arch w tmp) eqn:ET; [discriminate|]. destruct (Nat.eqb A B); [injection H as <- _; exact O|].
    destruct (fresh w l && _) eqn:F; [|discriminate]. apply andb_true_iff in F. destruct F as [F _]. destruct (copy_ok w B b tmp l O EB ET F) as (O1 & _).
    destruct (move_assign _ A tmp) as [[w1 r1]|] eqn:MA; [|discriminate]. eapply destroy_ok; [|exact H]. eapply assign_ok; eauto.
  - eapply assign_ok; eauto.
  - eapply destroy_ok; eauto.
  - destruct (w_arch w A) as [a|] eqn:E; [|discriminate]. destruct (fresh _ l) eqn:F; [|discriminate]. apply fresh_spec in F. destruct F as [ND F]. injection H as <- _.
    exact (fill (free_all w (a_islands a)) A (mkar l (index_map l 0 []) db log t c) (but_free w A a O E) (index_map_ok l db log t c ND) F).
  - destruct (w_arch w A) as [a|] eqn:E; [|discriminate]. injection H as <- _. apply set_empty; [now apply but_free|reflexivity|apply empty_map_ok].
Qed.
Lemma history_ok ops w : history t_push c_default ops w -> ok w.
Proof. induction 1 as [|ops w o w' r _ IH E]; [split; [intros A a _ H|intros x p H]; discriminate|eapply step_ok; eauto]. Qed.
End F.
