(** Lemmas about Pareto dominance. *)
From Coq Require Import List Bool Arith ZArith Lia Permutation.
From Verif Require Import Dbl Outcome StdSort BaseFacts Compare MultiObj SpecOrder CompareFacts.
Import ListNotations.

Lemma pd_loop_spec o1 : forall o2 found, length o1 = length o2 ->
  (pd_loop found o1 o2 = true <->
   (forall i x y, nth_error o1 i = Some x -> nth_error o2 i = Some y -> not_worse x y) /\
   (found = true \/ exists i x y, nth_error o1 i = Some x /\ nth_error o2 i = Some y /\ better x y)).
Proof.
  induction o1 as [|x o1 IH]; intros [|y o2] found HL; simpl in HL; try discriminate; simpl.
  - split.
    + intros ->. split; [intros i x y H; destruct i; discriminate|auto].
    + intros [_ [H|(i & x & y & H & _)]]; [exact H|destruct i; discriminate].
  - rewrite greater_than_f_flip. destruct (less_than_f y x) eqn:E1.
    + apply less_than_f_spec in E1. split; [discriminate|]. intros [H _].
      exfalso. exact (H 0 x y eq_refl eq_refl E1).
    + apply ltf_false in E1. destruct (less_than_f x y) eqn:E2.
      * apply less_than_f_spec in E2. rewrite IH by lia. split.
        -- intros [H _]. split; [|right; exists 0, x, y; auto].
           intros [|i] a b; simpl; [intros A B; inversion A; inversion B; subst; exact E1|apply H].
        -- intros [H _]. split; [|auto]. intros i a b Ha Hb. exact (H (S i) a b Ha Hb).
      * apply ltf_false in E2. rewrite IH by lia. split.
        -- intros [H K]. split.
           ++ intros [|i] a b; simpl; [intros A B; inversion A; inversion B; subst; exact E1|apply H].
           ++ destruct K as [K|(i & a & b & K)]; [auto|right; exists (S i), a, b; exact K].
        -- intros [H K]. split; [intros i a b Ha Hb; exact (H (S i) a b Ha Hb)|].
           destruct K as [K|([|i] & a & b & Ka & Kb & K)]; [auto| |].
           ++ simpl in Ka, Kb. inversion Ka; inversion Kb; subst. contradiction.
           ++ right; exists i, a, b; auto.
Qed.

(** Boolean dominance of equal-length vectors. *)
Definition domb (a b : vec) : bool := pd_loop false a b.

Lemma domb_spec a b : length a = length b -> (domb a b = true <-> dominates a b).
Proof.
  intros HL. unfold domb, dominates. rewrite pd_loop_spec by exact HL. split.
  - intros [H [K|K]]; [discriminate|auto].
  - intros (_ & H & K). auto.
Qed.

Lemma pareto_dominance_ok a b : length a = length b -> pareto_dominance a b = Ok (domb a b).
Proof. intros H. unfold pareto_dominance. rewrite H, Nat.eqb_refl. reflexivity. Qed.

Lemma pareto_dominance_spec a b :
  (length a = length b -> exists r, pareto_dominance a b = Ok r /\ (r = true <-> dominates a b)) /\
  (length a <> length b -> pareto_dominance a b = Throw InvalidArgument).
Proof.
  split; intros H.
  - exists (domb a b). split; [apply pareto_dominance_ok; exact H|apply domb_spec; exact H].
  - unfold pareto_dominance. apply Nat.eqb_neq in H. rewrite H. reflexivity.
Qed.

Lemma dominates_irrefl a : ~ dominates a a.
Proof.
  intros (_ & _ & i & x & y & H1 & H2 & H3). rewrite H1 in H2; inversion H2; subst.
  exact (better_irrefl _ H3).
Qed.

Lemma dominates_trans a b c : dominates a b -> dominates b c -> dominates a c.
Proof.
  intros (L1 & N1 & i & x & y & H1 & H2 & H3) (L2 & N2 & _). split; [congruence|]. split.
  - intros k u w Hu Hw.
    assert (exists v, nth_error b k = Some v) as [v Hv].
    { destruct (nth_error b k) eqn:E; eauto. apply nth_error_None in E.
      assert (k < length a) by (apply nth_error_Some; congruence). lia. }
    eapply not_worse_trans; eauto.
  - assert (exists w, nth_error c i = Some w) as [w Hw].
    { destruct (nth_error c i) eqn:E; eauto. apply nth_error_None in E.
      assert (i < length a) by (apply nth_error_Some; congruence). lia. }
    exists i, x, w. repeat split; auto. eapply better_not_worse; eauto.
Qed.

Lemma dominates_asym a b : dominates a b -> ~ dominates b a.
Proof. intros H K. exact (dominates_irrefl _ (dominates_trans _ _ _ H K)). Qed.

Lemma dominates_dec a b : {dominates a b} + {~ dominates a b}.
Proof.
  destruct (Nat.eq_dec (length a) (length b)) as [E|E].
  - destruct (domb a b) eqn:D.
    + left. apply domb_spec; assumption.
    + right. intros H. apply domb_spec in H; congruence.
  - right. intros [H _]. contradiction.
Qed.

Lemma pnt_nth_error pts i p : nth_error pts i = Some p -> pnt pts i = p.
Proof. apply nth_error_nth. Qed.
Lemma pnt_some pts i : i < length pts -> nth_error pts i = Some (pnt pts i).
Proof. apply nth_error_nth'. Qed.

Lemma dom_idx_iff pts i j : i < length pts -> j < length pts ->
  (dom_idx pts i j <-> dominates (pnt pts i) (pnt pts j)).
Proof.
  intros Hi Hj. split.
  - intros (a & b & Ha & Hb & D). apply pnt_nth_error in Ha, Hb. subst. exact D.
  - intros D. exists (pnt pts i), (pnt pts j). repeat split; auto using pnt_some; apply D.
Qed.
Lemma dom_idx_lt pts i j : dom_idx pts i j -> i < length pts /\ j < length pts.
Proof. intros (a & b & Ha & Hb & _). split; apply nth_error_Some; congruence. Qed.
Lemma dom_idx_irrefl pts i : ~ dom_idx pts i i.
Proof. intros (a & b & Ha & Hb & D). rewrite Ha in Hb; inversion Hb; subst. exact (dominates_irrefl _ D). Qed.
Lemma dom_idx_trans pts i j k : dom_idx pts i j -> dom_idx pts j k -> dom_idx pts i k.
Proof.
  intros (a & b & Ha & Hb & D) (b' & c & Hb' & Hc & D'). rewrite Hb in Hb'; inversion Hb'; subst.
  exists a, c. repeat split; auto; try apply (dominates_trans _ _ _ D D').
Qed.
Lemma dom_idx_dec pts i j : {dom_idx pts i j} + {~ dom_idx pts i j}.
Proof.
  destruct (lt_dec i (length pts)) as [Hi|Hi].
  - destruct (lt_dec j (length pts)) as [Hj|Hj].
    + destruct (dominates_dec (pnt pts i) (pnt pts j)) as [D|D].
      * left. apply dom_idx_iff; assumption.
      * right. intros H. apply dom_idx_iff in H; auto.
    + right. intros H. apply dom_idx_lt in H. lia.
  - right. intros H. apply dom_idx_lt in H. lia.
Qed.

Lemma uniform_pnt pts M i : uniform pts M -> i < length pts -> length (pnt pts i) = M.
Proof. intros U Hi. apply U. unfold pnt. apply nth_In; exact Hi. Qed.

Lemma all_size_spec pts M : all_size M pts = true <-> uniform pts M.
Proof.
  unfold all_size, uniform. rewrite forallb_forall. split; intros H p Hp.
  - apply Nat.eqb_eq, H, Hp.
  - apply Nat.eqb_eq, H, Hp.
Qed.

(** In a finite non-empty set of indices some index is dominated by none of the set. *)
Lemma exists_minimal (R : nat -> nat -> Prop) (Rdec : forall i j, {R i j} + {~ R i j})
  (Rirr : forall i, ~ R i i) (Rtr : forall i j k, R i j -> R j k -> R i k) :
  forall l, l <> [] -> exists m, In m l /\ forall x, In x l -> ~ R x m.
Proof.
  induction l as [|a l IH]; intros Hl; [congruence|].
  destruct l as [|b l].
  - exists a. split; [left; reflexivity|]. intros x [<-|[]]. apply Rirr.
  - destruct IH as (m & Hm & Hmin); [discriminate|].
    destruct (Rdec a m) as [D|D].
    + exists a. split; [left; reflexivity|]. intros x [<-|Hx]; [apply Rirr|].
      intros C. exact (Hmin x Hx (Rtr _ _ _ C D)).
    + exists m. split; [right; exact Hm|]. intros x [<-|Hx]; auto.
Qed.
