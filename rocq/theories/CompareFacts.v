(** Lemmas about the NaN-aware comparisons. *)
From Coq Require Import List Bool Arith ZArith Lia Permutation.
From Verif Require Import Dbl Outcome StdSort BaseFacts Compare SpecOrder.
Import ListNotations.

Lemma dlt_spec a b : dlt a b = true <-> num_lt a b.
Proof. destruct a, b; simpl; try (split; [discriminate|contradiction]); try (split; auto; fail); apply Z.ltb_lt. Qed.

Lemma less_than_f_spec a b : less_than_f a b = true <-> better a b.
Proof.
  unfold less_than_f, less_than_f_gen.
  destruct a, b; simpl; try (split; [discriminate|contradiction]); try (split; auto; fail).
  apply Z.ltb_lt.
Qed.

Lemma greater_than_f_flip a b : greater_than_f a b = less_than_f b a.
Proof. unfold greater_than_f, greater_than_f_gen, less_than_f, less_than_f_gen, dgt. destruct a, b; reflexivity. Qed.

Lemma equal_to_f_spec a b : equal_to_f a b = true <-> a = b.
Proof.
  unfold equal_to_f. destruct a, b; simpl; split; try discriminate; try reflexivity; intros H.
  - apply Z.eqb_eq in H; subst; reflexivity.
  - inversion H; apply Z.eqb_refl.
Qed.

Lemma better_irrefl a : ~ better a a.
Proof. destruct a; simpl; auto. lia. Qed.
Lemma better_trans a b c : better a b -> better b c -> better a c.
Proof. destruct a, b, c; simpl; auto; try contradiction; lia. Qed.
Lemma better_asym a b : better a b -> ~ better b a.
Proof. intros H1 H2. exact (better_irrefl _ (better_trans _ _ _ H1 H2)). Qed.
Lemma better_total a b : better a b \/ a = b \/ better b a.
Proof. destruct a, b; simpl; auto. destruct (Z.lt_trichotomy z z0) as [|[->|]]; auto. Qed.
Lemma better_dec a b : {better a b} + {~ better a b}.
Proof.
  destruct (less_than_f a b) eqn:E.
  - left. now apply less_than_f_spec.
  - right. intros H. apply less_than_f_spec in H. congruence.
Qed.

Lemma ltf_false a b : less_than_f a b = false <-> ~ better a b.
Proof.
  split; intros H.
  - intros C. apply less_than_f_spec in C. congruence.
  - destruct (less_than_f a b) eqn:E; [|reflexivity]. apply less_than_f_spec in E. contradiction.
Qed.

Lemma not_worse_refl a : not_worse a a.
Proof. apply better_irrefl. Qed.
Lemma not_worse_iff a b : not_worse a b <-> better a b \/ a = b.
Proof.
  unfold not_worse. split; intros H.
  - destruct (better_total a b) as [?|[?|?]]; auto; contradiction.
  - destruct H as [H| ->]; [apply better_asym; exact H|apply better_irrefl].
Qed.
Lemma not_worse_trans a b c : not_worse a b -> not_worse b c -> not_worse a c.
Proof. rewrite !not_worse_iff. intros [H|<-] [K|<-]; eauto using better_trans. Qed.
Lemma not_worse_total a b : not_worse a b \/ not_worse b a.
Proof. rewrite !not_worse_iff. destruct (better_total a b) as [?|[?|?]]; auto. Qed.
Lemma not_worse_better a b c : not_worse a b -> better b c -> better a c.
Proof. rewrite not_worse_iff. intros [H|<-]; eauto using better_trans. Qed.
Lemma better_not_worse a b c : better a b -> not_worse b c -> better a c.
Proof. intros H. rewrite not_worse_iff. intros [K|<-]; eauto using better_trans. Qed.
Lemma not_worse_antisym a b : not_worse a b -> not_worse b a -> a = b.
Proof. unfold not_worse. destruct (better_total a b) as [?|[?|?]]; tauto. Qed.

(** less_than_f is a strict weak order on every list. *)
Lemma ltf_swo l : strict_weak_on less_than_f l.
Proof.
  split.
  - intros a _. apply ltf_false, better_irrefl.
  - intros a b c _ _ _. rewrite !less_than_f_spec. apply better_trans.
  - intros a b c _ _ _. rewrite !ltf_false. intros H1 H2 H3 H4.
    destruct (better_total a b) as [?|[->|?]]; try contradiction. auto.
Qed.
Lemma gtf_swo l : strict_weak_on greater_than_f l.
Proof.
  split.
  - intros a _. rewrite greater_than_f_flip. apply ltf_false, better_irrefl.
  - intros a b c _ _ _. rewrite !greater_than_f_flip, !less_than_f_spec. eauto using better_trans.
  - intros a b c _ _ _. rewrite !greater_than_f_flip, !ltf_false. intros H1 H2 H3 H4.
    destruct (better_total a b) as [?|[->|?]]; try contradiction. auto.
Qed.
Lemma ltf_key_swo {A} (key : A -> dbl) l : strict_weak_on (fun a b => less_than_f (key a) (key b)) l.
Proof. apply strict_weak_key, ltf_swo. Qed.
Lemma gtf_key_swo {A} (key : A -> dbl) l : strict_weak_on (fun a b => greater_than_f (key a) (key b)) l.
Proof. apply strict_weak_key, gtf_swo. Qed.
