(** Reasoning rules for randomised computations. *)
From Coq Require Import List Arith ZArith Lia.
From Verif Require Import Dbl Outcome Rng Generic SpecGenetic.
Import ListNotations.

Section R.
Context {G : Type}.
Lemma always_ret {A} (a : A) (Q : A -> Prop) E : Q a -> always (G := G) (rret a) Q E.
Proof. intros H g. exact H. Qed.
Lemma always_lift {A} (o : outcome A) (Q : A -> Prop) E : match o with Ok a => Q a | Throw e => E e | _ => False end -> always (G := G) (rlift o) Q E.
Proof. intros H g. exact H. Qed.
Lemma always_bind {A B} (m : RM G A) (f : A -> RM G B) (P : A -> Prop) (Q : B -> Prop) E :
  always m P E -> (forall a, P a -> always (f a) Q E) -> always (rbind m f) Q E.
Proof.
  intros H K g. unfold rbind. specialize (H g). destruct (m g) as [[a|e| |] g']; cbn [fst] in *; auto. apply K. exact H.
Qed.
Lemma always_weak {A} (m : RM G A) (Q Q' : A -> Prop) (E E' : exn -> Prop) :
  always m Q E -> (forall a, Q a -> Q' a) -> (forall e, E e -> E' e) -> always m Q' E'.
Proof. intros H K1 K2 g. specialize (H g). destruct (fst (m g)); auto. Qed.
Lemma always_fold {S A} (f : S -> A -> RM G S) (I : S -> Prop) E l :
  (forall s a, In a l -> I s -> always (f s a) I E) -> forall s, I s -> always (rfold f s l) I E.
Proof.
  induction l as [|a l IH]; intros H s Hs; cbn [rfold]; [now apply always_ret|].
  eapply always_bind; [apply H; [now left|exact Hs]|]. intros s' Hs'. apply IH; auto. intros; apply H; auto. now right.
Qed.
Lemma always_map {A B} (f : A -> RM G B) (P : A -> B -> Prop) E l :
  (forall a, In a l -> always (f a) (P a) E) -> always (rmap f l) (fun bs => Forall2 P l bs) E.
Proof.
  induction l as [|a l IH]; intros H; cbn [rmap]; [apply always_ret; constructor|].
  eapply always_bind; [apply H; now left|]. intros b Hb. eapply always_bind; [apply IH; intros; apply H; now right|].
  intros bs Hbs. apply always_ret. now constructor.
Qed.
Lemma always_vget {A} (l : list A) i x (Q : A -> Prop) E : nth_error l i = Some x -> Q x -> always (G := G) (rlift (vget l i)) Q E.
Proof. intros H K. apply always_lift. unfold vget. now rewrite H. Qed.
Lemma always_vset {A} (l : list A) i x (Q : list A -> Prop) E : i < length l -> Q (upd l i x) -> always (G := G) (rlift (vset l i x)) Q E.
Proof. intros H K. apply always_lift. unfold vset. destruct (Nat.ltb_spec i (length l)); [exact K|lia]. Qed.
Lemma always_throw_if (b : bool) e (Q : unit -> Prop) (E : exn -> Prop) : (b = true -> E e) -> (b = false -> Q tt) -> always (G := G) (rlift (throw_if b e)) Q E.
Proof. intros H K. apply always_lift. destruct b; cbn; auto. Qed.
Lemma always_eq {A} (m m' : RM G A) Q E : (forall g, m g = m' g) -> always m' Q E -> always m Q E.
Proof. intros H K g. rewrite H. apply K. Qed.
Lemma always_and {A} (m : RM G A) (Q Q' : A -> Prop) E E' : always m Q E -> always m Q' E' -> always m (fun a => Q a /\ Q' a) (fun e => E e /\ E' e).
Proof. intros H K g. specialize (H g); specialize (K g). destruct (fst (m g)); auto. Qed.
End R.
