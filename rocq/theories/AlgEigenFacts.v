From Coq Require Import List Bool Arith ZArith Lia.
From Verif Require Import Dbl Outcome AlgEigen AlgGacoFacts.
Import ListNotations.

(** Sizes *)
Lemma sq_iff n M : sq n M = true <-> length M = n /\ forall row, In row M -> length row = n.
Proof.
  unfold sq. rewrite andb_true_iff, Nat.eqb_eq, forallb_forall. split; intros [H1 H2]; split; auto; intros row Hr; [apply Nat.eqb_eq|apply Nat.eqb_eq]; auto.
Qed.
Lemma vsz_iff n v : vsz n v = true <-> length v = n.
Proof. apply Nat.eqb_eq. Qed.
Lemma map2_len {A B C} (f : A -> B -> C) l l' : length (map2 f l l') = Nat.min (length l) (length l').
Proof. unfold map2. rewrite map_length, combine_length. reflexivity. Qed.
Lemma map2_in {A B C} (f : A -> B -> C) l l' c : In c (map2 f l l') -> exists a b, In a l /\ In b l' /\ c = f a b.
Proof.
  unfold map2. rewrite in_map_iff. intros ([a b] & <- & H). exists a, b. split; [eapply in_combine_l; exact H|]. split; [eapply in_combine_r; exact H|reflexivity].
Qed.
Lemma zeros_len n : length (zeros n) = n.
Proof. apply repeat_length. Qed.
Lemma diag_sq v : sq (length v) (diag v) = true.
Proof. apply sq_iff. unfold diag. rewrite map_length, seq_length. split; [reflexivity|]. intros row H. apply in_map_iff in H. destruct H as (i & <- & _). now rewrite map_length, seq_length. Qed.
Lemma diag_sq_n n v : length v = n -> sq n (diag v) = true.
Proof. intros <-. apply diag_sq. Qed.
Lemma ident_sq n : sq n (ident n) = true.
Proof. apply diag_sq_n. apply repeat_length. Qed.
Lemma vplus_ok n u v : length u = n -> length v = n -> okp (vplus n u v) (fun w => length w = n).
Proof. intros H1 H2. unfold vplus. rewrite (proj2 (vsz_iff n u) H1), (proj2 (vsz_iff n v) H2). apply okp_ret. rewrite map2_len. lia. Qed.
Lemma vminus_ok n u v : length u = n -> length v = n -> okp (vminus n u v) (fun w => length w = n).
Proof. intros H1 H2. unfold vminus. rewrite (proj2 (vsz_iff n u) H1), (proj2 (vsz_iff n v) H2). apply okp_ret. rewrite map2_len. lia. Qed.
Lemma vscale_len c v : length (vscale c v) = length v.
Proof. apply map_length. Qed.
Lemma vtimes_len c v : length (vtimes v c) = length v.
Proof. apply map_length. Qed.
Lemma vover_len c v : length (vover v c) = length v.
Proof. apply map_length. Qed.
Lemma map_sq n M (f : vec -> vec) : (forall v, length (f v) = length v) -> sq n M = true -> sq n (map f M) = true.
Proof.
  intros F. rewrite !sq_iff, map_length. intros [H1 H2]. split; [exact H1|]. intros row H. apply in_map_iff in H. destruct H as (v & <- & Hv). rewrite F. auto.
Qed.
Lemma mscale_sq n c M : sq n M = true -> sq n (mscale c M) = true.
Proof. apply map_sq. apply vscale_len. Qed.
Lemma mtimes_sq n c M : sq n M = true -> sq n (mtimes M c) = true.
Proof. apply map_sq. intros v. apply vtimes_len. Qed.
Lemma mover_sq n c M : sq n M = true -> sq n (mover M c) = true.
Proof. apply map_sq. intros v. apply vover_len. Qed.
Lemma map2_sq n f A B : sq n A = true -> sq n B = true -> sq n (map2 (map2 f) A B) = true.
Proof.
  rewrite !sq_iff, map2_len. intros [A1 A2] [B1 B2]. split; [lia|]. intros row H. apply map2_in in H. destruct H as (a & b & Ha & Hb & ->). rewrite map2_len, (A2 _ Ha), (B2 _ Hb). lia.
Qed.
Lemma mplus_ok n A B : sq n A = true -> sq n B = true -> okp (mplus n A B) (fun C => sq n C = true).
Proof. intros H1 H2. unfold mplus. rewrite H1, H2. apply okp_ret. now apply map2_sq. Qed.
Lemma mminus_ok n A B : sq n A = true -> sq n B = true -> okp (mminus n A B) (fun C => sq n C = true).
Proof. intros H1 H2. unfold mminus. rewrite H1, H2. apply okp_ret. now apply map2_sq. Qed.
Lemma transpose_ok n M : sq n M = true -> okp (transpose n M) (fun C => sq n C = true).
Proof.
  intros H. unfold transpose. rewrite H. apply okp_ret. apply sq_iff in H. destruct H as [H1 H2]. apply sq_iff. rewrite map_length, seq_length. split; [reflexivity|].
  intros row Hr. apply in_map_iff in Hr. destruct Hr as (j & <- & _). unfold column. rewrite map_length. exact H1.
Qed.
Lemma diagonal_ok n M : sq n M = true -> okp (diagonal n M) (fun v => length v = n).
Proof. intros H. unfold diagonal. rewrite H. apply okp_ret. now rewrite map_length, seq_length. Qed.
Lemma outer_sq n u v : length u = n -> length v = n -> sq n (outer u v) = true.
Proof. intros H1 H2. apply sq_iff. unfold outer. rewrite map_length. split; [exact H1|]. intros row H. apply in_map_iff in H. destruct H as (x & <- & _). now rewrite map_length. Qed.
Lemma mvec_ok K n M v : sq n M = true -> length v = n -> okp (mvec K n M v) (fun w => length w = n).
Proof. intros H1 H2. unfold mvec. rewrite H1, (proj2 (vsz_iff n v) H2). apply okp_ret. rewrite map_length. now apply sq_iff in H1. Qed.
Lemma mmul_ok K n A B : sq n A = true -> sq n B = true -> okp (mmul K n A B) (fun C => sq n C = true).
Proof.
  intros H1 H2. unfold mmul. rewrite H1, H2. apply okp_ret. apply sq_iff in H1. destruct H1 as [H1 _]. apply sq_iff. rewrite map_length. split; [exact H1|].
  intros row H. apply in_map_iff in H. destruct H as (r & <- & _). now rewrite map_length, seq_length.
Qed.
