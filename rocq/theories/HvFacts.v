(** Counting cells of unions of boxes. *)
From Coq Require Import List Bool Arith ZArith Lia Permutation.
From Verif Require Import Dbl Outcome StdSort BaseFacts Hypervolume SpecHypervolume.
Import ListNotations.
Local Open Scope Z_scope.

Definition zc (p : list Z) (i : nat) : Z := nth i p 0.
Definition zrange (lo hi : Z) : list Z := map (fun k => lo + Z.of_nat k) (seq 0 (Z.to_nat (hi - lo))).
Lemma in_zrange lo hi z : In z (zrange lo hi) <-> lo <= z < hi.
Proof.
  unfold zrange. rewrite in_map_iff. split.
  - intros (k & <- & H). apply in_seq in H. lia.
  - intros H. exists (Z.to_nat (z - lo)). split; [lia|]. apply in_seq. lia.
Qed.
Lemma NoDup_zrange lo hi : NoDup (zrange lo hi).
Proof. apply FinFun.Injective_map_NoDup; [intros a b E; lia|apply seq_NoDup]. Qed.
Lemma zrange_length lo hi : length (zrange lo hi) = Z.to_nat (hi - lo).
Proof. unfold zrange. now rewrite map_length, seq_length. Qed.
Lemma zrange_split lo m hi : lo <= m <= hi -> zrange lo hi = zrange lo m ++ zrange m hi.
Proof.
  intros H. unfold zrange. replace (Z.to_nat (hi - lo)) with (Z.to_nat (m - lo) + Z.to_nat (hi - m))%nat by lia.
  rewrite seq_app, map_app. f_equal. rewrite Nat.add_0_l.
  assert (G : forall n a k, map (fun k => lo + Z.of_nat k) (seq (a + k) n) = map (fun k => lo + Z.of_nat a + Z.of_nat k) (seq k n)).
  { induction n as [|n IH]; intros a k; cbn [seq map]; [reflexivity|]. f_equal; [lia|]. replace (S (a + k)) with (a + S k)%nat by lia. apply IH. }
  pose proof (G (Z.to_nat (hi - m)) (Z.to_nat (m - lo)) 0%nat) as K. rewrite Nat.add_0_r in K. rewrite K. apply map_ext. intros k. lia.
Qed.
Lemma zrange_nil lo hi : hi <= lo -> zrange lo hi = [].
Proof. intros H. unfold zrange. replace (Z.to_nat (hi - lo)) with 0%nat by lia. reflexivity. Qed.

(** Sums *)
Fixpoint zsum (l : list Z) : Z := match l with [] => 0 | x :: l' => x + zsum l' end.
Lemma zsum_app a b : zsum (a ++ b) = zsum a + zsum b.
Proof. induction a; cbn; lia. Qed.
Lemma zsum_const {A} (f : A -> Z) c l : (forall x, In x l -> f x = c) -> zsum (map f l) = Z.of_nat (length l) * c.
Proof. induction l as [|x l IH]; intros H; cbn [map zsum length]; [lia|]. rewrite H, IH by (try (left; reflexivity); intros; apply H; right; auto). lia. Qed.
Lemma zsum_ext {A} (f g : A -> Z) l : (forall x, In x l -> f x = g x) -> zsum (map f l) = zsum (map g l).
Proof. induction l as [|x l IH]; intros H; cbn; auto. rewrite H, IH; auto; [intros; apply H; right; auto|left; auto]. Qed.
Lemma zsum_le {A} (f g : A -> Z) l : (forall x, In x l -> f x <= g x) -> zsum (map f l) <= zsum (map g l).
Proof. induction l as [|x l IH]; intros H; cbn; [lia|]. pose proof (H x (or_introl eq_refl)). assert (zsum (map f l) <= zsum (map g l)) by (apply IH; intros; apply H; right; auto). lia. Qed.

Section Cells.
Context (L : Z) (r : list Z).

(** All cells of the first s coordinates with coordinates at least L. *)
Fixpoint cells (s : nat) : list (list Z) :=
  match s with
  | O => [[]]
  | S s' => flat_map (fun z => map (fun x => x ++ [z]) (cells s')) (zrange L (zc r s'))
  end.
Lemma cells_len s : forall x, In x (cells s) -> length x = s.
Proof.
  induction s as [|s IH]; cbn; intros x.
  - intros [<-|[]]. reflexivity.
  - rewrite in_flat_map. intros (z & _ & H). apply in_map_iff in H. destruct H as (y & <- & H). rewrite app_length, (IH y H). cbn. lia.
Qed.
Lemma nth_snoc (x : list Z) z d : nth (length x) (x ++ [z]) d = z.
Proof. rewrite app_nth2 by lia. now rewrite Nat.sub_diag. Qed.
Lemma zc_snoc x z i : zc (x ++ [z]) i = if Nat.eqb i (length x) then z else zc x i.
Proof.
  unfold zc. destruct (Nat.eqb_spec i (length x)) as [->|H]; [apply nth_snoc|].
  destruct (Nat.lt_ge_cases i (length x)); [apply app_nth1; auto|].
  rewrite app_nth2 by lia. rewrite (nth_overflow x) by lia. destruct (i - length x)%nat as [|k] eqn:E; [lia|]. cbn. destruct k; reflexivity.
Qed.
Lemma in_cells s : forall x, In x (cells s) <-> length x = s /\ forall i, (i < s)%nat -> L <= zc x i < zc r i.
Proof.
  induction s as [|s IH]; intros x.
  - cbn. split; [intros [<-|[]]; split; [auto|intros; lia]|]. intros [H _]. destruct x; [auto|discriminate].
  - cbn [cells]. rewrite in_flat_map. split.
    + intros (z & Hz & H). apply in_map_iff in H. destruct H as (y & <- & H). apply in_zrange in Hz. pose proof (cells_len s y H) as LY.
      apply IH in H. destruct H as [_ H]. rewrite app_length. cbn. split; [lia|]. intros i Hi. rewrite zc_snoc.
      destruct (Nat.eqb_spec i (length y)) as [->|N]; [now rewrite LY|]. apply H. lia.
    + intros [Hl H]. destruct (exists_last (l := x)) as (y & z & ->); [intros ->; discriminate|]. rewrite app_length in Hl. cbn in Hl.
      exists z. split.
      * apply in_zrange. specialize (H s). rewrite zc_snoc in H. replace (length y) with s in H by lia. rewrite Nat.eqb_refl in H. apply H. lia.
      * apply in_map_iff. exists y. split; auto. apply IH. split; [lia|]. intros i Hi. specialize (H i). rewrite zc_snoc in H.
        destruct (Nat.eqb_spec i (length y)); [lia|]. apply H. lia.
Qed.
Lemma NoDup_cells s : NoDup (cells s).
Proof.
  induction s as [|s IH]; cbn [cells]; [repeat constructor; auto; intros []|].
  generalize (NoDup_zrange L (zc r s)). generalize (zrange L (zc r s)). induction l as [|z l IHl]; intros ND; cbn; [constructor|].
  inversion ND as [|? ? NI ND']; subst. apply NoDup_app_intro; auto.
  - apply FinFun.Injective_map_NoDup; auto. intros a b E. now apply app_inj_tail in E.
  - intros x A B. apply in_map_iff in A. destruct A as (y & <- & _). apply in_flat_map in B. destruct B as (z' & Hz & B).
    apply in_map_iff in B. destruct B as (y' & E & _). apply app_inj_tail in E. destruct E as [_ ->]. contradiction.
Qed.

Definition meas (s : nat) (P : list Z -> bool) : Z := Z.of_nat (length (filter P (cells s))).

Lemma meas_nonneg s P : 0 <= meas s P.
Proof. unfold meas. lia. Qed.
Lemma filter_ext_len {A} (P Q : A -> bool) l : (forall x, In x l -> P x = Q x) -> filter P l = filter Q l.
Proof. induction l as [|x l IH]; intros H; cbn; auto. rewrite (H x) by (left; auto). rewrite IH by (intros; apply H; right; auto). reflexivity. Qed.
Lemma meas_ext s P Q : (forall x, In x (cells s) -> P x = Q x) -> meas s P = meas s Q.
Proof. intros H. unfold meas. now rewrite (filter_ext_len P Q). Qed.
Lemma meas_or s P Q : meas s (fun x => P x || Q x) = meas s P + meas s Q - meas s (fun x => P x && Q x).
Proof.
  unfold meas. induction (cells s) as [|x l IH]; cbn [filter length]; [lia|].
  destruct (P x), (Q x); cbn [orb andb length]; lia.
Qed.
Lemma meas_diff s P Q : meas s (fun x => P x && negb (Q x)) = meas s P - meas s (fun x => P x && Q x).
Proof.
  unfold meas. induction (cells s) as [|x l IH]; cbn [filter length]; [lia|].
  destruct (P x), (Q x); cbn [negb andb length]; lia.
Qed.
Lemma meas_le s P Q : (forall x, In x (cells s) -> P x = true -> Q x = true) -> meas s P <= meas s Q.
Proof.
  unfold meas. induction (cells s) as [|x l IH]; intros H; cbn [filter length]; [lia|].
  pose proof (H x (or_introl eq_refl)) as Hx. assert (IHl := IH (fun y Hy => H y (or_intror Hy))).
  destruct (P x), (Q x); cbn [length]; try lia; specialize (Hx eq_refl); discriminate.
Qed.
Lemma meas_false s P : (forall x, In x (cells s) -> P x = false) -> meas s P = 0.
Proof.
  unfold meas. induction (cells s) as [|x l IH]; intros H; cbn [filter length]; [reflexivity|].
  rewrite (H x) by (left; auto). apply IH. intros; apply H; right; auto.
Qed.
Lemma filter_flat_map {A B} (P : B -> bool) (f : A -> list B) l : filter P (flat_map f l) = flat_map (fun a => filter P (f a)) l.
Proof. induction l; cbn; auto. now rewrite filter_app, IHl. Qed.
Lemma filter_map_len {A B} (P : B -> bool) (f : A -> B) l : length (filter P (map f l)) = length (filter (fun a => P (f a)) l).
Proof. induction l; cbn; auto. destruct (P (f a)); cbn; auto. Qed.
Lemma meas_slice s P : meas (S s) P = zsum (map (fun z => meas s (fun x => P (x ++ [z]))) (zrange L (zc r s))).
Proof.
  unfold meas. cbn [cells]. rewrite filter_flat_map. induction (zrange L (zc r s)) as [|z l IH]; cbn [flat_map map zsum]; [reflexivity|].
  rewrite app_length, filter_map_len. lia.
Qed.
Lemma meas_cyl s P Q z0 : L <= z0 <= zc r s ->
  (forall x z, In x (cells s) -> L <= z < zc r s -> P (x ++ [z]) = Q x && (z0 <=? z)) ->
  meas (S s) P = (zc r s - z0) * meas s Q.
Proof.
  intros B H. rewrite meas_slice, (zrange_split L z0) by lia. rewrite map_app, zsum_app.
  rewrite (zsum_const _ 0), (zsum_const _ (meas s Q)).
  - rewrite !zrange_length, !Z2Nat.id by lia. ring.
  - intros z Hz. apply in_zrange in Hz. apply meas_ext. intros x Hx. rewrite H by (auto; lia). destruct (Z.leb_spec z0 z); [apply andb_true_r|lia].
  - intros z Hz. apply in_zrange in Hz. apply meas_false. intros x Hx. rewrite H by (auto; lia). destruct (Z.leb_spec z0 z); [lia|apply andb_false_r].
Qed.

(** Boxes and unions *)
Definition inbox (s : nat) (p x : list Z) : bool := forallb (fun i => zc p i <=? zc x i) (seq 0 s).
Definition union (s : nat) (pts : list (list Z)) (x : list Z) : bool := existsb (fun p => inbox s p x) pts.
Lemma inbox_spec s p x : inbox s p x = true <-> forall i, (i < s)%nat -> zc p i <= zc x i.
Proof.
  unfold inbox. rewrite forallb_forall. split.
  - intros H i Hi. apply Z.leb_le, H, in_seq. lia.
  - intros H i Hi. apply in_seq in Hi. apply Z.leb_le, H. lia.
Qed.
Lemma inbox_S s p x z : length x = s -> inbox (S s) p (x ++ [z]) = inbox s p x && (zc p s <=? z).
Proof.
  intros H. apply eq_true_iff_eq. rewrite andb_true_iff, Z.leb_le, !inbox_spec. split.
  - intros K. split.
    + intros i Hi. specialize (K i). rewrite zc_snoc in K. destruct (Nat.eqb_spec i (length x)); [lia|]. apply K. lia.
    + specialize (K s). rewrite zc_snoc, H, Nat.eqb_refl in K. apply K. lia.
  - intros [K1 K2] i Hi. rewrite zc_snoc. destruct (Nat.eqb_spec i (length x)) as [->|]; [now rewrite H|]. apply K1. lia.
Qed.
Definition prodz (f : nat -> Z) (s : nat) : Z := fold_left (fun v i => v * f i) (seq 0 s) 1.
Lemma prodz_S f s : prodz f (S s) = prodz f s * f s.
Proof. unfold prodz. rewrite seq_S, fold_left_app. reflexivity. Qed.
Definition within (s : nat) (p : list Z) : Prop := forall i, (i < s)%nat -> L <= zc p i <= zc r i.
Lemma meas_box s p : within s p -> meas s (inbox s p) = prodz (fun i => zc r i - zc p i) s.
Proof.
  induction s as [|s IH]; intros W; [reflexivity|].
  rewrite (meas_cyl s _ (inbox s p) (zc p s)).
  - rewrite IH by (intros i Hi; apply W; lia). rewrite prodz_S. lia.
  - apply W. lia.
  - intros x z Hx Hz. apply inbox_S. now apply cells_len.
Qed.
Lemma prodz_nonneg f s : (forall i, (i < s)%nat -> 0 <= f i) -> 0 <= prodz f s.
Proof. induction s as [|s IH]; intros H; [cbn; lia|]. rewrite prodz_S. apply Z.mul_nonneg_nonneg; [apply IH; intros; apply H; lia|apply H; lia]. Qed.
Lemma prodz_ext f g s : (forall i, (i < s)%nat -> f i = g i) -> prodz f s = prodz g s.
Proof. induction s as [|s IH]; intros H; [reflexivity|]. rewrite !prodz_S, IH, H by (intros; try apply H; lia). reflexivity. Qed.
Lemma union_nil s x : union s [] x = false.
Proof. reflexivity. Qed.
Lemma union_cons s p pts x : union s (p :: pts) x = inbox s p x || union s pts x.
Proof. reflexivity. Qed.
Lemma union_app s a b x : union s (a ++ b) x = union s a x || union s b x.
Proof. apply existsb_app. Qed.
Lemma union_perm s a b x : Permutation a b -> union s a x = union s b x.
Proof.
  intros P. apply eq_true_iff_eq. unfold union. rewrite !existsb_exists. split; intros (p & H & K); exists p; split; auto.
  - eapply Permutation_in; eauto.
  - eapply Permutation_in; [apply Permutation_sym|]; eauto.
Qed.
End Cells.

(** The measure is the volume of the specification. *)
Lemma Forall2_nthZ (R : Z -> Z -> Prop) a b : Forall2 R a b <-> length a = length b /\ forall i, (i < length b)%nat -> R (zc a i) (zc b i).
Proof.
  split.
  - intros H. induction H as [|x y l l' H F [IH1 IH2]]; cbn; [split; [auto|intros; lia]|]. split; [lia|].
    intros [|i] Hi; cbn; auto. apply IH2. lia.
  - revert b. induction a as [|x a IH]; intros [|y b] [HL H]; try discriminate; constructor.
    + apply (H 0%nat). cbn. lia.
    + apply IH. split; [cbn in HL; lia|]. intros i Hi. apply (H (S i)). cbn. lia.
Qed.
Lemma volume_unique P v w : volume P v -> volume P w -> v = w.
Proof.
  intros (l & N1 & I1 & ->) (m & N2 & I2 & ->). f_equal. apply Permutation_length. apply NoDup_Permutation; auto.
  intros x. rewrite I1, I2. tauto.
Qed.
Lemma volume_ext P Q v : (forall x, P x <-> Q x) -> volume P v -> volume Q v.
Proof. intros H (l & N & I & E). exists l. split; [auto|]. split; [|auto]. intros x. rewrite I. apply H. Qed.
Lemma meas_volume L r (P : list Z -> bool) (Q : list Z -> Prop) : (forall x, In x (cells L r (length r)) /\ P x = true <-> Q x) -> volume Q (meas L r (length r) P).
Proof.
  intros H. exists (filter P (cells L r (length r))). split; [apply NoDup_filter, NoDup_cells|]. split; [|reflexivity].
  intros x. rewrite filter_In. apply H.
Qed.
Lemma union_dominated L r pts : (forall p, In p pts -> length p = length r /\ within L r (length r) p) ->
  forall x, In x (cells L r (length r)) /\ union (length r) pts x = true <-> dominated pts r x.
Proof.
  intros W x. unfold dominated, union. rewrite in_cells, existsb_exists, Forall2_nthZ. split.
  - intros ((H1 & H2) & p & Hp & B). split; [split; [auto|intros; apply H2; auto]|]. exists p. split; auto. apply Forall2_nthZ.
    split; [destruct (W p Hp); lia|]. intros i Hi. rewrite inbox_spec in B. apply B. lia.
  - intros ((H1 & H2) & p & Hp & B). apply Forall2_nthZ in B. destruct B as [B1 B2]. destruct (W p Hp) as [W1 W2]. split.
    + split; auto. intros i Hi. split; [|apply H2; auto]. specialize (B2 i). specialize (W2 i Hi). lia.
    + exists p. split; auto. apply inbox_spec. intros i Hi. apply B2. lia.
Qed.

(** A lower bound for the coordinates. *)
Lemma lower_bound pts : exists L, forall p, In p pts -> forall z, In z p -> L <= z.
Proof.
  induction pts as [|p pts (L & H)]; [exists 0; intros p []|].
  assert (E : exists L', forall z, In z p -> L' <= z).
  { induction p as [|z p (L' & H')]; [exists 0; intros z []|]. exists (Z.min z L'). intros y [<-|Hy]; [lia|]. specialize (H' y Hy). lia. }
  destruct E as (L' & H'). exists (Z.min L L'). intros q [<-|Hq] z Hz; [specialize (H' z Hz); lia|]. specialize (H q Hq z Hz). lia.
Qed.
Lemma bounded_within r pts : bounded_by r pts -> exists L, forall p, In p pts -> length p = length r /\ within L r (length r) p.
Proof.
  intros B. destruct (lower_bound pts) as (L & H). exists L. intros p Hp. specialize (B p Hp). apply Forall2_nthZ in B. destruct B as [B1 B2].
  split; auto. intros i Hi. split; [|apply B2; auto]. apply (H p Hp). unfold zc. apply nth_In. lia.
Qed.
