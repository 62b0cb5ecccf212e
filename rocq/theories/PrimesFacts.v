(** The prime table is the sequence of primes. *)
From Coq Require Import List ZArith Lia Znumtheory Bool Sorting.Sorted.
From Verif Require Import Outcome Primes.
Import ListNotations.
Local Open Scope Z_scope.

(** Trial division by d, d+1, ..., d+fuel-1. *)
Fixpoint no_div (fuel : nat) (d n : Z) : bool :=
  match fuel with
  | O => true
  | S k => if n <? d * d then true else if n mod d =? 0 then false else no_div k (d + 1) n
  end.
Definition primeb (n : Z) : bool := (1 <? n) && no_div 120 2 n.

Lemma no_div_spec fuel : forall d n, 2 <= d -> 1 < n -> n < (d + Z.of_nat fuel) * (d + Z.of_nat fuel) ->
  (forall k, 2 <= k < d -> ~ (k | n)) -> (no_div fuel d n = true <-> prime n).
Proof.
  induction fuel as [|fuel IH]; intros d n Hd Hn Hb Hk; cbn [no_div].
  - split; [intros _|reflexivity]. apply prime_alt. split; [lia|]. intros k Hk1 (c & Hc).
    destruct (Z_lt_ge_dec k d); [apply (Hk k); [lia|exists c; exact Hc]|].
    assert (c < d) by nia. assert (1 < c) by nia. apply (Hk c); [lia|]. exists k. lia.
  - destruct (Z.ltb_spec n (d * d)) as [Hlt|Hge].
    + split; [intros _|reflexivity]. apply prime_alt. split; [lia|]. intros k Hk1 (c & Hc).
      destruct (Z_lt_ge_dec k d); [apply (Hk k); [lia|exists c; exact Hc]|].
      assert (c < d) by nia. assert (1 < c) by nia. apply (Hk c); [lia|]. exists k. lia.
    + destruct (Z.eqb_spec (n mod d) 0) as [E|E].
      * split; [discriminate|]. intros P. apply prime_alt in P. destruct P as [_ P]. exfalso.
        apply (P d); [nia|]. apply Zmod_divide; lia.
      * apply IH; try lia. intros k Hk2 D. destruct (Z.eq_dec k d) as [->|]; [|apply (Hk k); [lia|exact D]].
        apply E. apply Zdivide_mod; exact D.
Qed.

Lemma primeb_spec n : n < 14400 -> (primeb n = true <-> prime n).
Proof.
  intros Hn. unfold primeb. destruct (Z.ltb_spec 1 n) as [H|H]; cbn [andb].
  - apply no_div_spec; try lia.
  - split; [discriminate|]. intros P. destruct P. lia.
Qed.

(** The whole table, checked by the kernel: the primes up to the last entry are
    exactly the entries from index 1 on, in order. *)
Fixpoint zrange (fuel : nat) (z : Z) : list Z := match fuel with O => [] | S k => z :: zrange k (z + 1) end.
Definition upto : list Z := zrange (Z.to_nat 13500) 0.
Definition primes_below : list Z := filter primeb upto.
Lemma table_is_filter : prime_numbers_table = 1 :: primes_below.
Proof. vm_compute. reflexivity. Qed.
Lemma table_length_Z : Z.of_nat (length prime_numbers_table) = 1601.
Proof. vm_compute. reflexivity. Qed.

Lemma zrange_in n : forall s q, In q (zrange n s) <-> s <= q < s + Z.of_nat n.
Proof.
  induction n as [|n IH]; intros s q; cbn [zrange In]; [lia|].
  rewrite IH. lia.
Qed.
Lemma zrange_nodup n : forall s, NoDup (zrange n s).
Proof.
  induction n as [|n IH]; intros s; cbn [zrange]; [constructor|]. constructor; [|apply IH].
  rewrite zrange_in. lia.
Qed.
Lemma zrange_split n : forall s l1 p l2, zrange n s = l1 ++ p :: l2 ->
  NoDup l1 /\ (forall q, In q l1 <-> s <= q < p) /\ s <= p < s + Z.of_nat n.
Proof.
  induction n as [|n IH]; intros s l1 p l2 H; cbn [zrange] in H; [destruct l1; discriminate|].
  destruct l1 as [|a l1]; simpl in H; inversion H as [[H1 H2]]; subst.
  - split; [constructor|]. split; [|lia]. intros q. simpl. lia.
  - destruct (IH _ _ _ _ H2) as (ND & Hin & Hp). split; [|split].
    + constructor; [rewrite Hin; lia|exact ND].
    + intros q. cbn [In]. rewrite Hin. lia.
    + lia.
Qed.

Lemma filter_prefix {A} (f : A -> bool) l : forall k x, nth_error (filter f l) k = Some x ->
  exists l1 l2, l = l1 ++ x :: l2 /\ filter f l1 = firstn k (filter f l) /\ f x = true.
Proof.
  induction l as [|a l IH]; intros k x H; simpl in *; [destruct k; discriminate|].
  destruct (f a) eqn:E.
  - destruct k as [|k]; simpl in *.
    + inversion H; subst. exists [], l. auto.
    + destruct (IH k x H) as (l1 & l2 & -> & E2 & Ex). exists (a :: l1), l2. simpl. rewrite E, E2. auto.
  - destruct (IH k x H) as (l1 & l2 & -> & E2 & Ex). exists (a :: l1), l2. simpl. rewrite E, E2. auto.
Qed.

Lemma filter_primes_nth n k p : Z.of_nat n <= 14400 -> nth_error (filter primeb (zrange n 0)) k = Some p ->
  prime p /\ exists below, NoDup below /\ length below = k /\ (forall q, In q below <-> prime q /\ q < p).
Proof.
  intros Hn E. destruct (filter_prefix _ _ _ _ E) as (l1 & l2 & Es & Ef & Ep).
  destruct (zrange_split _ _ _ _ _ Es) as (ND & Hin & Hp).
  split; [apply primeb_spec; [lia|exact Ep]|]. exists (filter primeb l1). split; [apply NoDup_filter; exact ND|]. split.
  - rewrite Ef, firstn_length. apply Nat.min_l.
    assert (k < length (filter primeb (zrange n 0)))%nat by (apply nth_error_Some; congruence). lia.
  - intros q. rewrite filter_In, Hin. split.
    + intros (Hq & Pq). split; [apply primeb_spec; [lia|exact Pq]|lia].
    + intros (Pq & Hq). assert (1 < q) by (destruct Pq; lia). split; [lia|]. apply primeb_spec; [lia|exact Pq].
Qed.

Lemma upto_len : Z.of_nat (Z.to_nat 13500) <= 14400.
Proof. rewrite Z2Nat.id; lia. Qed.

Lemma table_nth i p : nth_error prime_numbers_table (S i) = Some p ->
  prime p /\ exists below, NoDup below /\ length below = i /\ (forall q, In q below <-> prime q /\ q < p).
Proof.
  rewrite table_is_filter. cbn [nth_error]. unfold primes_below, upto. apply filter_primes_nth. exact upto_len.
Qed.

Lemma prime_at_unfold n : prime_at n = if 1601 <=? Z.of_nat n then Throw InvalidArgument else vget prime_numbers_table n.
Proof.
  unfold prime_at. rewrite <- table_length_Z. generalize prime_numbers_table. intros T.
  destruct (Nat.leb_spec (length T) n), (Z.leb_spec (Z.of_nat (length T)) (Z.of_nat n)); try reflexivity; lia.
Qed.

Lemma prime_at_spec i : 1 <= Z.of_nat i < 1601 ->
  exists p below, prime_at i = Ok p /\ prime p /\
    NoDup below /\ length below = (i - 1)%nat /\ (forall q, In q below <-> prime q /\ q < p).
Proof.
  intros H. rewrite prime_at_unfold. destruct (Z.leb_spec 1601 (Z.of_nat i)) as [|_]; [lia|].
  destruct i as [|i]; [lia|]. unfold vget.
  destruct (nth_error prime_numbers_table (S i)) as [p|] eqn:E.
  - destruct (table_nth i p E) as (Pp & below & H1 & H2 & H3). exists p, below.
    split; [reflexivity|]. split; [exact Pp|]. split; [exact H1|]. split; [lia|exact H3].
  - exfalso. revert E. pose proof table_length_Z as TL. revert TL. generalize prime_numbers_table. intros T TL E.
    apply nth_error_None in E. lia.
Qed.

Lemma prime_at_zero : prime_at 0 = Ok 1.
Proof. vm_compute. reflexivity. Qed.
Lemma prime_at_oob n : 1601 <= Z.of_nat n -> prime_at n = Throw InvalidArgument.
Proof. intros H. rewrite prime_at_unfold. destruct (Z.leb_spec 1601 (Z.of_nat n)); [reflexivity|lia]. Qed.

Lemma prime_at_mono i j p q : (i < j)%nat -> prime_at i = Ok p -> prime_at j = Ok q -> p < q.
Proof.
  intros Hij Hp Hq.
  assert (Hj : Z.of_nat j < 1601).
  { destruct (Z_lt_ge_dec (Z.of_nat j) 1601); [assumption|]. rewrite prime_at_oob in Hq by lia. discriminate. }
  destruct (prime_at_spec j ltac:(lia)) as (q' & bj & Eq & Pq & NDj & Lj & Bj).
  rewrite Hq in Eq. inversion Eq; subst q'.
  destruct (Nat.eq_dec i 0) as [->|Hi].
  { rewrite prime_at_zero in Hp. inversion Hp; subst. destruct Pq; lia. }
  destruct (prime_at_spec i ltac:(lia)) as (p' & bi & Ep & Pp & NDi & Li & Bi).
  rewrite Hp in Ep. inversion Ep; subst p'.
  destruct (Z_lt_ge_dec p q); [assumption|]. exfalso.
  assert (incl bj bi). { intros x Hx. apply Bj in Hx. apply Bi. destruct Hx; split; [assumption|lia]. }
  pose proof (NoDup_incl_length NDj H). lia.
Qed.
