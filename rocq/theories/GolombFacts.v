From Coq Require Import ZArith List Bool Lia Permutation Sorting.Sorted.
From Verif Require Import Outcome Dbl DblFacts IntDbl BaseFacts Compare SpecOrder CompareFacts StdSort Problem SpecProblem Golomb SpecGolomb.
Import ListNotations.
Local Open Scope Z_scope.

Lemma dint_inj a b : dint a = dint b -> a = b.
Proof. unfold dint. intros H. injection H as H. pose proof one_z_pos. nia. Qed.
Lemma pairs_ok n : lists_pairs n (index_pairs (S n)).
Proof.
  unfold index_pairs. split.
  - assert (K : forall l, NoDup l -> NoDup (flat_map (fun i => map (pair i) (seq (S i) (S n - S i))) l)).
    { induction l as [|a l IH]; intros H; [constructor|]. inversion H; subst. cbn [flat_map]. apply NoDup_app_intro; auto.
      - apply FinFun.Injective_map_NoDup; [intros ? ? E; congruence|apply seq_NoDup].
      - intros [p q] K1 K2. apply in_map_iff in K1. destruct K1 as (z & E & _). injection E as -> _. apply in_flat_map in K2. destruct K2 as (b & Hb & E2). apply in_map_iff in E2. destruct E2 as (w & E2 & _). injection E2 as -> _. contradiction. }
    apply K, seq_NoDup.
  - intros i j. rewrite in_flat_map. split.
    + intros (a & Ha & H). apply in_map_iff in H. destruct H as (b & E & Hb). injection E as -> ->. apply in_seq in Ha, Hb. lia.
    + intros H. exists i. split; [apply in_seq; lia|]. apply in_map, in_seq. lia.
Qed.
Lemma sums_map ks : forall a, 0 <= a -> Forall (fun k => 0 <= k) ks -> a + total ks < 2 ^ 53 -> sums_from (dint a) (map dint ks) = map (fun i => dint (a + mark ks i)) (seq 1 (length ks)).
Proof.
  induction ks as [|k ks IH]; intros a Ha HF HT; [reflexivity|]. inversion HF; subst. cbn [total fold_right] in HT. fold (total ks) in HT.
  assert (NN : 0 <= total ks) by (clear -H2; induction H2; cbn; [lia|fold (total l); lia]).
  cbn [map sums_from length seq]. rewrite dadd_int by lia. f_equal; [unfold mark; cbn; f_equal; lia|]. rewrite IH by (auto; lia). rewrite <- (seq_shift _ 1), map_map. apply map_ext. intros i. unfold mark. cbn [firstn total fold_right]. f_equal. fold (total (firstn i ks)). lia.
Qed.
Lemma ticks_map ks : Forall (fun k => 0 <= k) ks -> total ks < 2 ^ 53 -> dzero :: partial_sum (map dint ks) = map (fun i => dint (mark ks i)) (seq 0 (S (length ks))).
Proof.
  intros HF HT. cbn [seq map]. f_equal. destruct ks as [|k ks]; [reflexivity|]. inversion HF; subst. cbn [total fold_right] in HT. fold (total ks) in HT.
  cbn [map partial_sum length seq]. f_equal; [unfold mark; cbn; f_equal; lia|]. rewrite sums_map by (auto; lia). rewrite <- (seq_shift _ 1), map_map. apply map_ext. intros i. unfold mark. cbn [firstn total fold_right]. f_equal.
Qed.
Lemma mark_range ks i : Forall (fun k => 0 <= k) ks -> 0 <= mark ks i <= total ks.
Proof. intros H. unfold mark. revert i. induction H as [|k ks Hk H IH]; intros [|i]; cbn; try lia; [fold (total ks); specialize (IH 0%nat); cbn in IH; lia|]. fold (total ks) (total (firstn i ks)). specialize (IH i). lia. Qed.

(** std::unique on a sorted list keeps each value once. *)
Lemma tri a b : less_than_f a b = false -> less_than_f b a = false -> a = b.
Proof. intros H1 H2. apply ltf_false in H1, H2. now apply not_worse_antisym. Qed.
Lemma unique_spec l : forall last, sorted_by less_than_f (last :: l) ->
  NoDup (last :: unique_from equal_to_f last l) /\ (forall v, In v (last :: unique_from equal_to_f last l) <-> In v (last :: l)) /\ sorted_by less_than_f (last :: unique_from equal_to_f last l).
Proof.
  induction l as [|x l IH]; intros last S; cbn [unique_from].
  - split; [repeat constructor; auto|]. split; [tauto|exact S].
  - inversion S as [|? ? S1 F1]; subst. inversion S1 as [|? ? S2 F2]; subst. inversion F1 as [|? ? F3 F4]; subst. destruct (equal_to_f last x) eqn:E.
    + apply equal_to_f_spec in E. subst x. destruct (IH last S1) as (N & I & O). split; [exact N|]. split; [|exact O]. intros v. rewrite I. cbn. tauto.
    + destruct (IH x S1) as (N & I & O). assert (D : last <> x) by (intros ->; rewrite (proj2 (equal_to_f_spec x x) eq_refl) in E; discriminate).
      split.
      * constructor; [|exact N]. intros HI. apply I in HI. destruct HI as [<-|HI]; [now apply D|]. apply D. apply tri; [|exact F3]. rewrite Forall_forall in F2. exact (F2 last HI).
      * split; [intros v; cbn [In]; rewrite <- (I v); cbn [In]; tauto|]. constructor; [exact O|]. rewrite Forall_forall in F1 |- *. intros v Hv. apply F1. now apply I.
Qed.
Definition dbl_dec : forall a b : dbl, {a = b} + {a <> b}.
Proof. decide equality. apply Z.eq_dec. Defined.
Lemma unique_count l : sorted_by less_than_f l -> length (std_unique equal_to_f l) = length (nodup dbl_dec l).
Proof.
  destruct l as [|x l]; [reflexivity|]. intros S. destruct (unique_spec l x S) as (N & I & _). apply Nat.le_antisymm; apply NoDup_incl_length.
  - exact N.
  - intros v Hv. apply nodup_In. now apply I.
  - apply NoDup_nodup.
  - intros v Hv. apply nodup_In in Hv. now apply I.
Qed.
Lemma nodup_perm {A} (dec : forall a b : A, {a = b} + {a <> b}) l l' : Permutation l l' -> length (nodup dec l) = length (nodup dec l').
Proof.
  intros P. apply Nat.le_antisymm; apply NoDup_incl_length; try apply NoDup_nodup; intros v Hv; apply nodup_In; apply nodup_In in Hv; [exact (Permutation_in v P Hv)|exact (Permutation_in v (Permutation_sym P) Hv)].
Qed.
Lemma nodup_map_inj l : length (nodup dbl_dec (map dint l)) = length (nodup Z.eq_dec l).
Proof.
  rewrite <- (map_length dint (nodup Z.eq_dec l)). apply Nat.le_antisymm; apply NoDup_incl_length.
  - apply NoDup_nodup.
  - intros v Hv. apply nodup_In in Hv. apply in_map_iff in Hv. destruct Hv as (z & <- & Hz). apply in_map. now apply nodup_In.
  - apply FinFun.Injective_map_NoDup; [exact dint_inj|apply NoDup_nodup].
  - intros v Hv. apply in_map_iff in Hv. destruct Hv as (z & <- & Hz). apply nodup_In. apply in_map. now apply nodup_In in Hz.
Qed.
Lemma distinct_le l : (distinct_values l <= length l)%nat.
Proof. apply NoDup_incl_length; [apply NoDup_nodup|]. intros v Hv. now apply nodup_In in Hv. Qed.
Lemma distinct_all l : distinct_values l = length l <-> NoDup l.
Proof.
  unfold distinct_values. split; intros H; [|now rewrite nodup_fixed_point]. apply (@NoDup_incl_NoDup _ (nodup Z.eq_dec l) l); [apply NoDup_nodup|lia|]. intros v Hv. now apply nodup_In in Hv.
Qed.
Lemma nodup_inj {A B} (f : A -> B) l : NoDup l -> (NoDup (map f l) <-> forall a b, In a l -> In b l -> f a = f b -> a = b).
Proof.
  induction 1 as [|x l Hx N IH]; cbn; [split; [intros _ a b []|constructor]|]. split.
  - intros H. inversion H as [|? ? H1 H2]; subst. pose proof (proj1 IH H2) as K. intros a b [<-|Ha] [<-|Hb] E; auto; exfalso; apply H1; [rewrite E|rewrite <- E]; now apply in_map.
  - intros H. constructor; [|apply (proj2 IH); auto]. intros Hi. apply in_map_iff in Hi. destruct Hi as (y & E & Hy). assert (y = x) by auto. subst. contradiction.
Qed.
Lemma golomb_nodup ks l : lists_pairs (length ks) l -> (NoDup (map (measure ks) l) <-> golomb ks).
Proof.
  intros [N I]. rewrite (nodup_inj _ _ N). unfold golomb, measure. split.
  - intros H i j i' j' H1 H2 E. specialize (H (i, j) (i', j') (proj2 (I i j) H1) (proj2 (I i' j') H2) E). split; congruence.
  - intros H [i j] [i' j'] H1 H2 E. cbn in E. destruct (H i j i' j' (proj1 (I i j) H1) (proj1 (I i' j') H2) E) as [-> ->]. reflexivity.
Qed.
Lemma pairs_len n l : lists_pairs n l -> (length l <= (S n) * (S n))%nat.
Proof.
  intros [N I]. rewrite <- (seq_length (S n) 0) at 1. rewrite <- (seq_length (S n) 0) at 2. rewrite <- prod_length. apply NoDup_incl_length; [exact N|]. intros [i j] H. apply I in H. apply in_prod; apply in_seq; lia.
Qed.

Section S.
Context (srt : sorter) (HS : sort_contract srt).
(** Whole gaps whose sum is below 2^53 *)
Lemma fitness_ok ks : Forall (fun k => 0 <= k) ks -> total ks < 2 ^ 53 -> Z.of_nat (length ks) < 2 ^ 26 ->
  exists l, lists_pairs (length ks) l /\
  golomb_fitness srt (map dint ks) = Ok [dint (total ks); dint (Z.of_nat (length l) - Z.of_nat (distinct_values (map (measure ks) l)))].
Proof.
  intros HF HT HL. exists (index_pairs (S (length ks))). split; [apply pairs_ok|]. unfold golomb_fitness. cbv zeta. rewrite ticks_map by auto. set (ticks := map _ (seq 0 (S (length ks)))).
  assert (TL : length ticks = S (length ks)) by (unfold ticks; now rewrite map_length, seq_length).
  assert (TG : forall i, (i <= length ks)%nat -> vget ticks i = Ok (dint (mark ks i))).
  { intros i Hi. unfold vget, ticks. rewrite nth_error_map. rewrite (nth_error_nth' _ 0%nat) by (rewrite seq_length; lia). rewrite seq_nth by lia. reflexivity. }
  rewrite TL. rewrite TG by lia. cbn [bind]. replace (S (length ks) - 1)%nat with (length ks) by lia. unfold mark at 1. rewrite firstn_all.
  assert (MM : forall l, (forall ij, In ij l -> (fst ij < snd ij <= length ks)%nat) -> mmap (fun ij => bind (vget ticks (snd ij)) (fun b => bind (vget ticks (fst ij)) (fun a => Ok (dsub b a)))) l = Ok (map dint (map (measure ks) l))).
  { induction l as [|[i j] l IH]; intros H; [reflexivity|]. pose proof (H (i, j) (or_introl eq_refl)) as Hij. cbn [fst snd] in Hij. cbn [mmap fst snd]. rewrite !TG by lia. cbn [bind]. rewrite IH by (intros; apply H; now right). cbn [bind map]. do 2 f_equal.
    apply dsub_int. pose proof (mark_range ks i HF). pose proof (mark_range ks j HF). lia. }
  destruct (pairs_ok (length ks)) as [PN PI]. rewrite MM by (intros [i j] H; apply PI in H; exact H). cbn [bind]. set (ps := index_pairs (S (length ks))) in *.
  destruct (std_sort_ok srt less_than_f (map dint (map (measure ks) ps)) HS (ltf_swo _)) as (r & ES & P & O). rewrite ES. cbn [bind].
  rewrite (unique_count r O), <- (nodup_perm dbl_dec _ _ P), nodup_map_inj, <- (Permutation_length P), !map_length. fold (distinct_values (map (measure ks) ps)).
  pose proof (pairs_len (length ks) ps (conj PN PI)) as PL. pose proof (distinct_le (map (measure ks) ps)) as DL. rewrite map_length in DL.
  assert (B : Z.of_nat (length ps) < 2 ^ 53).
  { apply Nat2Z.inj_le in PL. rewrite Nat2Z.inj_mul in PL. assert (Z.of_nat (S (length ks)) * Z.of_nat (S (length ks)) <= 2 ^ 26 * 2 ^ 26) by (apply Z.mul_le_mono_nonneg; lia). change (2 ^ 53) with (2 * (2 ^ 26 * 2 ^ 26)). lia. }
  rewrite !d_of_Z_int by lia. rewrite dsub_int by lia. reflexivity.
Qed.
Lemma violation ks f : Forall (fun k => 0 <= k) ks -> total ks < 2 ^ 53 -> Z.of_nat (length ks) < 2 ^ 26 -> golomb_fitness srt (map dint ks) = Ok f ->
  nth_error f 0 = Some (dint (total ks)) /\ (nth_error f 1 = Some dzero <-> golomb ks).
Proof.
  intros HF HT HL E. destruct (fitness_ok ks HF HT HL) as (l & PL & E'). rewrite E' in E. injection E as <-. split; [reflexivity|]. cbn [nth_error]. rewrite <- (golomb_nodup ks l PL), <- distinct_all, map_length, dzero_int. pose proof (distinct_le (map (measure ks) l)) as D. rewrite map_length in D. split.
  - intros H. injection H as H. pose proof one_z_pos. nia.
  - intros ->. do 2 f_equal. lia.
Qed.
Lemma total_bound u ks : Forall (fun k => 1 <= k <= u) ks -> 0 <= u -> total ks <= u * Z.of_nat (length ks).
Proof. intros H Hu. induction H as [|k ks Hk H IH]; [cbn; lia|]. cbn [total fold_right length]. fold (total ks). lia. Qed.
(** On the decision vectors of a ruler that was built *)
Lemma built_ruler order upper ks f : 0 <= order -> 0 <= upper -> golomb_construct order upper = Ok tt -> Z.of_nat (length ks) = order - 1 -> Forall (fun k => 1 <= k <= upper) ks -> order <= 2 ^ 26 ->
  golomb_fitness srt (map dint ks) = Ok f -> nth_error f 0 = Some (dint (total ks)) /\ total ks <= uint_max /\ (nth_error f 1 = Some dzero <-> golomb ks).
Proof.
  intros Ho Hu C L B HO E. unfold golomb_construct in C. destruct (Z.ltb_spec order 2); [discriminate|]. destruct (Z.ltb_spec upper 2); [discriminate|]. destruct (Z.ltb_spec (uint_max / (order - 1)) upper) as [|D]; [discriminate|].
  assert (T : total ks <= uint_max).
  { pose proof (total_bound upper ks B Hu) as T. rewrite L in T. assert (upper * (order - 1) <= uint_max); [|lia]. pose proof (Z.mul_div_le uint_max (order - 1) ltac:(lia)). nia. }
  assert (HF : Forall (fun k => 0 <= k) ks) by (eapply Forall_impl; [|exact B]; cbn; lia).
  destruct (violation ks f HF ltac:(unfold uint_max in T; lia) ltac:(lia) E) as [A1 A2]. auto.
Qed.
End S.
Lemma ctor_spec order upper : 0 <= order -> 0 <= upper ->
  (golomb_construct order upper = Ok tt <-> 2 <= order /\ 2 <= upper /\ upper * (order - 1) <= uint_max) /\
  (golomb_construct order upper = Throw InvalidArgument <-> order < 2 \/ upper < 2) /\
  (golomb_construct order upper = Throw OverflowError <-> 2 <= order /\ 2 <= upper /\ uint_max < upper * (order - 1)).
Proof.
  intros H1 H2. unfold golomb_construct. destruct (Z.ltb_spec order 2).
  { repeat split; intros; try discriminate; try lia; reflexivity. }
  destruct (Z.ltb_spec upper 2). { repeat split; intros; try discriminate; try lia; reflexivity. }
  assert (K : uint_max / (order - 1) < upper <-> uint_max < upper * (order - 1)).
  { split; intros H3. - pose proof (Z.mul_succ_div_gt uint_max (order - 1) ltac:(lia)). nia. - apply Z.div_lt_upper_bound; lia. }
  destruct (Z.ltb_spec (uint_max / (order - 1)) upper); repeat split; intros; try discriminate; try lia; reflexivity.
Qed.
Lemma any_ok srt x : sort_contract srt -> exists f0 f1, golomb_fitness srt x = Ok [f0; f1].
Proof.
  intros HS. unfold golomb_fitness. cbv zeta. set (ticks := dzero :: partial_sum x). assert (TL : exists n, length ticks = S n) by (exists (length (partial_sum x)); reflexivity). destruct TL as [n TL]. rewrite TL.
  assert (TG : forall i, (i <= n)%nat -> exists v, vget ticks i = Ok v) by (intros i Hi; unfold vget; destruct (nth_error ticks i) as [v|] eqn:N; [now exists v|apply nth_error_None in N; lia]).
  destruct (TG (S n - 1)%nat ltac:(lia)) as [f0 ->]. cbn [bind].
  assert (MM : forall l, (forall ij, In ij l -> (fst ij < snd ij <= n)%nat) -> exists r, mmap (fun ij => bind (vget ticks (snd ij)) (fun b => bind (vget ticks (fst ij)) (fun a => Ok (dsub b a)))) l = Ok r).
  { induction l as [|[i j] l IH]; intros H; [now exists []|]. pose proof (H (i, j) (or_introl eq_refl)) as Hij. cbn [fst snd] in Hij. cbn [mmap fst snd]. destruct (TG j ltac:(lia)) as [b ->], (TG i ltac:(lia)) as [a ->]. cbn [bind]. destruct IH as [r ->]; [intros; apply H; now right|]. cbn [bind]. eauto. }
  destruct (pairs_ok n) as [_ PI]. destruct (MM (index_pairs (S n))) as [r ->]; [intros [i j] H; apply PI in H; exact H|]. cbn [bind].
  destruct (std_sort_ok srt less_than_f r HS (ltf_swo _)) as (r' & -> & _). cbn [bind]. eauto.
Qed.
Lemma udp_good srt order upper : 0 <= upper -> golomb_construct order upper = Ok tt -> good_udp (golomb_udp srt order upper).
Proof.
  intros Hu C. unfold golomb_construct in C. destruct (Z.ltb_spec order 2); [discriminate|]. destruct (Z.ltb_spec upper 2); [discriminate|]. destruct (Z.ltb_spec (uint_max / (order - 1)) upper) as [|D]; [discriminate|]. clear C.
  assert (O : order - 1 <= uint_max) by (pose proof (Z.mul_div_le uint_max (order - 1) ltac:(lia)); nia).
  assert (U : upper <= uint_max) by (pose proof (Z.mul_div_le uint_max (order - 1) ltac:(lia)); nia).
  unfold good_udp, good_bounds, golomb_udp, uint_max in *. cbn [u_lb u_ub u_nobj u_nec u_nic u_nix u_gs u_hs]. rewrite !repeat_length. set (n := Z.to_nat (order - 1)). assert (N : Z.of_nat n = order - 1) by (unfold n; lia). clearbody n.
  assert (R : forall (v w : dbl) i, nth_error (repeat v n) i = Some w -> w = v) by (intros v w i H1; apply nth_error_In in H1; now apply repeat_spec in H1).
  assert (DU : d_of_Z upper = dint upper) by (apply d_of_Z_int; lia).
  split.
  - split; [destruct n; [cbn in N; lia|discriminate]|]. split; [reflexivity|]. split; [|split; [lia|]].
    + intros i l u H1 H2. rewrite (R _ _ _ H1), (R _ _ _ H2). rewrite DU, done_int, dle_int. split; [discriminate|]. split; [discriminate|]. apply Z.leb_le. lia.
    + intros i l u _ H1 H2. rewrite (R _ _ _ H1), (R _ _ _ H2). rewrite DU, done_int. split; intros _; eexists; reflexivity.
  - split; [discriminate|]. split; [reflexivity|]. split; [reflexivity|]. split; [reflexivity|]. split; [lia|]. split; [lia|]. pose proof (Z.div_lt (Z.of_nat n) 2 ltac:(lia) ltac:(lia)). nia.
Qed.
