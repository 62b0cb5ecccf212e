(** The algorithms and the generic methods together. *)
From Coq Require Import List Bool Arith ZArith Lia Permutation Sorting.Sorted.
From Verif Require Import Dbl Outcome StdSort BaseFacts Hypervolume SpecHypervolume HvFacts HvFacts2 HvFacts3 HvFacts4.
Import ListNotations.
Local Open Scope Z_scope.

Lemma cells_ext L r r' s : (forall i, (i < s)%nat -> zc r i = zc r' i) -> cells L r s = cells L r' s.
Proof. induction s as [|s IH]; intros H; cbn [cells]; auto. rewrite IH, H by (intros; try apply H; lia). reflexivity. Qed.
Lemma meas_r_ext L r r' s P : (forall i, (i < s)%nat -> zc r i = zc r' i) -> meas L r s P = meas L r' s P.
Proof. intros H. unfold meas. now rewrite (cells_ext L r r' s H). Qed.
Lemma zc_firstn s p i : (i < s)%nat -> zc (firstn s p) i = zc p i.
Proof.
  unfold zc. revert p i. induction s as [|s IH]; intros p i H; [lia|]. destruct p as [|x p]; [destruct i; reflexivity|]. destruct i as [|i]; cbn; auto.
  apply IH. lia.
Qed.
Lemma inbox_ext s p q x : (forall i, (i < s)%nat -> zc p i = zc q i) -> inbox s p x = inbox s q x.
Proof. intros H. apply eq_true_iff_eq. rewrite !inbox_spec. split; intros K i Hi; specialize (K i Hi); rewrite H in * by auto; auto. Qed.
Lemma union_firstn s pts x : union s (map (firstn s) pts) x = union s pts x.
Proof. unfold union. induction pts as [|p pts IH]; cbn [map existsb]; auto. rewrite IH. f_equal. apply inbox_ext. intros. now apply zc_firstn. Qed.
Lemma within_ext L r r' s p : (forall i, (i < s)%nat -> zc r i = zc r' i) -> within L r s p -> within L r' s p.
Proof. intros H W i Hi. rewrite <- H by auto. apply W. auto. Qed.

Section All.
Context (m : Z) (srt : sorter) (Hsrt : sort_contract srt).

Lemma dims_ok {N} d (pts : list (list N)) : (forall p, In p pts -> (d <= length p)%nat) -> dims_at_least d pts = true.
Proof. intros H. apply forallb_forall. intros p Hp. apply Nat.leb_le. auto. Qed.

Lemma wfg2_ok L r pts : (2 <= length r)%nat -> pts <> [] -> (forall p, In p pts -> (length r <= length p)%nat /\ within L r (length r) p) ->
  wfg2_compute (Zar m) srt pts r = Ok (meas L r (length r) (union (length r) pts)).
Proof.
  intros HR NE H. unfold wfg2_compute. rewrite dims_ok by (intros; now apply H).
  apply compute_hv_ok; auto; [lia| |intros p Hp; now apply H|intros p Hp; now apply H]. intros ps G _ _ _. now apply hv2d_ptr_ok.
Qed.
Lemma delegate_ok L r stop ps : - m < L -> (2 <= stop <= length r)%nat -> good L r stop ps -> (3 <= length ps)%nat ->
  (forall p, In p ps -> (stop <= length p)%nat) ->
  wfg_delegate (Zar m) srt stop r ps = Ok (meas L r stop (union stop ps)).
Proof.
  intros HM HS G HL HP. unfold wfg_delegate. destruct (Nat.eq_dec stop 2) as [->|N2]; [now apply hv2d_ptr_ok|].
  assert (E : wfg_delegate (Zar m) srt stop r ps = best_compute (Zar m) srt (wfg2_compute (Zar m) srt) (map (firstn stop) ps) (firstn stop r)).
  { unfold wfg_delegate. destruct stop as [|[|[|k]]]; [lia|lia|lia|reflexivity]. }
  unfold wfg_delegate in E. rewrite E. clear E. unfold best_compute. rewrite firstn_length_le by lia.
  assert (RE : forall i, (i < stop)%nat -> zc r i = zc (firstn stop r) i) by (intros; symmetry; now apply zc_firstn).
  assert (W : forall p, In p (map (firstn stop) ps) -> length p = stop /\ within L (firstn stop r) stop p).
  { intros p Hp. apply in_map_iff in Hp. destruct Hp as (q & <- & Hq). split; [apply firstn_length_le; auto|].
    intros i Hi. rewrite !zc_firstn by auto. now apply (G q Hq). }
  assert (M : meas L r stop (union stop ps) = meas L (firstn stop r) stop (union stop (map (firstn stop) ps))).
  { rewrite (meas_r_ext L r (firstn stop r)) by auto. apply meas_ext. intros x _. symmetry. apply union_firstn. }
  assert (NE : map (firstn stop) ps <> []) by (destruct ps; [cbn in HL; lia|discriminate]).
  rewrite M. destruct stop as [|[|[|[|k]]]]; [lia|lia|lia| |].
  - apply hv3d_ok; auto; [|rewrite firstn_length_le; lia]. intros p Hp. destruct (W p Hp) as [W1 W2]. split; [lia|]. split; auto.
    intros i Hi. specialize (W2 i Hi). lia.
  - pose proof (wfg2_ok L (firstn (S (S (S (S k)))) r) (map (firstn (S (S (S (S k))))) ps)) as K. rewrite firstn_length_le in K by lia. apply K; auto; [lia|].
    intros p Hp. destruct (W p Hp) as [W1 W2]. split; auto. lia.
Qed.


Lemma wfg_hv_ok L r stop pts : - m < L -> (2 <= stop)%nat -> (1 <= length r)%nat -> pts <> [] ->
  (forall p, In p pts -> (length r <= length p)%nat /\ within L r (length r) p) ->
  compute_hv (Zar m) srt (wfg_delegate (Zar m) srt stop r) stop r (length r) pts = Ok (meas L r (length r) (union (length r) pts)).
Proof.
  intros HM HS HR NE H. apply compute_hv_ok; auto; try (intros p Hp; now apply H).
  intros ps G H3 St LP. apply delegate_ok; auto.
Qed.

Lemma alg_ok L a r pts : - m < L -> suits a (length r) -> pts <> [] -> (forall p, In p pts -> length p = length r /\ within L r (length r) p) ->
  alg_compute (Zar m) srt a pts r = Ok (meas L r (length r) (union (length r) pts)).
Proof.
  intros HM SU NE H. destruct a as [| |stop]; cbn [alg_compute suits] in *.
  - rewrite SU in *. apply hv2d_vec_ok; auto; intros p Hp; now apply H.
  - rewrite SU in *. apply hv3d_ok; auto; [|lia]. intros p Hp. destruct (H p Hp) as [W1 W2]. split; [lia|]. split; auto. intros i Hi. specialize (W2 i Hi). lia.
  - unfold wfg_compute. rewrite dims_ok by (intros p Hp; destruct (H p Hp); lia). apply wfg_hv_ok; auto; [tauto|lia|].
    intros p Hp. destruct (H p Hp). split; [lia|auto].
Qed.
Lemma representable_within r pts : bounded_by r pts -> representable m pts ->
  exists L, - m < L /\ forall p, In p pts -> length p = length r /\ within L r (length r) p.
Proof.
  intros B R. destruct (bounded_within r pts B) as (L & W). exists (Z.max L (1 - m)). split; [lia|]. intros p Hp. destruct (W p Hp) as [W1 W2].
  split; auto. intros i Hi. specialize (W2 i Hi). split; [|lia]. assert (IN : In (zc p i) p) by (unfold zc; apply nth_In; lia). specialize (R p _ Hp IN). lia.
Qed.
Lemma compute_volume a r pts : suits a (length r) -> pts <> [] -> bounded_by r pts -> representable m pts ->
  exists v, alg_compute (Zar m) srt a pts r = Ok v /\ volume (dominated pts r) v.
Proof.
  intros SU NE B R. destruct (representable_within r pts B R) as (L & HM & W). exists (meas L r (length r) (union (length r) pts)).
  split; [now apply alg_ok|]. apply meas_volume. now apply union_dominated.
Qed.
Lemma hv2d_volume r pts : length r = 2%nat -> bounded_by r pts -> exists v, hv2d_compute (Zar m) srt true pts r = Ok v /\ volume (dominated pts r) v.
Proof.
  intros HR B. destruct (bounded_within r pts B) as (L & W). exists (meas L r (length r) (union (length r) pts)). split.
  - rewrite HR in *. apply hv2d_vec_ok; auto; intros p Hp; now apply W.
  - apply meas_volume. now apply union_dominated.
Qed.

(** ** Exclusive contributions *)
Lemma remove_nth_perm {A} i (l : list A) x : nth_error l i = Some x -> Permutation l (x :: remove_nth i l).
Proof.
  unfold remove_nth. revert l. induction i as [|i IH]; intros [|y l] H; try discriminate; cbn in *.
  - injection H as ->. reflexivity.
  - etransitivity; [apply perm_skip, IH, H|]. apply perm_swap.
Qed.
Lemma remove_nth_in {A} i (l : list A) y : In y (remove_nth i l) -> In y l.
Proof.
  unfold remove_nth. intros H. apply in_app_iff in H. rewrite <- (firstn_skipn i l). apply in_app_iff. destruct H as [H|H]; auto.
  right. revert l H. induction i as [|i IH]; intros [|x l]; cbn; auto.
Qed.
Lemma remove_nth_ne {A} i (l : list A) : (2 <= length l)%nat -> (i < length l)%nat -> remove_nth i l <> [].
Proof. intros H H2 E. apply (f_equal (@length A)) in E. unfold remove_nth in E. rewrite app_length, firstn_length_le, skipn_length in E by lia. cbn in E. lia. Qed.

Section Excl.
Context (L : Z) (r : list Z) (pts : list (list Z)).
Context (W : forall p, In p pts -> length p = length r /\ within L r (length r) p).
Definition excl_meas (i : nat) : Z :=
  meas L r (length r) (fun x => inbox (length r) (nth i pts []) x && negb (union (length r) (remove_nth i pts) x)).
Lemma excl_volume i : (i < length pts)%nat -> volume (only_dominated_by i pts r) (excl_meas i).
Proof.
  intros Hi. apply meas_volume. intros x. unfold only_dominated_by.
  destruct (nth_error pts i) as [p|] eqn:E; [|apply nth_error_None in E; lia]. rewrite (nth_error_nth pts i [] E).
  pose proof (remove_nth_perm i pts p E) as P.
  rewrite <- (union_dominated L r pts W x). change (firstn i pts ++ skipn (S i) pts) with (remove_nth i pts).
  rewrite <- (union_dominated L r (remove_nth i pts)) by (intros q Hq; apply W; eapply remove_nth_in; eauto).
  rewrite (union_perm (length r) _ _ x P), union_cons.
  destruct (inbox (length r) p x), (union (length r) (remove_nth i pts) x); cbn; intuition discriminate.
Qed.
Lemma excl_diff i : (i < length pts)%nat ->
  meas L r (length r) (union (length r) pts) - meas L r (length r) (union (length r) (remove_nth i pts)) = excl_meas i.
Proof.
  intros Hi. unfold excl_meas. destruct (nth_error pts i) as [p|] eqn:E; [|apply nth_error_None in E; lia]. rewrite (nth_error_nth pts i [] E).
  pose proof (remove_nth_perm i pts p E) as P. rewrite meas_diff.
  rewrite (meas_ext L r (length r) (union (length r) pts) (fun x => inbox (length r) p x || union (length r) (remove_nth i pts) x)) by (intros x _; now rewrite (union_perm (length r) _ _ x P)).
  rewrite meas_or. lia.
Qed.
End Excl.

Lemma exclusive_volume a r pts i : suits a (length r) -> bounded_by r pts -> representable m pts -> (i < length pts)%nat ->
  exists v, hv_exclusive (Zar m) (alg_compute (Zar m) srt a) i pts r = Ok v /\ volume (only_dominated_by i pts r) v.
Proof.
  intros SU B R Hi. destruct (representable_within r pts B R) as (L & HM & W). exists (excl_meas L r pts i). split; [|now apply excl_volume].
  assert (NE : pts <> []) by (intros ->; cbn in Hi; lia).
  rewrite <- excl_diff by auto. unfold hv_exclusive. destruct pts as [|p [|q l]] eqn:EP; [contradiction| |].
  - rewrite (alg_ok L) by (auto; discriminate). f_equal. assert (i = 0%nat) by (cbn in Hi; lia). subst i. cbn [remove_nth firstn skipn app].
    rewrite (meas_false L r (length r) (union (length r) [])) by reflexivity. lia.
  - rewrite <- EP in *. destruct (Nat.ltb_spec i (length pts)); [|lia]. rewrite (alg_ok L) by auto. cbn [bind].
    rewrite (alg_ok L); auto; [apply remove_nth_ne; auto; rewrite EP; cbn; lia|]. intros x Hx. apply W. eapply remove_nth_in; eauto.
Qed.

Lemma mmap_seq_ok {B} (f : nat -> outcome B) (g : nat -> B) n : (forall i, (i < n)%nat -> f i = Ok (g i)) -> mmap f (seq 0 n) = Ok (map g (seq 0 n)).
Proof.
  intros H. assert (G : forall l, (forall i, In i l -> (i < n)%nat) -> mmap f l = Ok (map g l)).
  { induction l as [|i l IH]; intros K; cbn; auto. rewrite H by (apply K; left; auto). cbn. rewrite IH by (intros; apply K; right; auto). reflexivity. }
  apply G. intros i Hi. apply in_seq in Hi. lia.
Qed.
Lemma nth_error_map_seq {B} (g : nat -> B) n i v : nth_error (map g (seq 0 n)) i = Some v -> (i < n)%nat /\ v = g i.
Proof.
  intros H. assert (Hi : (i < n)%nat) by (assert (K : nth_error (map g (seq 0 n)) i <> None) by congruence; apply nth_error_Some in K; now rewrite map_length, seq_length in K).
  split; auto. rewrite (map_nth_error g i (seq 0 n) (d := i)) in H; [congruence|]. rewrite nth_error_nth' with (d := 0%nat) by (rewrite seq_length; auto). now rewrite seq_nth.
Qed.

Lemma contributions_base a r pts : suits a (length r) -> pts <> [] -> bounded_by r pts -> representable m pts ->
  exists c, hv_contributions (Zar m) (alg_compute (Zar m) srt a) pts r = Ok c /\ exact_contributions pts r c.
Proof.
  intros SU NE B R. destruct (representable_within r pts B R) as (L & HM & W). exists (map (excl_meas L r pts) (seq 0 (length pts))). split.
  - unfold hv_contributions. destruct pts as [|p [|q l]] eqn:EP; [contradiction| |].
    + destruct (W p (or_introl eq_refl)) as [W1 W2]. rewrite W1, Nat.leb_refl. cbn [length seq map]. do 2 f_equal.
      rewrite (vol_vec_eq m L r p (length r)) by auto. unfold excl_meas. cbn [nth remove_nth firstn skipn app]. apply meas_ext. intros x _. cbn. now rewrite andb_true_r.
    + rewrite <- EP in *. rewrite (alg_ok L) by auto. cbn [bind]. apply mmap_seq_ok. intros i Hi.
      rewrite (alg_ok L); auto; [cbn [bind asub Zar]; f_equal; now apply excl_diff|apply remove_nth_ne; auto; rewrite EP; cbn; lia|].
      intros x Hx. apply W. eapply remove_nth_in; eauto.
  - split; [now rewrite map_length, seq_length|]. intros i v Hv. apply nth_error_map_seq in Hv. destruct Hv as [Hi ->]. now apply excl_volume.
Qed.
Lemma contributions_wfg stop r pts : (2 <= stop)%nat -> (2 <= length r)%nat -> bounded_by r pts -> representable m pts ->
  exists c, wfg_contributions (Zar m) srt stop pts r = Ok c /\ exact_contributions pts r c.
Proof.
  intros HS HR B R. destruct (representable_within r pts B R) as (L & HM & W). exists (map (excl_meas L r pts) (seq 0 (length pts))). split.
  - unfold wfg_contributions. rewrite dims_ok by (intros p Hp; destruct (W p Hp); lia). apply mmap_seq_ok. intros i Hi.
    assert (WI : within L r (length r) (nth i pts [])) by (apply W; now apply nth_In).
    unfold excl_meas. apply exclusive_ok; auto.
    + intros q Hq. apply W. eapply remove_nth_in; eauto.
    + intros ls G LL ELS. apply wfg_hv_ok; auto; [lia|intros ->; cbn in LL; lia|].
      intros q Hq. split; [|apply G; auto]. rewrite ELS in Hq. apply limitset_in in Hq. destruct Hq as [[]|(o & _ & ->)]. now rewrite limit_point_len.
  - split; [now rewrite map_length, seq_length|]. intros i v Hv. apply nth_error_map_seq in Hv. destruct Hv as [Hi ->]. now apply excl_volume.
Qed.

(** The extreme contributor *)
Lemma extreme_from_ok (cmp : Z -> Z -> bool) (le : Z -> Z -> Prop) :
  (forall a b, cmp a b = false -> le b a) -> (forall a b, cmp a b = true -> le a b) -> (forall a, le a a) -> (forall a b c, le a b -> le b c -> le a c) ->
  forall c pre bi best, nth_error pre bi = Some best -> (forall j w, nth_error pre j = Some w -> le best w) ->
  attains le (pre ++ c) (extreme_from cmp c (length pre) bi best).
Proof.
  intros C1 C2 RF TR. induction c as [|x c IH]; intros pre bi best E H; cbn [extreme_from].
  - rewrite app_nil_r. exists best. auto.
  - assert (LEN : S (length pre) = length (pre ++ [x])) by (rewrite app_length; cbn; lia).
    replace (pre ++ x :: c) with ((pre ++ [x]) ++ c) by (rewrite <- app_assoc; reflexivity). rewrite LEN.
    assert (SNOC : forall j w, nth_error (pre ++ [x]) j = Some w -> nth_error pre j = Some w \/ w = x).
    { intros j w K. destruct (Nat.lt_ge_cases j (length pre)); [rewrite nth_error_app1 in K by auto; auto|]. rewrite nth_error_app2 in K by auto.
      destruct (j - length pre)%nat as [|k]; cbn in K; [right; congruence|destruct k; discriminate]. }
    destruct (cmp x best) eqn:EC; apply IH.
    + rewrite nth_error_app2 by lia. now rewrite Nat.sub_diag.
    + intros j w K. apply SNOC in K. destruct K as [K| ->]; auto. eapply TR; [apply C2; exact EC|eauto].
    + rewrite nth_error_app1; auto. apply nth_error_Some. congruence.
    + intros j w K. apply SNOC in K. destruct K as [K| ->]; eauto.
Qed.
Lemma extreme_ok contribs cmp (le : Z -> Z -> Prop) pts r c : (forall a b, cmp a b = false -> le b a) -> (forall a b, cmp a b = true -> le a b) -> (forall a, le a a) -> (forall a b c, le a b -> le b c -> le a c) ->
  contribs pts r = Ok c -> length c = length pts -> pts <> [] -> exists k, extreme_contributor contribs cmp pts r = Ok k /\ attains le c k.
Proof.
  intros C1 C2 RF TR E LC NE. unfold extreme_contributor. destruct pts as [|p [|q l]] eqn:EP; [contradiction| |].
  - exists 0%nat. split; auto. destruct c as [|v [|w c]]; try (cbn in LC; lia). exists v. split; auto. intros [|j] w K; cbn in K; [injection K as <-; apply RF|destruct j; discriminate].
  - rewrite E. cbn [bind]. destruct c as [|v c]; [cbn in LC; lia|]. eexists. split; [reflexivity|].
    apply (extreme_from_ok cmp le C1 C2 RF TR c [v] 0 v); auto. intros [|j] w K; cbn in K; [injection K as <-; apply RF|destruct j; discriminate].
Qed.

(** ** Monotonicity *)
Lemma volume_mono (P Q : list Z -> Prop) v w : (forall x, P x -> Q x) -> volume P v -> volume Q w -> v <= w.
Proof.
  intros H (l & N1 & I1 & ->) (k & N2 & I2 & ->). apply inj_le. apply NoDup_incl_length; auto. intros x Hx. apply I2, H, I1, Hx.
Qed.
Lemma dominated_mono r pts pts' : weakly_dominated_by pts' pts -> forall x, dominated pts r x -> dominated pts' r x.
Proof.
  intros H x (X & p & Hp & B). split; auto. destruct (H p Hp) as (q & Hq & C). exists q. split; auto. apply Forall2_nthZ. apply Forall2_nthZ in B, C.
  destruct B as [B1 B2], C as [C1 C2]. split; [congruence|]. intros i Hi. specialize (B2 i Hi). specialize (C2 i ltac:(lia)). lia.
Qed.
Lemma compute_mono a a' r pts pts' v v' : suits a (length r) -> suits a' (length r) -> pts <> [] -> pts' <> [] ->
  bounded_by r pts -> bounded_by r pts' -> representable m pts -> representable m pts' -> weakly_dominated_by pts' pts ->
  alg_compute (Zar m) srt a pts r = Ok v -> alg_compute (Zar m) srt a' pts' r = Ok v' -> v <= v'.
Proof.
  intros S1 S2 N1 N2 B1 B2 R1 R2 D E1 E2.
  destruct (compute_volume a r pts) as (w & E & V); auto. rewrite E in E1. injection E1 as ->.
  destruct (compute_volume a' r pts') as (w' & E' & V'); auto. rewrite E' in E2. injection E2 as ->.
  eapply volume_mono; [apply dominated_mono; eauto|eauto|eauto].
Qed.
End All.
