From Coq Require Import List Bool Arith ZArith Lia.
From Verif Require Import Dbl DblFacts Outcome StdSort BaseFacts Compare Discrepancy SpecDiscrepancy DiscrepancyFacts Weights.
Import ListNotations.
Local Open Scope Z_scope.

Fixpoint tuples (X : list Z) (m1 : nat) (s : Z) : list (list Z) :=
  match m1 with
  | O => if found X s then [[s]] else []
  | S m => flat_map (fun x => map (cons x) (tuples X m ((s - x) mod two64))) X
  end.

Lemma reksum_tuples X m : forall s eggs ret, reksum X m s eggs ret = ret ++ map (app eggs) (tuples X m s).
Proof.
  induction m as [|m IH]; intros s eggs ret; cbn [reksum tuples].
  - destruct (found X s); simpl; [reflexivity|rewrite app_nil_r; reflexivity].
  - generalize X at 2 4. intros Y. revert ret. induction Y as [|x Y IHY]; intros ret; cbn [fold_left flat_map map].
    + rewrite app_nil_r; reflexivity.
    + rewrite IHY, IH. rewrite map_app, map_map, app_assoc. f_equal. f_equal.
      apply map_ext. intros a. rewrite <- app_assoc. reflexivity.
Qed.

Lemma found_range n s : found (zrange0 n) s = true <-> 0 <= s < Z.of_nat n.
Proof.
  unfold found, zrange0. rewrite existsb_exists. split.
  - intros (x & Hx & E). apply Z.eqb_eq in E. subst x. apply in_map_iff in Hx. destruct Hx as (k & <- & Hk). apply in_seq in Hk. lia.
  - intros H. exists s. split; [|apply Z.eqb_refl]. apply in_map_iff. exists (Z.to_nat s). split; [lia|]. apply in_seq. lia.
Qed.

(* r is the true remainder; it stays within (H - 2^64, H] so wrapping is harmless *)
Lemma tuples_in H m : 0 <= H < two64 -> forall r k, r <= H -> H - two64 < r - Z.of_nat m * H ->
  (In k (tuples (zrange0 (Z.to_nat (H + 1))) m (r mod two64)) <-> lattice_point (S m) r k).
Proof.
  intros HH. assert (P64 : 0 < two64) by (vm_compute; reflexivity).
  induction m as [|m IH]; intros r k Hr Hlo; cbn [tuples].
  - assert (Hf : found (zrange0 (Z.to_nat (H + 1))) (r mod two64) = true <-> 0 <= r).
    { rewrite found_range. rewrite Z2Nat.id by lia. split; intros Hx.
      - destruct (Z_lt_ge_dec r 0); [|lia]. exfalso.
        assert (r mod two64 = r + two64). { symmetry. apply Z.mod_unique with (-1); lia. } lia.
      - destruct (Z_lt_ge_dec r two64); [rewrite Z.mod_small; lia|].
        pose proof (Z.mod_le r two64 ltac:(lia) P64). pose proof (Z.mod_pos_bound r two64 P64). lia. }
    destruct (found _ _) eqn:Ef.
    + assert (0 <= r) by (apply Hf; reflexivity). 
      assert (r mod two64 = r).
      { destruct (Z_lt_ge_dec r two64); [apply Z.mod_small; lia|]. lia. }
      rewrite H1. split.
      * intros [<-|[]]. split; [reflexivity|]. split; [repeat constructor; lia|simpl; lia].
      * intros (L & F & S). destruct k as [|a [|]]; try discriminate. simpl in S. left. f_equal. lia.
    + split; [intros []|]. intros (L & F & S). destruct k as [|a [|]]; try discriminate. simpl in S.
      inversion F; subst. assert (false = true) by (apply Hf; lia). discriminate.
  - rewrite in_flat_map. split.
    + intros (x & Hx & Hk). apply in_map_iff in Hk. destruct Hk as (t & <- & Ht).
      apply in_map_iff in Hx. destruct Hx as (j & <- & Hj). apply in_seq in Hj.
      assert (Hj' : 0 <= Z.of_nat j <= H) by lia.
      rewrite Zminus_mod_idemp_l in Ht. apply IH in Ht; [|lia|lia].
      destruct Ht as (L & F & S). split; [simpl; lia|]. split; [constructor; [lia|exact F]|simpl; lia].
    + intros (L & F & S). destruct k as [|x t]; [discriminate|]. inversion F; subst. cbn [zsum length] in *.
      assert (0 <= zsum t). { clear - H3. induction H3; simpl; lia. }
      exists x. split.
      * apply in_map_iff. exists (Z.to_nat x). split; [lia|]. apply in_seq. lia.
      * apply in_map. rewrite Zminus_mod_idemp_l. replace (x + zsum t - x) with (zsum t) by lia.
        apply IH; [lia| |]; [lia|]. split; [lia|]. auto.
Qed.

Lemma NoDup_flat_map {A B} (f : A -> list B) l : NoDup l -> (forall a, In a l -> NoDup (f a)) ->
  (forall a b x, In a l -> In b l -> In x (f a) -> In x (f b) -> a = b) -> NoDup (flat_map f l).
Proof.
  induction 1 as [|a l Ha ND IH]; intros Hf Hd; simpl; [constructor|].
  assert (G : forall l1 l2 : list B, NoDup l1 -> NoDup l2 -> (forall x, In x l1 -> In x l2 -> False) -> NoDup (l1 ++ l2)).
  { clear. intros l1 l2 H1 H2 H. induction l1 as [|x l1 IH]; simpl; [exact H2|]. inversion H1; subst. constructor.
    - rewrite in_app_iff. intros [C|C]; [contradiction|]. apply (H x); [left; reflexivity|exact C].
    - apply IH; auto. intros y Hy. apply H. right; exact Hy. }
  apply G.
  - apply Hf; left; reflexivity.
  - apply IH; [intros; apply Hf; right; assumption|]. intros b c x Hb Hc. apply Hd; right; assumption.
  - intros x H1 H2. apply in_flat_map in H2. destruct H2 as (b & Hb & Hx). apply Ha.
    rewrite (Hd a b x); auto; [left; reflexivity|right; exact Hb].
Qed.

Lemma zrange0_nodup n : NoDup (zrange0 n).
Proof. apply FinFun.Injective_map_NoDup; [intros a b; apply Nat2Z.inj|apply seq_NoDup]. Qed.

Lemma tuples_nodup n m : forall s, NoDup (tuples (zrange0 n) m s).
Proof.
  induction m as [|m IH]; intros s; cbn [tuples].
  - destruct (found _ _); repeat constructor. intros [].
  - apply NoDup_flat_map; [apply zrange0_nodup| |].
    + intros x _. apply FinFun.Injective_map_NoDup; [intros a b E; congruence|apply IH].
    + intros a b x _ _ H1 H2. apply in_map_iff in H1. apply in_map_iff in H2.
      destruct H1 as (t & <- & _). destruct H2 as (u & E & _). congruence.
Qed.

Lemma choose_le n k : (n < k)%nat -> choose n k = 0.
Proof.
  revert k; induction n as [|n IH]; intros [|k] Hk; cbn [choose]; try lia. rewrite !IH by lia. lia.
Qed.
Lemma choose_nn n : choose n n = 1.
Proof. induction n as [|n IH]; [reflexivity|]. cbn [choose]. rewrite IH, choose_le by lia. lia. Qed.

Lemma choose_SS n k : choose (S n) (S k) = choose n k + choose n (S k).
Proof. reflexivity. Qed.

(* hockey stick: sum over x = 0..r of C(r-x+m, m) = C(r+m+1, m+1) *)
Lemma hockey m r : fold_right (fun x acc => choose (x + m) m + acc) 0 (seq 0 (S r)) = choose (r + m + 1) (S m).
Proof.
  assert (G : forall r acc, fold_right (fun x acc => choose (x + m) m + acc) acc (seq 0 (S r)) = choose (r + m + 1) (S m) + acc).
  { clear r. induction r as [|r IH]; intros acc.
    - cbn [seq fold_right]. replace (0 + m + 1)%nat with (S m) by lia. rewrite choose_SS.
      rewrite (choose_le m (S m)) by lia. change (0 + m)%nat with m. lia.
    - rewrite seq_S, fold_right_app. cbn [fold_right]. rewrite IH.
      replace (S r + m + 1)%nat with (S (r + m + 1)) by lia. rewrite choose_SS.
      replace (0 + S r + m)%nat with (r + m + 1)%nat by lia. lia. }
  rewrite G. lia.
Qed.

Lemma flat_map_len {A B} (f : A -> list B) l :
  Z.of_nat (length (flat_map f l)) = fold_right (fun a acc => Z.of_nat (length (f a)) + acc) 0 l.
Proof. induction l as [|a l IH]; simpl; [reflexivity|]. rewrite app_length, Nat2Z.inj_add, IH. reflexivity. Qed.

Lemma tuples_neg H m : 0 <= H < two64 -> forall r, r < 0 -> H - two64 < r - Z.of_nat m * H ->
  tuples (zrange0 (Z.to_nat (H + 1))) m (r mod two64) = [].
Proof.
  intros HH r Hr Hlo. destruct (tuples _ _ _) as [|k l] eqn:E; [reflexivity|].
  assert (Hin : In k (tuples (zrange0 (Z.to_nat (H + 1))) m (r mod two64))) by (rewrite E; left; reflexivity).
  apply tuples_in in Hin; [|lia|lia|lia]. destruct Hin as (_ & F & S).
  assert (0 <= zsum k). { clear - F. induction F; simpl; lia. } lia.
Qed.

Lemma fold_right_ext {A} (f g : A -> Z -> Z) l a : (forall x y, In x l -> f x y = g x y) -> fold_right f a l = fold_right g a l.
Proof. induction l as [|x l IH]; intros E; simpl; [reflexivity|]. rewrite IH by (intros; apply E; right; assumption). apply E. left; reflexivity. Qed.

Lemma tuples_count H m : 0 <= H < two64 -> forall r, (Z.of_nat r <= H) -> H - two64 < Z.of_nat r - Z.of_nat m * H ->
  Z.of_nat (length (tuples (zrange0 (Z.to_nat (H + 1))) m (Z.of_nat r mod two64))) = choose (r + m) m.
Proof.
  intros HH. assert (P64 : 0 < two64) by (vm_compute; reflexivity).
  induction m as [|m IH]; intros r Hr Hlo.
  - cbn [tuples]. assert (Z.of_nat r mod two64 = Z.of_nat r).
    { apply Z.mod_small. lia. }
    rewrite H0. rewrite (proj2 (found_range _ _)) by lia. destruct (r + 0)%nat; reflexivity.
  - cbn [tuples]. rewrite flat_map_len.
    replace (r + S m)%nat with (r + m + 1)%nat by lia. rewrite <- hockey.
    assert (EX : zrange0 (Z.to_nat (H + 1)) = map Z.of_nat (seq 0 (S r)) ++ map Z.of_nat (seq (S r) (Z.to_nat H - r))).
    { unfold zrange0. rewrite <- map_app. change (seq (S r) (Z.to_nat H - r)) with (seq (0 + S r) (Z.to_nat H - r)).
      rewrite <- (seq_app (S r) (Z.to_nat H - r) 0). f_equal. f_equal. lia. }
    match goal with |- fold_right ?f _ _ = _ => set (F := f) end.
    rewrite EX, fold_right_app. subst F. clear EX.
    assert (Z0 : forall l, (forall x, In x l -> Z.of_nat r < x <= H) ->
       fold_right (fun a acc => Z.of_nat (length (map (cons a) (tuples (zrange0 (Z.to_nat (H + 1))) m ((Z.of_nat r mod two64 - a) mod two64)))) + acc) 0 l = 0).
    { induction l as [|x l IHl]; intros Hl; cbn [fold_right]; [reflexivity|].
      rewrite IHl by (intros; apply Hl; right; assumption).
      specialize (Hl x (or_introl eq_refl)). rewrite Zminus_mod_idemp_l, tuples_neg by lia. reflexivity. }
    rewrite Z0.
    2:{ intros x Hx. apply in_map_iff in Hx. destruct Hx as (j & <- & Hj). apply in_seq in Hj. lia. }
    (* the rest is the reversed hockey-stick sum *)
    assert (Rv : forall f : nat -> Z, fold_right (fun x acc => f x + acc) 0 (seq 0 (S r)) = fold_right (fun x acc => f (r - x)%nat + acc) 0 (seq 0 (S r))).
    { intros f. assert (Gs : forall l, fold_right (fun x acc => f x + acc) 0 (rev l) = fold_right (fun x acc => f x + acc) 0 l).
      { assert (Ga : forall l a, fold_right (fun x acc => f x + acc) a l = fold_right (fun x acc => f x + acc) 0 l + a).
        { induction l as [|x l IHl]; intros a; simpl; [lia|]. rewrite IHl. lia. }
        induction l as [|x l IHl]; simpl; [reflexivity|]. rewrite fold_right_app. simpl. rewrite Ga, IHl. lia. }
      rewrite <- Gs.
      assert (Hrev : rev (seq 0 (S r)) = map (fun x => r - x)%nat (seq 0 (S r))).
      { apply (list_ext_nth _ _ 0%nat); [rewrite rev_length, map_length; reflexivity|].
        intros i Hi. rewrite rev_length, seq_length in Hi. rewrite rev_nth by (rewrite seq_length; lia). rewrite seq_length, seq_nth by lia.
        rewrite (nth_indep _ 0%nat (r - 0)%nat) by (rewrite map_length, seq_length; lia).
        rewrite (map_nth (fun x => r - x)%nat), seq_nth by lia. lia. }
      rewrite Hrev. clear. induction (seq 0 (S r)) as [|x l IHl]; simpl; [reflexivity|]. rewrite IHl. reflexivity. }
    rewrite (Rv (fun x => choose (x + m) m)).
    assert (Fm : forall (g : Z -> Z -> Z) l, fold_right g 0 (map Z.of_nat l) = fold_right (fun x acc => g (Z.of_nat x) acc) 0 l).
    { intros g. induction l as [|x l IHl]; simpl; [reflexivity|]. rewrite IHl; reflexivity. }
    rewrite Fm. apply fold_right_ext. intros x acc Hx. apply in_seq in Hx. f_equal.
    rewrite map_length, Zminus_mod_idemp_l. replace (Z.of_nat r - Z.of_nat x) with (Z.of_nat (r - x)) by lia.
    apply IH; lia.
Qed.

Lemma reksum_lattice n H : (1 <= n)%nat -> 0 <= H -> Z.of_nat n * (H + 1) <= two64 ->
  let L := reksum (zrange0 (Z.to_nat (H + 1))) (n - 1) H [] [] in
  NoDup L /\ (forall k, In k L <-> lattice_point n H k) /\ Z.of_nat (length L) = choose (Z.to_nat H + n - 1) (n - 1).
Proof.
  intros Hn HH Hb L. unfold L. clear L. rewrite reksum_tuples. change (app (@nil Z)) with (fun l : list Z => l). rewrite map_id.
  assert (HS : H mod two64 = H) by (apply Z.mod_small; nia).
  replace (tuples (zrange0 (Z.to_nat (H + 1))) (n - 1) H) with (tuples (zrange0 (Z.to_nat (H + 1))) (n - 1) (H mod two64)) by (rewrite HS; reflexivity).
  cbn [app]. split; [|split].
  - apply tuples_nodup.
  - intros k. rewrite tuples_in by nia. replace (S (n - 1)) with n by lia. reflexivity.
  - pose proof (tuples_count H (n - 1) ltac:(nia) (Z.to_nat H) ltac:(lia) ltac:(nia)) as K.
    rewrite Z2Nat.id in K by lia. rewrite K. f_equal. lia.
Qed.

(** d_of_Z is exact and injective on integers below 2^53. *)
Lemma d_of_Z_exact k : 0 <= k < 2 ^ 53 -> d_of_Z k = Fin (k * one_z).
Proof.
  intros H. unfold d_of_Z. apply rnd_exact. exists k, 1074. repeat split; try lia.
  rewrite Z.abs_mul. unfold ovf_z, one_z. change (2 ^ 2098) with (2 ^ 1024 * 2 ^ 1074).
  rewrite (Z.abs_eq (2 ^ 1074)) by (apply Z.pow_nonneg; lia).
  apply Z.mul_lt_mono_pos_r; [apply Z.pow_pos_nonneg; lia|]. rewrite Z.abs_eq by lia.
  apply Z.lt_le_trans with (2 ^ 53); [lia|]. apply Z.pow_le_mono_r; lia.
Qed.

Lemma corners_canonical nf i w : nth_error (corners nf) i = Some w -> canonical nf i w.
Proof.
  intros H. unfold corners in H. rewrite nth_error_map in H.
  destruct (nth_error (seq 0 nf) i) as [k|] eqn:E; [|discriminate]. simpl in H. inversion H; subst w; clear H.
  assert (i < nf)%nat by (rewrite <- (seq_length nf 0); apply nth_error_Some; congruence).
  apply (nth_error_nth _ _ 0%nat) in E. rewrite seq_nth in E by assumption. simpl in E. subst k.
  split; [rewrite upd_length; apply repeat_length|]. intros j Hj. destruct (Nat.eqb_spec j i) as [->|Hne].
  - apply nth_error_upd_eq. rewrite repeat_length. exact Hj.
  - rewrite nth_error_upd_neq by congruence. rewrite (nth_error_nth' _ dzero) by (rewrite repeat_length; exact Hj).
    rewrite nth_repeat. reflexivity.
Qed.

Lemma weights_sampled srt binom fuel hp draw nf nw m : sort_contract srt -> (2 <= nf <= nw)%nat ->
  m = WLowDiscrepancy /\ (forall i, length (hp i) = (nf - 1)%nat /\ Forall unit_dbl (hp i)) \/
  m = WRandom /\ (forall i j, unit_dbl (draw i j)) ->
  exists ws, decomposition_weights srt binom fuel hp draw nf nw m = Ok ws /\ length ws = nw /\
    (forall i w, (i < nf)%nat -> nth_error ws i = Some w -> canonical nf i w) /\
    (forall i w, (nf <= i)%nat -> nth_error ws i = Some w -> on_simplex nf w).
Proof.
  intros C Hn Hm. unfold decomposition_weights.
  destruct (Nat.ltb_spec nw nf); [lia|]. destruct (Nat.ltb_spec nf 2); [lia|].
  assert (G : forall f, (forall i, exists r, sample_from_simplex srt (f i) = Ok r /\ on_simplex nf r) ->
     exists ws, bind (mmap (fun i => sample_from_simplex srt (f i)) (seq nf (nw - nf))) (fun ws => Ok (corners nf ++ ws)) = Ok ws /\ length ws = nw /\
    (forall i w, (i < nf)%nat -> nth_error ws i = Some w -> canonical nf i w) /\
    (forall i w, (nf <= i)%nat -> nth_error ws i = Some w -> on_simplex nf w)).
  { intros f Hf.
    rewrite (mmap_pure _ (fun i => match sample_from_simplex srt (f i) with Ok r => r | _ => [] end)).
    2:{ intros i _. destruct (Hf i) as (r & -> & _). reflexivity. }
    cbn [bind]. eexists. split; [reflexivity|].
    assert (Lc : length (corners nf) = nf) by (unfold corners; rewrite map_length, seq_length; reflexivity).
    split; [rewrite app_length, Lc, map_length, seq_length; lia|]. split.
    - intros i w Hi Hw. rewrite nth_error_app1 in Hw by lia. apply corners_canonical; exact Hw.
    - intros i w Hi Hw. rewrite nth_error_app2 in Hw by lia. apply nth_error_In in Hw. apply in_map_iff in Hw.
      destruct Hw as (k & <- & _). destruct (Hf k) as (r & -> & Hr). exact Hr. }
  destruct Hm as [[-> Hh]|[-> Hd]].
  - apply G. intros i. destruct (Hh i) as [Hl Hu].
    destruct (simplex_ok srt (hp i) C Hu) as (r & gaps & E & L & F & S & Er); [intros E0; rewrite E0 in Hl; simpl in Hl; lia|].
    exists r. split; [exact E|]. exists gaps. split; [lia|]. auto.
  - apply (G (fun i => map (draw i) (seq 0 (nf - 1)))). intros i.
    destruct (simplex_ok srt (map (draw i) (seq 0 (nf - 1))) C) as (r & gaps & E & L & F & S & Er).
    + apply Forall_forall. intros x Hx. apply in_map_iff in Hx. destruct Hx as (j & <- & _). apply Hd.
    + destruct (nf - 1)%nat eqn:En; [lia|]. simpl. discriminate.
    + exists r. split; [exact E|]. exists gaps. rewrite map_length, seq_length in L. split; [lia|]. auto.
Qed.

Lemma weights_grid srt binom fuel hp draw nf nw ws :
  decomposition_weights srt binom fuel hp draw nf nw WGrid = Ok ws ->
  Z.of_nat nf * Z.of_nat nw <= two64 ->
  exists H, grid_H binom fuel (Z.of_nat nf) (Z.of_nat nw) = Ok H /\
   (0 <= H < Z.of_nat nw ->
    exists L, NoDup L /\ (forall k, In k L <-> lattice_point nf H k) /\
      ws = map (map (fun k => ddiv (d_of_Z k) (d_of_Z H))) L /\
      Z.of_nat (length ws) = choose (Z.to_nat H + nf - 1) (nf - 1)).
Proof.
  unfold decomposition_weights. destruct (Nat.ltb_spec nw nf); [discriminate|]. destruct (Nat.ltb_spec nf 2); [discriminate|].
  destruct (grid_H binom fuel (Z.of_nat nf) (Z.of_nat nw)) as [H'| | |] eqn:EH; cbn [bind]; try discriminate.
  destruct (dgt _ _); [discriminate|]. intros E Hb. inversion E; subst ws; clear E. exists H'. split; [reflexivity|].
  intros HH. destruct (reksum_lattice nf H') as (ND & Hin & Hc); [lia|lia|nia|].
  eexists. split; [exact ND|]. split; [exact Hin|]. split; [reflexivity|]. rewrite map_length. exact Hc.
Qed.

Lemma choose_nonneg n : forall k, 0 <= choose n k.
Proof. induction n as [|n IH]; intros [|k]; cbn [choose]; try lia. pose proof (IH k). pose proof (IH (S k)). lia. Qed.
Lemma choose_one n : choose n 1 = Z.of_nat n.
Proof. induction n as [|n IH]; [reflexivity|]. rewrite choose_SS, IH. destruct n; cbn [choose]; lia. Qed.
Lemma choose_ge h m : Z.of_nat h + 1 <= choose (h + 1 + m) (1 + m).
Proof.
  induction m as [|m IH].
  - rewrite Nat.add_0_r, choose_one. lia.
  - replace (h + 1 + S m)%nat with (S (h + 1 + m)) by lia. change (1 + S m)%nat with (S (1 + m)). rewrite choose_SS.
    pose proof (choose_nonneg (h + 1 + m) (S (1 + m))). lia.
Qed.

Lemma one_z_pos : 0 < one_z.
Proof. vm_compute. reflexivity. Qed.

(* the test of the grid size is exact *)
Lemma grid_check_exact a c : 0 <= a < 2 ^ 53 -> 0 <= c ->
  dgt (dabs (dsub (d_of_Z a) (d_of_Z c))) d1em8 = false -> c = a.
Proof.
  intros Ha Hc. rewrite (d_of_Z_exact a Ha). pose proof one_z_pos as P1.
  assert (Hsub : forall x y, one_z <= Z.abs (x - y) -> dgt (dabs (dsub (Fin x) (Fin y))) d1em8 = true).
  { intros x y Hd. unfold dsub. cbn [dneg dadd]. replace (x + - y) with (x - y) by lia.
    assert (Hr : one_z <= rnd_nat (Z.abs (x - y)) 1).
    { replace one_z with (rnd_nat one_z 1); [apply rnd_nat_mono; lia|]. vm_compute. reflexivity. }
    unfold rnd. destruct (ovf_z <=? rnd_nat (Z.abs (x - y)) 1).
    - destruct (Z.sgn (x - y) <? 0); vm_compute; reflexivity.
    - cbn [dabs]. unfold dgt, d1em8, dlt. apply Z.ltb_lt.
      assert (K : (2 ^ 52 + 1541029470702650) * 2 ^ 995 < one_z) by (vm_compute; reflexivity).
      rewrite Z.abs_mul. assert (Z.abs (Z.sgn (x - y)) = 1) by lia. rewrite H. rewrite Z.abs_eq by lia. lia. }
  destruct (Z_lt_ge_dec c (2 ^ 53)) as [Hlt|Hge].
  - rewrite (d_of_Z_exact c) by lia. intros H. destruct (Z.eq_dec c a) as [E|E]; [exact E|]. exfalso.
    rewrite Hsub in H; [discriminate|]. rewrite <- Z.mul_sub_distr_r, Z.abs_mul, (Z.abs_eq one_z) by lia.
    assert (1 <= Z.abs (a - c)) by lia. nia.
  - intros H. exfalso. unfold d_of_Z, rnd in H.
    assert (Hr : 2 ^ 53 * one_z <= rnd_nat (Z.abs (c * one_z)) 1).
    { replace (2 ^ 53 * one_z) with (rnd_nat (2 ^ 53 * one_z) 1) by (vm_compute; reflexivity).
      apply rnd_nat_mono; [vm_compute; discriminate|lia|]. rewrite Z.abs_eq by nia. apply Z.mul_le_mono_nonneg_r; lia. }
    destruct (ovf_z <=? rnd_nat (Z.abs (c * one_z)) 1) eqn:Eo.
    + assert (Es : Z.sgn (c * one_z) <? 0 = false) by (apply Z.ltb_ge; nia). rewrite Es in H. vm_compute in H. discriminate.
    + assert (Es : Z.sgn (c * one_z) = 1) by (apply Z.sgn_pos; nia). rewrite Es, Z.mul_1_l in H.
      rewrite Hsub in H; [discriminate|]. set (w := rnd_nat _ 1) in *. 
      assert (a * one_z + one_z <= w) by nia. lia.
Qed.

Lemma grid_H_nonneg binom fuel nf nw H : 1 <= nw -> grid_H binom fuel nf nw = Ok H -> 0 <= H.
Proof.
  intros Hw. unfold grid_H. destruct (nf =? 2); [intros E; inversion E; lia|].
  destruct (nf =? 3).
  - destruct (dfloor _); try discriminate. destruct (Z.ltb_spec z 0); [discriminate|]. intros E. inversion E.
    unfold Z_of_d. apply Z.quot_pos; [lia|apply one_z_pos].
  - assert (G : forall fuel h r, grid_loop binom fuel nf nw h = Ok r -> h <= r).
    { clear. induction fuel as [|k IH]; intros h r Hr; cbn [grid_loop] in Hr; [discriminate|].
      destruct (dle _ _); [apply IH in Hr; lia|inversion Hr; lia]. }
    destruct (grid_loop binom fuel nf nw 1) eqn:E; cbn [bind]; try discriminate. apply G in E. intros E'. inversion E'. lia.
Qed.

Lemma weights_grid_full srt binom fuel hp draw nf nw ws : binomial_exact binom ->
  decomposition_weights srt binom fuel hp draw nf nw WGrid = Ok ws ->
  Z.of_nat nf * Z.of_nat nw <= two64 -> Z.of_nat nw < 2 ^ 53 ->
  length ws = nw /\
  exists H L, 0 < H /\ NoDup L /\ (forall k, In k L <-> lattice_point nf H k) /\
      ws = map (map (fun k => ddiv (d_of_Z k) (d_of_Z H))) L.
Proof.
  intros BE E Hb Hw. pose proof E as E'. apply weights_grid in E; [|exact Hb]. destruct E as (H & EH & HL).
  unfold decomposition_weights in E'. destruct (Nat.ltb_spec nw nf); [discriminate|]. destruct (Nat.ltb_spec nf 2); [discriminate|].
  assert (H0n : 0 <= H) by (eapply grid_H_nonneg; [|exact EH]; lia).
  rewrite EH in E'. cbn [bind] in E'. destruct (dgt _ _) eqn:Ec; [discriminate|]. clear E'.
  replace (H + Z.of_nat nf - 1) with (Z.of_nat (Z.to_nat H + nf - 1)) in Ec by lia.
  replace (Z.of_nat nf - 1) with (Z.of_nat (nf - 1)) in Ec by lia. rewrite BE in Ec by lia.
  apply grid_check_exact in Ec; [|lia|apply choose_nonneg].
  assert (HH : 0 <= H < Z.of_nat nw).
  { split; [exact H0n|]. rewrite <- Ec. pose proof (choose_ge (Z.to_nat H) (nf - 2)) as K.
    replace (Z.to_nat H + 1 + (nf - 2))%nat with (Z.to_nat H + nf - 1)%nat in K by lia.
    replace (1 + (nf - 2))%nat with (nf - 1)%nat in K by lia. lia. }
  destruct (HL HH) as (L & ND & Hin & Ews & Hlen). split; [lia|]. exists H, L. split; [|auto].
  destruct (Z.eq_dec H 0) as [->|]; [|lia]. exfalso. cbn [Z.to_nat Nat.add] in Ec. rewrite choose_nn in Ec. lia.
Qed.
