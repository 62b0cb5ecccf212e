(** The generic operations in exact arithmetic, hv2d and the WFG algorithm. *)
From Coq Require Import List Bool Arith ZArith Lia Permutation Sorting.Sorted.
From Verif Require Import Dbl Outcome StdSort BaseFacts Hypervolume SpecHypervolume HvFacts.
Import ListNotations.
Local Open Scope Z_scope.

Lemma crd_zc m p i : crd (Zar m) p i = zc p i.
Proof. reflexivity. Qed.
Lemma amax_max m a b : amax (Zar m) a b = Z.max a b.
Proof. unfold amax. cbn. destruct (Z.ltb_spec a b); lia. Qed.
Lemma abs_if v : (if v <? 0 then - v else v) = Z.abs v.
Proof. destruct (Z.ltb_spec v 0); lia. Qed.
Lemma fold_mul_rev (f : nat -> Z) l : forall a, fold_left (fun v i => v * f i) (rev l) a = fold_left (fun v i => v * f i) l a.
Proof.
  assert (C : forall l a b, fold_left (fun v i => v * f i) l (a * b) = fold_left (fun v i => v * f i) l a * b).
  { induction l0 as [|x l0 IH]; intros a b; cbn; auto. replace (a * b * f x) with (a * f x * b) by ring. apply IH. }
  induction l as [|x l IH]; intros a; cbn [rev fold_left]; auto. rewrite fold_left_app. cbn. rewrite IH, C. reflexivity.
Qed.
Lemma abs_prodz f s : Z.abs (prodz f s) = prodz (fun i => Z.abs (f i)) s.
Proof. induction s as [|s IH]; [reflexivity|]. rewrite !prodz_S, Z.abs_mul, IH. reflexivity. Qed.

Section Bounds.
Context (m : Z) (L : Z) (r : list Z).
Lemma vol_ptr_eq p s : within L r s p -> vol_ptr (Zar m) p r s = meas L r s (inbox s p).
Proof.
  intros W. rewrite meas_box by auto. unfold vol_ptr. cbn [alt Zar azero aneg amul asub aone]. rewrite abs_if.
  rewrite (fold_mul_rev (fun i => crd (Zar m) r i - crd (Zar m) p i)).
  change (Z.abs (prodz (fun i => zc r i - zc p i) s) = prodz (fun i => zc r i - zc p i) s).
  apply Z.abs_eq, prodz_nonneg. intros i Hi. specialize (W i Hi). lia.
Qed.
Lemma vol_vec_eq p s : within L r s p -> vol_vec (Zar m) p r s = meas L r s (inbox s p).
Proof.
  intros W. rewrite meas_box by auto. unfold vol_vec. cbn [alt Zar azero aneg amul asub aone]. rewrite abs_if.
  change (Z.abs (prodz (fun i => zc p i - zc r i) s) = prodz (fun i => zc r i - zc p i) s).
  rewrite abs_prodz. apply prodz_ext. intros i Hi. specialize (W i Hi). lia.
Qed.

(** ** Dominance comparisons *)
Lemma dom_cmp_spec_from a b : forall is_,
  match dom_cmp_from (Zar m) a b is_ with
  | BDominatesA => forall i, In i is_ -> zc b i <= zc a i
  | ADominatesB => forall i, In i is_ -> zc a i <= zc b i
  | ABEqual => forall i, In i is_ -> zc a i = zc b i
  | Incomparable => (exists i, In i is_ /\ zc a i < zc b i) /\ (exists i, In i is_ /\ zc b i < zc a i)
  end.
Proof.
  induction is_ as [|i is_ IH]; cbn [dom_cmp_from]; [intros i []|]. rewrite !crd_zc. cbn [alt Zar].
  destruct (Z.ltb_spec (zc b i) (zc a i)).
  - destruct (existsb _ is_) eqn:E.
    + apply existsb_exists in E. destruct E as (j & Hj & E). rewrite !crd_zc in E. cbn in E. apply Z.ltb_lt in E.
      split; [exists j|exists i]; split; auto; [right; auto|left; auto].
    + intros j [<-|Hj]; [lia|]. assert (K : existsb (fun j => alt (Zar m) (crd (Zar m) a j) (crd (Zar m) b j)) is_ = false) by exact E.
      destruct (Z.ltb_spec (zc a j) (zc b j)); [|lia]. exfalso. assert (T : existsb (fun j => alt (Zar m) (crd (Zar m) a j) (crd (Zar m) b j)) is_ = true).
      { apply existsb_exists. exists j. split; auto. rewrite !crd_zc. cbn. now apply Z.ltb_lt. } congruence.
  - destruct (Z.ltb_spec (zc a i) (zc b i)).
    + destruct (existsb _ is_) eqn:E.
      * apply existsb_exists in E. destruct E as (j & Hj & E). rewrite !crd_zc in E. cbn in E. apply Z.ltb_lt in E.
        split; [exists i|exists j]; split; auto; [left; auto|right; auto].
      * intros j [<-|Hj]; [lia|]. assert (K : existsb (fun j => alt (Zar m) (crd (Zar m) b j) (crd (Zar m) a j)) is_ = false) by exact E.
        destruct (Z.ltb_spec (zc b j) (zc a j)); [|lia]. exfalso. assert (T : existsb (fun j => alt (Zar m) (crd (Zar m) b j) (crd (Zar m) a j)) is_ = true).
        { apply existsb_exists. exists j. split; auto. rewrite !crd_zc. cbn. now apply Z.ltb_lt. } congruence.
    + destruct (dom_cmp_from (Zar m) a b is_).
      * intros j [<-|Hj]; [lia|auto].
      * intros j [<-|Hj]; [lia|auto].
      * intros j [<-|Hj]; [lia|auto].
      * destruct IH as [(j & Hj & E) (k & Hk & F)]. split; [exists j|exists k]; split; auto; right; auto.
Qed.
Lemma dom_cmp_spec a b s :
  match dom_cmp (Zar m) a b s with
  | BDominatesA => forall i, (i < s)%nat -> zc b i <= zc a i
  | ADominatesB => forall i, (i < s)%nat -> zc a i <= zc b i
  | ABEqual => forall i, (i < s)%nat -> zc a i = zc b i
  | Incomparable => (exists i, (i < s)%nat /\ zc a i < zc b i) /\ (exists i, (i < s)%nat /\ zc b i < zc a i)
  end.
Proof.
  unfold dom_cmp. pose proof (dom_cmp_spec_from a b (seq 0 s)) as H.
  destruct (dom_cmp_from (Zar m) a b (seq 0 s)); try (intros i Hi; apply H; apply in_seq; lia).
  destruct H as [(j & Hj & E) (k & Hk & F)]. apply in_seq in Hj, Hk. split; [exists j|exists k]; split; auto; lia.
Qed.
Lemma inbox_mono s a b x : (forall i, (i < s)%nat -> zc a i <= zc b i) -> inbox s b x = true -> inbox s a x = true.
Proof. intros H K. rewrite inbox_spec in *. intros i Hi. specialize (H i Hi). specialize (K i Hi). lia. Qed.

(** ** Limit sets *)
Lemma nth_map_seq (f : nat -> Z) s i : (i < s)%nat -> zc (map f (seq 0 s)) i = f i.
Proof. intros H. unfold zc. rewrite (nth_indep _ 0 (f 0%nat)) by (rewrite map_length, seq_length; auto). rewrite map_nth, seq_nth by auto. reflexivity. Qed.
Lemma limit_point_len q p s : length (limit_point (Zar m) q p s) = s.
Proof. unfold limit_point. now rewrite map_length, seq_length. Qed.
Lemma limit_point_c q p s i : (i < s)%nat -> zc (limit_point (Zar m) q p s) i = Z.max (zc q i) (zc p i).
Proof. intros H. unfold limit_point. rewrite nth_map_seq by auto. apply amax_max. Qed.
Lemma limit_point_box q p s x : inbox s (limit_point (Zar m) q p s) x = inbox s q x && inbox s p x.
Proof.
  apply eq_true_iff_eq. rewrite andb_true_iff, !inbox_spec. split.
  - intros H. split; intros i Hi; specialize (H i Hi); rewrite limit_point_c in H by auto; lia.
  - intros [H1 H2] i Hi. rewrite limit_point_c by auto. specialize (H1 i Hi). specialize (H2 i Hi). lia.
Qed.
Lemma limit_point_within q p s : within L r s q -> within L r s p -> within L r s (limit_point (Zar m) q p s).
Proof. intros A B i Hi. rewrite limit_point_c by auto. specialize (A i Hi). specialize (B i Hi). lia. Qed.
Lemma limit_add_union s fr x c : union s (limit_add (Zar m) s fr x) c = union s fr c || inbox s x c.
Proof.
  unfold limit_add. destruct (existsb _ fr) eqn:E.
  - apply existsb_exists in E. destruct E as (q & Hq & E). pose proof (dom_cmp_spec x q s) as D.
    destruct (dom_cmp (Zar m) x q s); try discriminate.
    destruct (inbox s x c) eqn:I; [|now rewrite orb_false_r]. rewrite orb_true_r. apply existsb_exists. exists q. split; auto. eapply inbox_mono; eauto.
  - rewrite union_app. cbn [union existsb]. rewrite orb_false_r. clear E.
    induction fr as [|q fr IH]; cbn [filter union existsb]; [reflexivity|].
    pose proof (dom_cmp_spec x q s) as D. destruct (dom_cmp (Zar m) x q s).
    + cbn [union existsb]. rewrite <- !orb_assoc. f_equal. exact IH.
    + assert (K : inbox s q c = true -> inbox s x c = true) by (intros H; eapply inbox_mono; eauto). destruct (inbox s q c) eqn:Q.
      * rewrite K by auto. now rewrite !orb_true_r.
      * exact IH.
    + assert (K : inbox s q c = true -> inbox s x c = true) by (intros H; eapply inbox_mono; [|exact H]; intros i Hi; rewrite D by auto; lia).
      destruct (inbox s q c) eqn:Q.
      * rewrite K by auto. now rewrite !orb_true_r.
      * exact IH.
    + cbn [union existsb]. rewrite <- !orb_assoc. f_equal. exact IH.
Qed.
Lemma limitset_union s p c : forall others fr,
  union s (fold_left (fun frame q => limit_add (Zar m) s frame (limit_point (Zar m) q p s)) others fr) c =
  union s fr c || (inbox s p c && union s others c).
Proof.
  induction others as [|q others IH]; intros fr; cbn [fold_left].
  - cbn [union existsb]. now rewrite andb_false_r, orb_false_r.
  - rewrite IH, limit_add_union, limit_point_box. cbn [union existsb].
    destruct (union s fr c), (inbox s q c), (inbox s p c); cbn; auto.
Qed.
Lemma limit_add_in s fr x q : In q (limit_add (Zar m) s fr x) -> In q fr \/ q = x.
Proof.
  unfold limit_add. destruct (existsb _ fr); auto. intros H. apply in_app_iff in H. destruct H as [H|[<-|[]]]; auto.
  apply filter_In in H. tauto.
Qed.
Lemma limitset_in s p : forall others fr q,
  In q (fold_left (fun frame q => limit_add (Zar m) s frame (limit_point (Zar m) q p s)) others fr) ->
  In q fr \/ exists o, In o others /\ q = limit_point (Zar m) o p s.
Proof.
  induction others as [|o others IH]; intros fr q H; cbn [fold_left] in H; auto.
  apply IH in H. destruct H as [H|(o' & H & E)]; [|right; exists o'; split; [right|]; auto].
  apply limit_add_in in H. destruct H as [H|H]; auto. right. exists o. split; [left|]; auto.
Qed.
Lemma limitset_zero p others : (length (limitset (Zar m) others p 0) <= 1)%nat.
Proof.
  unfold limitset. assert (G : forall fr, (length fr <= 1)%nat -> (length (fold_left (fun frame q => limit_add (Zar m) 0 frame (limit_point (Zar m) q p 0)) others fr) <= 1)%nat).
  { induction others as [|o others IH]; intros fr H; cbn [fold_left]; auto. apply IH. unfold limit_add, dom_cmp. cbn.
    destruct (existsb _ fr) eqn:E; auto. rewrite app_length. cbn. replace (filter _ fr) with (@nil (list Z)); [cbn; lia|].
    clear. induction fr as [|q fr IH]; cbn; auto. }
  apply G. cbn. lia.
Qed.

(** ** Sorting *)
Lemma cmp_points_false s a b : cmp_points (Zar m) s a b = false -> cmp_points (Zar m) s b a = false -> forall i, (i < s)%nat -> zc a i = zc b i.
Proof.
  induction s as [|s IH]; cbn [cmp_points]; intros A B i Hi; [lia|]. rewrite !crd_zc in *. cbn [alt Zar] in *.
  destruct (Z.ltb_spec (zc b s) (zc a s)); [discriminate|]. destruct (Z.ltb_spec (zc a s) (zc b s)); [discriminate|].
  destruct (Nat.eq_dec i s) as [->|]; [lia|]. apply IH; auto. lia.
Qed.
Lemma cmp_points_ext s a b c : (forall i, (i < s)%nat -> zc a i = zc b i) -> cmp_points (Zar m) s a c = cmp_points (Zar m) s b c /\ cmp_points (Zar m) s c a = cmp_points (Zar m) s c b.
Proof.
  induction s as [|s IH]; cbn [cmp_points]; intros H; auto. rewrite !crd_zc. rewrite (H s) by lia.
  destruct IH as [E F]; [intros; apply H; lia|]. rewrite E, F. auto.
Qed.
Lemma cmp_points_trans s a b c : cmp_points (Zar m) s a b = true -> cmp_points (Zar m) s b c = true -> cmp_points (Zar m) s a c = true.
Proof.
  induction s as [|s IH]; cbn [cmp_points]; auto. rewrite !crd_zc. cbn [alt Zar].
  destruct (Z.ltb_spec (zc b s) (zc a s)), (Z.ltb_spec (zc a s) (zc b s)), (Z.ltb_spec (zc c s) (zc b s)), (Z.ltb_spec (zc b s) (zc c s)),
    (Z.ltb_spec (zc c s) (zc a s)), (Z.ltb_spec (zc a s) (zc c s)); intros; try discriminate; try lia; auto.
Qed.
Lemma cmp_points_irrefl s a : cmp_points (Zar m) s a a = false.
Proof. induction s as [|s IH]; cbn [cmp_points]; auto. rewrite !crd_zc. cbn [alt Zar]. rewrite Z.ltb_irrefl. exact IH. Qed.
Lemma cmp_points_swo s l : strict_weak_on (cmp_points (Zar m) s) l.
Proof.
  constructor.
  - intros. apply cmp_points_irrefl.
  - intros a b c _ _ _. apply cmp_points_trans.
  - intros a b c _ _ _ H1 H2 H3 H4. pose proof (cmp_points_false s a b H1 H2) as E.
    destruct (cmp_points_ext s a b c E) as [-> ->]. auto.
Qed.
Lemma cmp_points_last s a b : cmp_points (Zar m) (S s) b a = false -> zc b s <= zc a s.
Proof. cbn [cmp_points]. rewrite !crd_zc. cbn [alt Zar]. destruct (Z.ltb_spec (zc a s) (zc b s)); [discriminate|lia]. Qed.

(** ** compute_hv *)
Definition good (s : nat) (pts : list (list Z)) : Prop := forall p, In p pts -> within L r s p.
Lemma within_down s p : within L r (S s) p -> within L r s p.
Proof. intros H i Hi. apply H. lia. Qed.
Lemma limitset_good s p others : good s others -> within L r s p -> good s (limitset (Zar m) others p s).
Proof.
  intros G W q Hq. apply limitset_in in Hq. destruct Hq as [[]|(o & Ho & ->)]. apply limit_point_within; auto.
Qed.
Lemma exclusive_ok rec s p others : good s others -> within L r s p ->
  (forall ls, good s ls -> (2 <= length ls)%nat -> ls = limitset (Zar m) others p s -> rec ls = Ok (meas L r s (union s ls))) ->
  exclusive_hv (Zar m) rec s r p (limitset (Zar m) others p s) =
  Ok (meas L r s (fun x => inbox s p x && negb (union s others x))).
Proof.
  intros G W R. rewrite meas_diff.
  assert (U : meas L r s (union s (limitset (Zar m) others p s)) = meas L r s (fun x => inbox s p x && union s others x)).
  { apply meas_ext. intros x _. unfold limitset. rewrite limitset_union. reflexivity. }
  rewrite <- U. unfold exclusive_hv. pose proof (limitset_good s p others G W) as GL.
  rewrite (vol_ptr_eq p s W).
  destruct (limitset (Zar m) others p s) as [|q [|q2 ls]] eqn:E.
  - rewrite (meas_false _ _ s (union s [])) by reflexivity. f_equal. lia.
  - rewrite (vol_ptr_eq q s) by (apply GL; left; auto). cbn [asub Zar]. do 2 f_equal. apply meas_ext. intros x _. cbn. now rewrite orb_false_r.
  - rewrite R; auto. cbn. lia.
Qed.

Context (srt : sorter).
Context (Hsrt : sort_contract srt).

Lemma swo_std {A} (cmp : A -> A -> bool) l : strict_weak_on cmp l -> exists l', std_sort srt cmp l = Ok l' /\ Permutation l l' /\ sorted_by cmp l'.
Proof.
  intros H. destruct (std_sort_ok srt cmp l Hsrt H) as (E & P & SS). eauto.
Qed.

Lemma slice_excl s p later : within L r (S s) p -> (forall q, In q later -> zc q s <= zc p s) ->
  meas L r (S s) (fun x => inbox (S s) p x && negb (union (S s) later x)) = (zc r s - zc p s) * meas L r s (fun x => inbox s p x && negb (union s later x)).
Proof.
  intros W H. apply meas_cyl; [apply W; lia|]. intros x z Hx Hz. pose proof (cells_len L r s x Hx) as LX. rewrite inbox_S by auto.
  destruct (Z.leb_spec (zc p s) z); [|now rewrite !andb_false_r]. rewrite !andb_true_r. f_equal. f_equal.
  unfold union. clear - H LX H0. induction later as [|q later IH]; cbn [existsb]; auto. rewrite inbox_S by auto.
  rewrite IH by (intros; apply H; right; auto). pose proof (H q (or_introl eq_refl)). destruct (Z.leb_spec (zc q s) z); [|lia]. now rewrite andb_true_r.
Qed.

Lemma compute_hv_ok delegate stop s pts : (1 <= s)%nat ->
  (forall ps, good stop ps -> (3 <= length ps)%nat -> (stop <= s)%nat -> (forall p, In p ps -> (stop <= length p)%nat) -> delegate ps = Ok (meas L r stop (union stop ps))) ->
  good s pts -> (forall p, In p pts -> (s <= length p)%nat) -> pts <> [] -> compute_hv (Zar m) srt delegate stop r s pts = Ok (meas L r s (union s pts)).
Proof.
  revert pts. induction s as [|s IH]; intros pts Hs HD G LEN NE; [lia|].
  assert (SLICE : (3 <= length pts)%nat ->
    (if Nat.eqb (S s) stop then delegate pts
     else (sorted <- std_sort srt (cmp_points (Zar m) (S s)) pts ;;
            (fix loop (l : list (list Z)) (h : Z) : outcome Z :=
               match l with
               | [] => Ok h
               | p :: later =>
                   e <- exclusive_hv (Zar m) (compute_hv (Zar m) srt delegate stop r s) s r p (limitset (Zar m) later p s) ;;
                   loop later (aadd (Zar m) h (aabs (Zar m) (amul (Zar m) (asub (Zar m) (crd (Zar m) p s) (crd (Zar m) r s)) e)))
               end) sorted (azero (Zar m))))%outcome = Ok (meas L r (S s) (union (S s) pts))).
  { intros THREE. destruct (Nat.eqb_spec (S s) stop) as [ES|NS].
    - subst stop. apply HD; auto.
    - destruct (swo_std (cmp_points (Zar m) (S s)) pts) as (l & -> & P & SS); [apply cmp_points_swo|]. cbn [bind].
      replace (meas L r (S s) (union (S s) pts)) with (azero (Zar m) + meas L r (S s) (union (S s) l)).
      2:{ cbn [azero Zar]. rewrite Z.add_0_l. apply meas_ext. intros x _. now apply union_perm, Permutation_sym. }
      assert (GL : good (S s) l) by (intros q Hq; apply G; eapply Permutation_in; [apply Permutation_sym|]; eauto).
      clear P THREE. revert SS GL. generalize (azero (Zar m)) as h. induction l as [|p l IHl]; intros h SS GL.
      + cbn [azero Zar]. f_equal. rewrite meas_false by reflexivity. lia.
      + inversion SS as [|? ? SS' HF]; subst. rewrite Forall_forall in HF.
        assert (GS : good s l) by (intros q Hq; apply within_down, GL; right; auto).
        assert (WP : within L r (S s) p) by (apply GL; left; auto).
        rewrite exclusive_ok.
        * cbn [bind]. rewrite IHl by (auto; intros q Hq; apply GL; right; auto). f_equal.
          cbn [aadd aabs amul asub Zar]. rewrite !crd_zc.
          set (e := meas L r s (fun x => inbox s p x && negb (union s l x))).
          assert (E : Z.abs ((zc p s - zc r s) * e) = meas L r (S s) (fun x => inbox (S s) p x && negb (union (S s) l x))).
          { rewrite slice_excl; auto; [|intros q Hq; apply cmp_points_last; auto]. fold e. pose proof (meas_nonneg L r s (fun x => inbox s p x && negb (union s l x))).
            fold e in H. specialize (WP s ltac:(lia)). rewrite Z.abs_mul. rewrite (Z.abs_eq e) by auto. f_equal. lia. }
          rewrite E. rewrite (meas_diff L r (S s) (inbox (S s) p) (union (S s) l)).
          rewrite (meas_ext L r (S s) (union (S s) (p :: l)) (fun x => inbox (S s) p x || union (S s) l x)) by reflexivity.
          rewrite meas_or. lia.
        * exact GS.
        * now apply within_down.
        * intros ls GLS LL ELS. destruct s as [|s].
          -- exfalso. pose proof (limitset_zero p l). rewrite <- ELS in H. lia.
          -- apply IH; [lia| |exact GLS| |intros ->; cbn in LL; lia]; [intros ps G1 T St LP; apply HD; auto|].
             intros q Hq. rewrite ELS in Hq. apply limitset_in in Hq. destruct Hq as [[]|(o & _ & ->)]. rewrite limit_point_len. lia. }
  destruct pts as [|p [|q [|q' pts]]].
  - contradiction.
  - cbn [compute_hv]. rewrite vol_ptr_eq by (apply G; left; auto). f_equal. apply meas_ext. intros x _. cbn. now rewrite orb_false_r.
  - cbn [compute_hv].
    assert (Wp : within L r (S s) p) by (apply G; left; auto). assert (Wq : within L r (S s) q) by (apply G; right; left; auto).
    rewrite !vol_ptr_eq by auto. f_equal. cbn [asub aadd Zar].
    rewrite (meas_ext L r (S s) (union (S s) [p; q]) (fun x => inbox (S s) p x || inbox (S s) q x)) by (intros; cbn; now rewrite orb_false_r).
    rewrite meas_or. f_equal.
    rewrite (meas_ext L r (S s) (fun x => inbox (S s) p x && inbox (S s) q x) (inbox (S s) (limit_point (Zar m) p q (S s)))) by (intros; now rewrite limit_point_box).
    rewrite meas_box by (apply limit_point_within; auto).
    transitivity (prodz (fun i => zc r i - Z.max (zc p i) (zc q i)) (S s)).
    + unfold prodz. change (aone (Zar m)) with 1.
      assert (FE : forall l v, fold_left (fun v i => amul (Zar m) v (asub (Zar m) (crd (Zar m) r i) (amax (Zar m) (crd (Zar m) p i) (crd (Zar m) q i)))) l v =
                               fold_left (fun v i => v * (zc r i - Z.max (zc p i) (zc q i))) l v).
      { induction l as [|i l IHl]; intros v; cbn [fold_left]; auto. rewrite amax_max, IHl. reflexivity. }
      apply FE.
    + apply prodz_ext. intros i Hi. now rewrite limit_point_c.
  - apply SLICE; cbn; lia.
Qed.
End Bounds.
