(** Lemmas about the base layer: outcomes, vectors, sorting, doubles. *)
From Coq Require Import List Bool Arith ZArith Lia Permutation Sorting.Sorted.
From Verif Require Import Dbl Outcome StdSort.
Import ListNotations.

(** ** Outcomes *)

Lemma bind_ok {A B} (x : outcome A) (f : A -> outcome B) b :
  bind x f = Ok b -> exists a, x = Ok a /\ f a = Ok b.
Proof. destruct x; simpl; intros H; try discriminate. eauto. Qed.

Lemma mfold_pure {S A} (f : S -> A -> outcome S) (g : S -> A -> S) l : forall s,
  (forall s a, In a l -> f s a = Ok (g s a)) -> mfold f s l = Ok (fold_left g l s).
Proof.
  induction l as [|a l IH]; simpl; intros s H; [reflexivity|].
  rewrite H by (left; reflexivity). simpl. apply IH. intros; apply H; right; assumption.
Qed.

Lemma mfold_app {S A} (f : S -> A -> outcome S) l1 l2 s :
  mfold f s (l1 ++ l2) = bind (mfold f s l1) (fun s' => mfold f s' l2).
Proof.
  revert s; induction l1 as [|a l1 IH]; simpl; intros s; [reflexivity|].
  destruct (f s a); simpl; auto.
Qed.

Lemma mfold_inv {S A} (P : S -> Prop) (f : S -> A -> outcome S) l : forall s s',
  P s -> (forall s a s', In a l -> P s -> f s a = Ok s' -> P s') -> mfold f s l = Ok s' -> P s'.
Proof.
  induction l as [|a l IH]; simpl; intros s s' Hs H E.
  - inversion E; subst; assumption.
  - apply bind_ok in E. destruct E as (s1 & E1 & E2).
    eapply IH; [| |exact E2].
    + eapply H; [left; reflexivity|exact Hs|exact E1].
    + intros; eapply H; [right|..]; eassumption.
Qed.

Lemma mmap_pure {A B} (f : A -> outcome B) (g : A -> B) l :
  (forall a, In a l -> f a = Ok (g a)) -> mmap f l = Ok (map g l).
Proof.
  induction l as [|a l IH]; simpl; intros H; [reflexivity|].
  rewrite H by (left; reflexivity). simpl. rewrite IH by (intros; apply H; right; assumption). reflexivity.
Qed.

Lemma mmap_ok_length {A B} (f : A -> outcome B) l r : mmap f l = Ok r -> length r = length l.
Proof.
  revert r; induction l as [|a l IH]; simpl; intros r H.
  - inversion H; reflexivity.
  - apply bind_ok in H. destruct H as (b & Hb & H). apply bind_ok in H. destruct H as (bs & Hbs & H).
    inversion H; subst. simpl. f_equal. apply IH; assumption.
Qed.

Lemma mmap_ok_nth {A B} (f : A -> outcome B) l r i a :
  mmap f l = Ok r -> nth_error l i = Some a -> exists b, nth_error r i = Some b /\ f a = Ok b.
Proof.
  revert r i; induction l as [|a0 l IH]; simpl; intros r i H Hi.
  - destruct i; discriminate.
  - apply bind_ok in H. destruct H as (b & Hb & H). apply bind_ok in H. destruct H as (bs & Hbs & H).
    inversion H; subst. destruct i as [|i]; simpl in *.
    + inversion Hi; subst. eauto.
    + eapply IH; eassumption.
Qed.

(** ** Vectors *)

Lemma upd_length {A} (l : list A) i a : length (upd l i a) = length l.
Proof. revert i; induction l as [|h t IH]; destruct i; simpl; auto. Qed.

Lemma upd_at_length {A} (f : A -> A) l i : length (upd_at f l i) = length l.
Proof. revert i; induction l as [|h t IH]; destruct i; simpl; auto. Qed.

Lemma nth_error_upd_eq {A} (l : list A) i a : i < length l -> nth_error (upd l i a) i = Some a.
Proof. revert i; induction l as [|h t IH]; destruct i; simpl; intros; try lia; auto. apply IH; lia. Qed.

Lemma nth_error_upd_neq {A} (l : list A) i j a : i <> j -> nth_error (upd l i a) j = nth_error l j.
Proof. revert i j; induction l as [|h t IH]; destruct i, j; simpl; intros; try congruence; auto. Qed.

Lemma nth_upd_eq {A} (l : list A) i a d : i < length l -> nth i (upd l i a) d = a.
Proof. revert i; induction l as [|h t IH]; destruct i; simpl; intros; try lia; auto. apply IH; lia. Qed.

Lemma nth_upd_neq {A} (l : list A) i j a d : i <> j -> nth j (upd l i a) d = nth j l d.
Proof. revert i j; induction l as [|h t IH]; destruct i, j; simpl; intros; try congruence; auto. Qed.

Lemma nth_upd_at {A} (f : A -> A) l i j d :
  nth j (upd_at f l i) d = if Nat.eqb i j then (if Nat.ltb i (length l) then f (nth i l d) else nth j l d) else nth j l d.
Proof.
  revert i j; induction l as [|h t IH]; intros i j; simpl.
  - destruct i, j; simpl; try reflexivity; destruct (Nat.eqb_spec i j); reflexivity.
  - destruct i, j; simpl; try reflexivity.
    rewrite IH. reflexivity.
Qed.

Lemma upd_out {A} (l : list A) i a : length l <= i -> upd l i a = l.
Proof. revert i; induction l as [|h t IH]; destruct i; simpl; intros; try lia; auto. f_equal; apply IH; lia. Qed.

Lemma in_upd {A} (l : list A) i a x : In x (upd l i a) -> x = a \/ In x l.
Proof.
  revert i; induction l as [|h t IH]; destruct i; simpl; intros H; auto.
  - destruct H; auto.
  - destruct H as [->|H]; auto. destruct (IH _ H); auto.
Qed.

Lemma vget_ok {A} (l : list A) i a : vget l i = Ok a <-> nth_error l i = Some a.
Proof. unfold vget. destruct (nth_error l i); split; intros H; inversion H; reflexivity. Qed.

Lemma vget_nth {A} (l : list A) i d : i < length l -> vget l i = Ok (nth i l d).
Proof. intros H. apply vget_ok. apply nth_error_nth'; exact H. Qed.

Lemma vset_ok {A} (l : list A) i a l' : vset l i a = Ok l' -> i < length l /\ l' = upd l i a.
Proof. unfold vset. destruct (Nat.ltb_spec i (length l)); intros E; inversion E; auto. Qed.

Lemma list_ext_nth {A} (l1 l2 : list A) d :
  length l1 = length l2 -> (forall i, i < length l1 -> nth i l1 d = nth i l2 d) -> l1 = l2.
Proof. intros; eapply nth_ext; eauto. Qed.

Lemma list_ext_error {A} (l1 l2 : list A) :
  (forall i, nth_error l1 i = nth_error l2 i) -> l1 = l2.
Proof.
  revert l2; induction l1 as [|a l1 IH]; intros [|b l2] H; try reflexivity.
  - specialize (H 0); discriminate.
  - specialize (H 0); discriminate.
  - f_equal; [specialize (H 0); simpl in H; congruence|]. apply IH. intros i. apply (H (S i)).
Qed.

Lemma in_iota n i : In i (iota n) <-> i < n.
Proof. unfold iota. rewrite in_seq. lia. Qed.
Lemma iota_length n : length (iota n) = n.
Proof. apply seq_length. Qed.
Lemma iota_NoDup n : NoDup (iota n).
Proof. apply seq_NoDup. Qed.

Lemma Permutation_iota_in n l i : Permutation (iota n) l -> (In i l <-> i < n).
Proof.
  intros P. rewrite <- in_iota. split; intros H.
  - eapply Permutation_in; [apply Permutation_sym; exact P|exact H].
  - eapply Permutation_in; eassumption.
Qed.

(** ** Sorting *)

Lemma swo_b_spec {A} (cmp : A -> A -> bool) l : swo_b cmp l = true <-> strict_weak_on cmp l.
Proof.
  unfold swo_b. rewrite andb_true_iff, !forallb_forall. split.
  - intros [H1 H2]. split.
    + intros a Ha. apply H1 in Ha. now apply negb_true_iff.
    + intros a b c Ha Hb Hc Hab Hbc.
      specialize (H2 a Ha). rewrite forallb_forall in H2. specialize (H2 b Hb).
      rewrite forallb_forall in H2. specialize (H2 c Hc).
      apply andb_true_iff in H2. destruct H2 as [H2 _]. rewrite Hab, Hbc in H2. exact H2.
    + intros a b c Ha Hb Hc E1 E2 E3 E4.
      specialize (H2 a Ha). rewrite forallb_forall in H2. specialize (H2 b Hb).
      rewrite forallb_forall in H2. specialize (H2 c Hc).
      apply andb_true_iff in H2. destruct H2 as [_ H2].
      rewrite E1, E2, E3, E4 in H2. simpl in H2. apply andb_true_iff in H2.
      destruct H2 as [H2 H3]. apply negb_true_iff in H2, H3. auto.
  - intros [I T N]. split.
    + intros a Ha. apply negb_true_iff. auto.
    + intros a Ha. apply forallb_forall. intros b Hb. apply forallb_forall. intros c Hc.
      apply andb_true_iff; split.
      * destruct (cmp a b) eqn:E1; [|reflexivity]. destruct (cmp b c) eqn:E2; [|reflexivity].
        simpl. rewrite (T a b c); auto.
      * destruct (cmp a b) eqn:E1; [reflexivity|]. destruct (cmp b a) eqn:E2; [reflexivity|].
        destruct (cmp b c) eqn:E3; [reflexivity|]. destruct (cmp c b) eqn:E4; [reflexivity|].
        simpl. destruct (N a b c) as [-> ->]; auto.
Qed.

Lemma strict_weak_on_incl {A} (cmp : A -> A -> bool) l l' :
  incl l' l -> strict_weak_on cmp l -> strict_weak_on cmp l'.
Proof.
  intros Hi [I T N]; split.
  - intros a Ha. apply I, Hi, Ha.
  - intros a b c Ha Hb Hc. apply T; apply Hi; assumption.
  - intros a b c Ha Hb Hc. apply N; apply Hi; assumption.
Qed.

(** A comparator obtained by comparing keys. *)
Lemma strict_weak_key {A B} (cmp : B -> B -> bool) (key : A -> B) l :
  strict_weak_on cmp (map key l) -> strict_weak_on (fun a b => cmp (key a) (key b)) l.
Proof.
  intros [I T N]; split.
  - intros a Ha. apply I, in_map, Ha.
  - intros a b c Ha Hb Hc. apply T; apply in_map; assumption.
  - intros a b c Ha Hb Hc. apply N; apply in_map; assumption.
Qed.

Lemma std_sort_ok srt {A} (cmp : A -> A -> bool) l :
  sort_contract srt -> strict_weak_on cmp l ->
  exists r, std_sort srt cmp l = Ok r /\ Permutation l r /\ sorted_by cmp r.
Proof.
  intros C S. unfold std_sort. rewrite (proj2 (swo_b_spec cmp l) S).
  destruct (C A cmp l S). eauto.
Qed.

Lemma std_sort_inv srt {A} (cmp : A -> A -> bool) l r :
  sort_contract srt -> std_sort srt cmp l = Ok r ->
  strict_weak_on cmp l /\ Permutation l r /\ sorted_by cmp r.
Proof.
  intros C. unfold std_sort. destruct (swo_b cmp l) eqn:E; [|discriminate].
  intros H; inversion H; subst. apply swo_b_spec in E. destruct (C A cmp l E). auto.
Qed.

Lemma std_sort_UB srt {A} (cmp : A -> A -> bool) l :
  ~ strict_weak_on cmp l -> std_sort srt cmp l = UB.
Proof.
  intros H. unfold std_sort. destruct (swo_b cmp l) eqn:E; [|reflexivity].
  apply swo_b_spec in E. contradiction.
Qed.

Lemma sorted_by_nth {A} (cmp : A -> A -> bool) l i j a b :
  sorted_by cmp l -> i < j -> nth_error l i = Some a -> nth_error l j = Some b -> cmp b a = false.
Proof.
  unfold sorted_by. intros S. revert i j. induction S as [|x l S IH F]; intros i j Hij Hi Hj.
  - destruct i; discriminate.
  - destruct j as [|j]; [lia|]. simpl in Hj. destruct i as [|i]; simpl in Hi.
    + inversion Hi; subst. rewrite Forall_forall in F. apply F. eapply nth_error_In; eassumption.
    + apply (IH i j); auto; lia.
Qed.

Lemma sorted_by_app {A} (cmp : A -> A -> bool) l1 l2 a b :
  sorted_by cmp (l1 ++ l2) -> In a l1 -> In b l2 -> cmp b a = false.
Proof.
  unfold sorted_by. induction l1 as [|x l1 IH]; simpl; intros S Ha Hb; [contradiction|].
  inversion S as [|? ? S' F]; subst. destruct Ha as [->|Ha].
  - rewrite Forall_forall in F. apply F. apply in_or_app; auto.
  - auto.
Qed.

Lemma insert_perm {A} (cmp : A -> A -> bool) x l : Permutation (x :: l) (insert cmp x l).
Proof.
  induction l as [|y t IH]; simpl; [reflexivity|].
  destruct (cmp y x); [|reflexivity].
  etransitivity; [apply perm_swap|]. constructor. exact IH.
Qed.

Lemma isort_perm {A} (cmp : A -> A -> bool) l : Permutation l (isort A cmp l).
Proof.
  unfold isort. induction l as [|x l IH]; simpl; [constructor|].
  etransitivity; [constructor; exact IH|]. apply insert_perm.
Qed.

Lemma insert_sorted {A} (cmp : A -> A -> bool) x l L :
  strict_weak_on cmp L -> In x L -> incl l L -> sorted_by cmp l -> sorted_by cmp (insert cmp x l).
Proof.
  intros [I T N] Hx. unfold sorted_by. induction l as [|y t IH]; intros HL Hs; simpl.
  - repeat constructor.
  - inversion Hs as [|? ? Hs' HF]; subst.
    assert (Hy : In y L) by (apply HL; left; reflexivity).
    assert (Ht : incl t L) by (intros z Hz; apply HL; right; exact Hz).
    destruct (cmp y x) eqn:E.
    + constructor; [apply IH; assumption|].
      apply Forall_forall. intros z Hz.
      apply (Permutation_in _ (Permutation_sym (insert_perm cmp x t))) in Hz.
      destruct Hz as [<-|Hz].
      * destruct (cmp x y) eqn:E2; [|reflexivity].
        pose proof (T x y x Hx Hy Hx E2 E) as C. rewrite I in C by assumption. discriminate.
      * rewrite Forall_forall in HF. apply HF; assumption.
    + constructor; [exact Hs|]. constructor; [exact E|].
      rewrite Forall_forall in *. intros z Hz. specialize (HF z Hz).
      assert (HzL : In z L) by (apply Ht; exact Hz).
      destruct (cmp z x) eqn:Ezx; [|reflexivity]. exfalso.
      destruct (cmp x y) eqn:Exy.
      * pose proof (T z x y HzL Hx Hy Ezx Exy). congruence.
      * destruct (cmp y z) eqn:Eyz.
        -- pose proof (T y z x Hy HzL Hx Eyz Ezx). congruence.
        -- destruct (N z y x HzL Hy Hx HF Eyz E Exy). congruence.
Qed.

Lemma isort_contract : sort_contract isort.
Proof.
  intros A cmp l S. split; [apply isort_perm|].
  assert (G : forall k, incl k l -> sorted_by cmp (isort A cmp k)).
  { intros k. induction k as [|x k IH]; intros Hk; [constructor|].
    unfold isort; simpl. apply insert_sorted with (L := l); auto.
    - apply Hk; left; reflexivity.
    - intros z Hz. apply Hk; right.
      eapply Permutation_in; [apply Permutation_sym, isort_perm|exact Hz].
    - apply IH. intros z Hz; apply Hk; right; exact Hz. }
  apply G, incl_refl.
Qed.

Lemma sorted_by_firstn {A} (cmp : A -> A -> bool) l n : sorted_by cmp l -> sorted_by cmp (firstn n l).
Proof.
  unfold sorted_by. revert n; induction l as [|x l IH]; intros [|n] S; simpl; try constructor.
  - inversion S; subst. apply IH; assumption.
  - inversion S as [|? ? ? F]; subst. rewrite Forall_forall in *. intros z Hz. apply F.
    rewrite <- (firstn_skipn n l). apply in_or_app; auto.
Qed.

(** ** min_element / max_element *)

Lemma min_elt_from_spec {A} (cmp : A -> A -> bool) (L : list A) :
  (forall a, In a L -> cmp a a = false) ->
  (forall a b c, In a L -> In b L -> In c L -> cmp a b = true -> cmp b c = true -> cmp a c = true) ->
  forall l pre best bi,
    L = pre ++ l -> nth_error pre bi = Some best ->
    (forall x, In x pre -> cmp x best = false) ->
    exists m, nth_error L (min_elt_from cmp best bi (length pre) l) = Some m /\
              forall x, In x L -> cmp x m = false.
Proof.
  intros I T. induction l as [|x l IH]; intros pre best bi HL Hb Hm; simpl.
  - rewrite app_nil_r in HL; subst. eauto.
  - assert (HxL : In x L) by (subst; apply in_or_app; right; left; reflexivity).
    assert (HbL : In best L) by (subst; apply in_or_app; left; eapply nth_error_In; eassumption).
    assert (HL' : L = (pre ++ [x]) ++ l) by (rewrite <- app_assoc; exact HL).
    assert (Hlen : S (length pre) = length (pre ++ [x])) by (rewrite app_length; simpl; lia).
    rewrite Hlen. destruct (cmp x best) eqn:E.
    + replace (length pre) with (length pre) by reflexivity. apply IH; auto.
      * rewrite nth_error_app2 by lia. rewrite Nat.sub_diag. reflexivity.
      * intros y Hy. apply in_app_or in Hy. destruct Hy as [Hy|[<-|[]]]; [|apply I; exact HxL].
        assert (HyL : In y L) by (rewrite HL; apply in_or_app; left; exact Hy).
        destruct (cmp y x) eqn:E2; [|reflexivity].
        pose proof (T y x best HyL HxL HbL E2 E). rewrite Hm in H by exact Hy. discriminate.
    + apply IH; auto.
      * rewrite nth_error_app1; [exact Hb|]. apply nth_error_Some; congruence.
      * intros y Hy. apply in_app_or in Hy. destruct Hy as [Hy|[<-|[]]]; auto.
Qed.

Lemma min_element_spec {A} (cmp : A -> A -> bool) l :
  (forall a, In a l -> cmp a a = false) ->
  (forall a b c, In a l -> In b l -> In c l -> cmp a b = true -> cmp b c = true -> cmp a c = true) ->
  l <> [] -> exists i m, min_element cmp l = Some i /\ nth_error l i = Some m /\
                         forall x, In x l -> cmp x m = false.
Proof.
  intros I T Hl. destruct l as [|x t]; [congruence|]. simpl.
  destruct (min_elt_from_spec cmp (x :: t) I T t [x] x 0) as (m & Hm & Hmin); auto.
  - intros y [<-|[]]. apply I; left; reflexivity.
  - exists (min_elt_from cmp x 0 1 t), m. auto.
Qed.

Lemma max_elt_from_spec {A} (cmp : A -> A -> bool) (L : list A) :
  (forall a, In a L -> cmp a a = false) ->
  (forall a b c, In a L -> In b L -> In c L -> cmp a b = true -> cmp b c = true -> cmp a c = true) ->
  forall l pre best bi,
    L = pre ++ l -> nth_error pre bi = Some best ->
    (forall x, In x pre -> cmp best x = false) ->
    exists m, nth_error L (max_elt_from cmp best bi (length pre) l) = Some m /\
              forall x, In x L -> cmp m x = false.
Proof.
  intros I T. induction l as [|x l IH]; intros pre best bi HL Hb Hm; simpl.
  - rewrite app_nil_r in HL; subst. eauto.
  - assert (HxL : In x L) by (subst; apply in_or_app; right; left; reflexivity).
    assert (HbL : In best L) by (subst; apply in_or_app; left; eapply nth_error_In; eassumption).
    assert (HL' : L = (pre ++ [x]) ++ l) by (rewrite <- app_assoc; exact HL).
    assert (Hlen : S (length pre) = length (pre ++ [x])) by (rewrite app_length; simpl; lia).
    rewrite Hlen. destruct (cmp best x) eqn:E.
    + apply IH; auto.
      * rewrite nth_error_app2 by lia. rewrite Nat.sub_diag. reflexivity.
      * intros y Hy. apply in_app_or in Hy. destruct Hy as [Hy|[<-|[]]]; [|apply I; exact HxL].
        assert (HyL : In y L) by (rewrite HL; apply in_or_app; left; exact Hy).
        destruct (cmp x y) eqn:E2; [|reflexivity].
        pose proof (T best x y HbL HxL HyL E E2). rewrite Hm in H by exact Hy. discriminate.
    + apply IH; auto.
      * rewrite nth_error_app1; [exact Hb|]. apply nth_error_Some; congruence.
      * intros y Hy. apply in_app_or in Hy. destruct Hy as [Hy|[<-|[]]]; auto.
Qed.

Lemma max_element_spec {A} (cmp : A -> A -> bool) l :
  (forall a, In a l -> cmp a a = false) ->
  (forall a b c, In a l -> In b l -> In c l -> cmp a b = true -> cmp b c = true -> cmp a c = true) ->
  l <> [] -> exists i m, max_element cmp l = Some i /\ nth_error l i = Some m /\
                         forall x, In x l -> cmp m x = false.
Proof.
  intros I T Hl. destruct l as [|x t]; [congruence|]. simpl.
  destruct (max_elt_from_spec cmp (x :: t) I T t [x] x 0) as (m & Hm & Hmax); auto.
  - intros y [<-|[]]. apply I; left; reflexivity.
  - exists (max_elt_from cmp x 0 1 t), m. auto.
Qed.

Lemma NoDup_app_l {A} (l1 l2 : list A) : NoDup (l1 ++ l2) -> NoDup l1.
Proof.
  induction l1 as [|x l1 IH]; intros H; [constructor|]. simpl in H. inversion H; subst. constructor; auto.
  intros C. apply H2, in_or_app; auto.
Qed.
Lemma NoDup_app_r {A} (l1 l2 : list A) : NoDup (l1 ++ l2) -> NoDup l2.
Proof. induction l1 as [|x l1 IH]; intros H; [exact H|]. simpl in H. inversion H; auto. Qed.
Lemma NoDup_app_disj {A} (l1 l2 : list A) x : NoDup (l1 ++ l2) -> In x l1 -> In x l2 -> False.
Proof.
  induction l1 as [|y l1 IH]; intros H H1 H2; [contradiction|]. simpl in H. inversion H; subst.
  destruct H1 as [->|H1]; [apply H4, in_or_app; auto|auto].
Qed.
Lemma NoDup_app_intro {A} (l1 l2 : list A) : NoDup l1 -> NoDup l2 -> (forall x, In x l1 -> In x l2 -> False) -> NoDup (l1 ++ l2).
Proof.
  intros H1 H2 H. induction l1 as [|x l1 IH]; simpl; [exact H2|]. inversion H1; subst. constructor.
  - rewrite in_app_iff. intros [C|C]; [contradiction|]. apply (H x); [left; reflexivity|exact C].
  - apply IH; auto. intros y Hy. apply H. right; exact Hy.
Qed.
