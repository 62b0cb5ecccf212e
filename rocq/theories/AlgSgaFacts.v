From Coq Require Import List Bool Arith ZArith Lia Permutation Sorting.Sorted.
From Verif Require Import Dbl DblFacts IntDbl Outcome BaseFacts StdSort Compare SpecOrder CompareFacts Problem SpecProblem ProblemFacts Rng Generic SpecGeneric GenericFacts GenericFacts3 SpecGenetic RmFacts
  GeneticOps GeneticFacts GeneticFacts3 Population SpecPopulation PopulationFacts PopulationFacts3 Algo SpecAlgo AlgoFacts AlgoFacts2 AlgDeFacts AlgSea AlgSga SpecSga.
Import ListNotations.

(** Lists of the numbers below n in some order *)
Definition perm_of (n : nat) (l : list nat) : Prop := length l = n /\ NoDup l /\ forall k, In k l -> k < n.
Lemma perm_of_seq n : perm_of n (seq 0 n).
Proof. split; [apply seq_length|]. split; [apply seq_NoDup|]. intros k Hk. apply in_seq in Hk. lia. Qed.
Lemma swap_at_ok {A} (l : list A) i j : i < length l -> j < length l -> exists x y, nth_error l i = Some x /\ nth_error l j = Some y /\ swap_at l i j = Ok (upd (upd l i y) j x).
Proof.
  intros Hi Hj. destruct (vget_in_range l i Hi) as (x & E1 & N1). destruct (vget_in_range l j Hj) as (y & E2 & N2). exists x, y. split; [exact N1|]. split; [exact N2|].
  unfold swap_at. rewrite E1, E2. cbn [bind]. rewrite vset_in_range by exact Hi. cbn [bind]. apply vset_in_range. rewrite upd_len. exact Hj.
Qed.
Lemma swap_perm n l i j x y : perm_of n l -> nth_error l i = Some x -> nth_error l j = Some y -> perm_of n (upd (upd l i y) j x).
Proof.
  intros (L & N & R) Hi Hj. split; [now rewrite !upd_len|]. split; [now apply swap_nodup|]. intros k Hk. apply In_nth_error in Hk. destruct Hk as (m & Hm). rewrite (swap_nth l i j x y Hi Hj) in Hm. apply R. eapply nth_error_In; eauto.
Qed.
Lemma perm_of_in n l k : perm_of n l -> k < n -> In k l.
Proof.
  intros (L & N & R) Hk. assert (I : incl (seq 0 n) l); [|apply I, in_seq; lia]. apply NoDup_length_incl; [exact N|rewrite seq_length; lia|]. intros m Hm. apply in_seq. specialize (R m Hm). lia.
Qed.

Lemma incl_firstn {A} k (l : list A) x : In x (firstn k l) -> In x l.
Proof. revert l. induction k as [|k IH]; intros [|y l] H; try contradiction. destruct H as [->|H]; [now left|right; now apply IH]. Qed.
Lemma nth_error_firstn {A} (l : list A) k i : i < k -> nth_error (firstn k l) i = nth_error l i.
Proof. revert l i. induction k as [|k IH]; intros l i H; [lia|]. destruct l as [|y l]; [now rewrite firstn_nil|]. destruct i as [|i]; [reflexivity|]. cbn. apply IH. lia. Qed.

Lemma nodup_firstn {A} k (l : list A) : NoDup l -> NoDup (firstn k l).
Proof. intros H. revert k. induction H as [|x l Hx N IH]; intros [|k]; cbn; try constructor; auto. intros I. apply Hx. eapply incl_firstn; eauto. Qed.

Section S.
Context {G P : Type} (r : rng G) (RC : rng_contract r) (srt : sorter) (HS : sort_contract srt) (a : sga_params).

(** ** Selection *)
Lemma draw_group_ok n idxs (E : exn -> Prop) : perm_of n idxs -> sg_ps a <= n -> always (draw_group r a n idxs) (perm_of n) E.
Proof.
  intros PI HP. unfold draw_group. apply always_fold; [|exact PI]. intros l i Hi PL. apply in_seq in Hi. eapply always_bind; [apply (draw_int_ok r RC); lia|]. intros k Hk. cbv beta in Hk.
  pose proof PL as (LL & _). destruct (swap_at_ok l (Z.to_nat k) i ltac:(lia) ltac:(lia)) as (x & y & N1 & N2 & ->). apply always_lift. now apply swap_perm.
Qed.
Lemma firstn_in {A} (l : list A) k x : In x (firstn (S k) l) -> In x (firstn k l) \/ nth_error l k = Some x.
Proof. revert k. induction l as [|y l IH]; intros k H; [destruct H|]. destruct k as [|k]; cbn in H |- *; [destruct H as [->|[]]; auto|]. destruct H as [->|H]; [auto|]. destruct (IH k H); auto. Qed.
Lemma firstn_more {A} (l : list A) k x : In x (firstn k l) -> In x (firstn (S k) l).
Proof. revert k. induction l as [|y l IH]; intros [|k] H; try contradiction. destruct H as [->|H]; [now left|right; now apply IH]. Qed.
Lemma firstn_nth {A} (l : list A) k x : nth_error l k = Some x -> In x (firstn (S k) l).
Proof. revert k. induction l as [|y l IH]; intros [|k] H; try discriminate; cbn in H |- *; [left; congruence|right; now apply IH]. Qed.
Lemma dlt_chain x y z : dlt x y = false -> dlt z y = true -> dlt x z = false.
Proof.
  intros H1 H2. destruct (dlt x z) eqn:C; [|reflexivity]. rewrite <- H1. destruct x as [| |x|], y as [| |y|], z as [| |z|]; try discriminate; try reflexivity. cbn in *. apply Z.ltb_lt in H2, C. symmetry. apply Z.ltb_lt. lia.
Qed.
Lemma vec_lt_value F k w fk fw : (forall f, In f F -> length f = 1) -> nth_error F k = Some fk -> nth_error F w = Some fw -> vec_lt fk fw = dlt (value F k) (value F w).
Proof.
  intros H1 E1 E2. unfold value. rewrite (nth_error_nth _ _ _ E1), (nth_error_nth _ _ _ E2). apply nth_error_In in E1, E2. apply H1 in E1, E2. destruct fk as [|x [|]]; try discriminate. destruct fw as [|y [|]]; try discriminate. apply vec_lt1.
Qed.
Lemma winner_loop F idxs : (forall f, In f F -> length f = 1) -> perm_of (length F) idxs -> forall m k w, k + m <= length F ->
  In w (firstn k idxs) -> (forall t, In t (firstn k idxs) -> dlt (value F t) (value F w) = false) ->
  exists w', mfold (fun w i => bind (vget idxs i) (fun k => bind (vget F k) (fun fk => bind (vget F w) (fun fw => Ok (if vec_lt fk fw then k else w))))) w (seq k m) = Ok w' /\
    In w' (firstn (k + m) idxs) /\ forall t, In t (firstn (k + m) idxs) -> dlt (value F t) (value F w') = false.
Proof.
  intros H1 (L & N & R). induction m as [|m IH]; intros k w Hk Iw Hw.
  - rewrite Nat.add_0_r. exists w. split; [reflexivity|]. auto.
  - cbn [seq mfold]. destruct (vget_in_range idxs k ltac:(lia)) as (i & Ei & Ni). rewrite Ei. cbn [bind]. assert (Ri : i < length F) by (apply R; eapply nth_error_In; eauto).
    assert (Rw : w < length F). { apply R. eapply incl_firstn; eauto. }
    destruct (vget_in_range F i Ri) as (fi & Ef & Nf). destruct (vget_in_range F w Rw) as (fw & Ew & Nw). rewrite Ef, Ew. cbn [bind]. rewrite (vec_lt_value F i w fi fw H1 Nf Nw).
    replace (k + S m) with (S k + m) by lia. apply IH; [lia| |].
    + destruct (dlt (value F i) (value F w)); [now apply firstn_nth|now apply firstn_more].
    + intros t Ht. apply firstn_in in Ht. destruct (dlt (value F i) (value F w)) eqn:D.
      * destruct Ht as [Ht|Ht]; [eapply dlt_chain; [apply Hw, Ht|exact D]|]. assert (t = i) by congruence. subst t. destruct (value F i) as [| |z|]; try reflexivity. cbn. apply Z.ltb_irrefl.
      * destruct Ht as [Ht|Ht]; [now apply Hw|]. assert (t = i) by congruence. now subst t.
Qed.
Lemma winner_ok F idxs : (forall f, In f F -> length f = 1) -> perm_of (length F) idxs -> 1 <= sg_ps a <= length F ->
  exists w, group_winner a F idxs = Ok w /\ w < length F /\ wins F (sg_ps a) w.
Proof.
  intros H1 PI HP. pose proof PI as (L & N & R). unfold group_winner. destruct (vget_in_range idxs 0 ltac:(lia)) as (w0 & E0 & N0). rewrite E0. cbn [bind].
  destruct (winner_loop F idxs H1 PI (sg_ps a - 1) 1 w0 ltac:(lia)) as (w & E & I & H).
  - now apply firstn_nth.
  - intros t Ht. apply firstn_in in Ht. destruct Ht as [[]|Ht]. assert (t = w0) by congruence. subst t. destruct (value F w0) as [| |z|]; try reflexivity. cbn. apply Z.ltb_irrefl.
  - replace (1 + (sg_ps a - 1)) with (sg_ps a) in * by lia. exists w. split; [exact E|]. assert (FI : forall t, In t (firstn (sg_ps a) idxs) -> t < length F) by (intros t Ht; apply R; eapply incl_firstn; eauto).
    split; [auto|]. exists (firstn (sg_ps a) idxs). split; [now apply nodup_firstn|split; [rewrite firstn_length; lia|auto]].
Qed.
Lemma sorted_ok F : exists best, sga_sorted srt F = Ok best /\ Permutation (seq 0 (length F)) best /\ sorted_by (fun i j => less_than_f (value F i) (value F j)) best.
Proof. exact (std_sort_ok srt _ (seq 0 (length F)) HS (ltf_key_swo (value F) _)). Qed.
Lemma perm_perm_of n l : Permutation (seq 0 n) l -> perm_of n l.
Proof.
  intros H. split; [rewrite <- (Permutation_length H); apply seq_length|]. split; [eapply Permutation_NoDup; [exact H|apply seq_NoDup]|]. intros k Hk. apply (Permutation_in _ (Permutation_sym H)), in_seq in Hk. lia.
Qed.
Lemma select_ok F (E : exn -> Prop) : (forall f, In f F -> length f = 1) -> 1 <= sg_ps a <= length F -> always (sga_select r srt a F) (selected a F) E.
Proof.
  intros H1 HP. unfold sga_select, selected. destruct (sg_sel a).
  - eapply always_bind.
    + apply (always_seq _ (fun j (st : list nat * list nat) => perm_of (length F) (fst st) /\ length (snd st) = j /\ forall k, In k (snd st) -> k < length F /\ wins F (sg_ps a) k) E (length F) 0).
      * cbn [fst snd]. split; [apply perm_of_seq|]. split; [reflexivity|]. intros k [].
      * intros j [idxs sel] Hj (PI & LS & HSel). cbn [fst snd] in *. eapply always_bind; [apply (draw_group_ok (length F) idxs E PI); lia|]. intros l PL. cbv beta in PL.
        destruct (winner_ok F l H1 PL HP) as (w & Ew & Rw & Ww). rewrite Ew. eapply always_bind; [apply (always_lift _ (fun v => v = w)); reflexivity|]. intros ? ->. apply always_ret. cbn [fst snd]. split; [exact PL|]. split; [rewrite app_length; cbn; lia|].
        intros k Hk. apply in_app_iff in Hk. destruct Hk as [Hk|[<-|[]]]; auto.
    + intros st (_ & L & H). apply always_ret. split; [exact L|]. split; intros k Hk; apply H; exact Hk.
  - destruct (sorted_ok F) as (best & Eb & Pb & Sb). rewrite Eb. eapply always_bind; [apply (always_lift _ (fun v => v = best)); reflexivity|]. intros ? ->.
    pose proof (perm_perm_of _ _ Pb) as (L & N & R).
    assert (MM : forall l, exists sel, mmap (fun i => vget best (i mod sg_ps a)) l = Ok sel /\ length sel = length l /\ (forall k, In k sel <-> exists i, In i l /\ nth_error best (i mod sg_ps a) = Some k)).
    { induction l as [|i l IH]; [exists []; split; [reflexivity|]; split; [reflexivity|]; intros k; split; [intros []|intros (i & [] & _)]|]. destruct IH as (sel & E1 & E2 & E3). cbn [mmap].
      destruct (vget_in_range best (i mod sg_ps a)) as (k & Ek & Nk); [pose proof (Nat.mod_upper_bound i (sg_ps a)); lia|]. rewrite Ek. cbn [bind]. rewrite E1. cbn [bind]. exists (k :: sel). split; [reflexivity|]. split; [cbn; lia|].
      intros m. cbn [In]. rewrite E3. split; [intros [<-|(j & Hj & Nj)]; eauto|]. intros (j & [<-|Hj] & Nj); [left; congruence|eauto]. }
    destruct (MM (seq 0 (length F))) as (sel & E1 & E2 & E3). rewrite E1. apply always_lift. rewrite seq_length in E2. split; [exact E2|].
    assert (IT : forall k, In k sel <-> In k (firstn (sg_ps a) best)).
    { intros k. rewrite E3. split.
      - intros (i & _ & Hi). assert (M : i mod sg_ps a < sg_ps a) by (apply Nat.mod_upper_bound; lia). apply (nth_error_In _ (i mod sg_ps a)). rewrite nth_error_firstn by exact M. exact Hi.
      - intros Hk. apply In_nth_error in Hk. destruct Hk as (i & Hi). assert (Hl : i < sg_ps a) by (assert (i < length (firstn (sg_ps a) best)) by (apply nth_error_Some; congruence); rewrite firstn_length in *; lia).
        rewrite nth_error_firstn in Hi by exact Hl. exists i. split; [apply in_seq; lia|]. rewrite Nat.mod_small by exact Hl. exact Hi. }
    split; [intros k Hk; apply IT in Hk; apply R; eapply incl_firstn; eauto|]. exists (firstn (sg_ps a) best). split; [|exact IT].
    split; [now apply nodup_firstn|]. split; [rewrite firstn_length; lia|]. split; [intros t Ht; apply R; eapply incl_firstn; eauto|].
    intros t u Ht Hu Nu. assert (Iu : In u (skipn (sg_ps a) best)). { assert (I : In u best) by (apply (perm_of_in (length F)); [split; auto|exact Hu]). rewrite <- (firstn_skipn (sg_ps a) best) in I. apply in_app_iff in I. tauto. }
    unfold not_worse. rewrite <- less_than_f_spec. rewrite <- (firstn_skipn (sg_ps a) best) in Sb. pose proof (sorted_by_app _ _ _ _ _ Sb Ht Iu) as K. cbv beta in K. congruence.
Qed.
End S.
