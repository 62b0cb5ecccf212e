(** Correctness of fast_non_dominated_sorting. *)
From Coq Require Import List Bool Arith ZArith Lia Permutation.
From Verif Require Import Dbl Outcome StdSort BaseFacts Compare MultiObj SpecOrder CompareFacts DominanceFacts.
Import ListNotations.

Definition cnt (P : nat -> bool) (l : list nat) : Z := Z.of_nat (length (filter P l)).

Lemma cnt_app P l1 l2 : cnt P (l1 ++ l2) = (cnt P l1 + cnt P l2)%Z.
Proof. unfold cnt. rewrite filter_app, app_length. lia. Qed.
Lemma cnt_one P a : cnt P [a] = if P a then 1%Z else 0%Z.
Proof. unfold cnt; simpl. destruct (P a); reflexivity. Qed.
Lemma cnt_nonneg P l : (0 <= cnt P l)%Z.
Proof. unfold cnt; lia. Qed.
Lemma cnt_ext P Q l : (forall x, In x l -> P x = Q x) -> cnt P l = cnt Q l.
Proof. intros H. unfold cnt. rewrite (filter_ext_in P Q l H). reflexivity. Qed.
Lemma cnt_zero P l : cnt P l = 0%Z <-> forall x, In x l -> P x = false.
Proof.
  unfold cnt. split.
  - intros H x Hx. destruct (P x) eqn:E; [|reflexivity].
    assert (In x (filter P l)) by (apply filter_In; auto).
    destruct (filter P l); [contradiction|simpl in H; lia].
  - intros H. destruct (filter P l) as [|y t] eqn:E; [reflexivity|].
    assert (In y (filter P l)) by (rewrite E; left; reflexivity).
    apply filter_In in H0. destruct H0 as [H1 H2]. rewrite H in H2 by exact H1. discriminate.
Qed.

Section Fnds.
Variable pts : list vec.
Variable M : nat.
Hypothesis U : uniform pts M.
Let N := length pts.
Let D (i j : nat) : bool := domb (pnt pts i) (pnt pts j).

Lemma D_spec i j : i < N -> j < N -> (D i j = true <-> dom_idx pts i j).
Proof.
  intros Hi Hj. unfold D. rewrite domb_spec.
  - symmetry; apply dom_idx_iff; assumption.
  - rewrite !(uniform_pnt pts M) by assumption. reflexivity.
Qed.
Lemma D_asym i j : i < N -> j < N -> D i j = true -> D j i = false.
Proof.
  intros Hi Hj H. destruct (D j i) eqn:E; [|reflexivity].
  apply D_spec in H; auto. apply D_spec in E; auto.
  exfalso. exact (dom_idx_irrefl _ _ (dom_idx_trans _ _ _ _ H E)).
Qed.
Lemma D_irrefl i : i < N -> D i i = false.
Proof. intros H. destruct (D i i) eqn:E; [|reflexivity]. pose proof (D_asym i i H H E). congruence. Qed.

(** *** Phase 1: dominance lists and counts *)

Definition g_inner (i : nat) (s : dom_state) (j : nat) : dom_state :=
  if D i j then
    {| dl := upd_at (fun l => l ++ [j]) (dl s) i; dc := upd_at (fun c => (c + 1)%Z) (dc s) j |}
  else if D j i then
    {| dl := upd_at (fun l => l ++ [i]) (dl s) j; dc := upd_at (fun c => (c + 1)%Z) (dc s) i |}
  else s.

Lemma fnds_inner_pure i s j : i < N -> j < N -> fnds_inner pts i s j = Ok (g_inner i s j).
Proof.
  intros Hi Hj. unfold fnds_inner, g_inner.
  rewrite !pareto_dominance_ok by (rewrite !(uniform_pnt pts M) by assumption; reflexivity).
  simpl. fold (D i j). fold (D j i). destruct (D i j); [reflexivity|]. simpl. destruct (D j i); reflexivity.
Qed.

Definition g_outer (s : dom_state) (i : nat) : dom_state :=
  fold_left (g_inner i) (seq 0 i) {| dl := upd (dl s) i []; dc := upd (dc s) i 0%Z |}.

Lemma fnds_outer_pure s i : i < N -> fnds_outer pts s i = Ok (g_outer s i).
Proof.
  intros Hi. unfold fnds_outer, g_outer. apply mfold_pure. intros s' j Hj. apply in_seq in Hj.
  apply fnds_inner_pure; lia.
Qed.

Definition rep (s : dom_state) (fl : nat -> list nat) (fc : nat -> Z) : Prop :=
  length (dl s) = N /\ length (dc s) = N /\
  (forall a, a < N -> nth a (dl s) [] = fl a) /\ (forall a, a < N -> nth a (dc s) (-1)%Z = fc a).

Lemma rep_ext s fl fc fl' fc' : rep s fl fc ->
  (forall a, a < N -> fl a = fl' a) -> (forall a, a < N -> fc a = fc' a) -> rep s fl' fc'.
Proof.
  intros (H1 & H2 & H3 & H4) E1 E2. repeat split; auto.
  - intros a Ha. rewrite <- E1 by assumption. auto.
  - intros a Ha. rewrite <- E2 by assumption. auto.
Qed.

Definition fl_in (i c a : nat) : list nat :=
  if a <? c then filter (D a) (seq 0 i) ++ (if D a i then [i] else [])
  else if a <? i then filter (D a) (seq 0 i)
  else if a =? i then filter (D i) (seq 0 c) else [].
Definition fc_in (i c a : nat) : Z :=
  if a <? c then (cnt (fun b => D b a) (seq 0 i) + (if D i a then 1 else 0))%Z
  else if a <? i then cnt (fun b => D b a) (seq 0 i)
  else if a =? i then cnt (fun b => D b i) (seq 0 c) else 0%Z.

Lemma inner_rep i c s0 : i < N -> c <= i -> rep s0 (fl_in i 0) (fc_in i 0) ->
  rep (fold_left (g_inner i) (seq 0 c) s0) (fl_in i c) (fc_in i c).
Proof.
  intros Hi. induction c as [|c IH]; intros Hc H0; [exact H0|].
  rewrite seq_S, fold_left_app. cbn [fold_left]; rewrite ?Nat.add_0_l.
  specialize (IH ltac:(lia) H0). destruct IH as (L1 & L2 & R1 & R2).
  set (s := fold_left (g_inner i) (seq 0 c) s0) in *.
  assert (HcN : c < N) by lia.
  unfold g_inner. destruct (D i c) eqn:E1.
  - pose proof (D_asym i c Hi HcN E1) as E2.
    split; [simpl; rewrite upd_at_length; exact L1|]. split; [simpl; rewrite upd_at_length; exact L2|].
    split; intros a Ha; simpl; rewrite nth_upd_at.
    + destruct (Nat.eqb_spec i a) as [<-|Hne].
      * rewrite L1. destruct (Nat.ltb_spec i N); [|lia]. rewrite R1 by lia.
        unfold fl_in. destruct (Nat.ltb_spec i c); [lia|]. destruct (Nat.ltb_spec i (S c)); [lia|].
        destruct (Nat.ltb_spec i i); [lia|]. rewrite Nat.eqb_refl.
        rewrite seq_S, filter_app. simpl. rewrite E1. reflexivity.
      * rewrite R1 by lia. unfold fl_in.
        destruct (Nat.ltb_spec a c), (Nat.ltb_spec a (S c)); try lia; try reflexivity.
        { assert (a = c) by lia; subst a. destruct (Nat.ltb_spec c i); [|lia].
          rewrite E2, app_nil_r. reflexivity. }
        { destruct (a <? i); [reflexivity|]. destruct (Nat.eqb_spec a i); [lia|reflexivity]. }
    + destruct (Nat.eqb_spec c a) as [<-|Hne].
      * rewrite L2. destruct (Nat.ltb_spec c N); [|lia]. rewrite R2 by lia.
        unfold fc_in. destruct (Nat.ltb_spec c c); [lia|]. destruct (Nat.ltb_spec c i); [|lia].
        destruct (Nat.ltb_spec c (S c)); [|lia]. rewrite E1. reflexivity.
      * rewrite R2 by lia. unfold fc_in.
        destruct (Nat.ltb_spec a c), (Nat.ltb_spec a (S c)); try lia; try reflexivity.
        destruct (a <? i); [reflexivity|]. destruct (Nat.eqb_spec a i); [|reflexivity].
        rewrite seq_S, cnt_app. simpl. rewrite cnt_one, E2. lia.
  - destruct (D c i) eqn:E2.
    + split; [simpl; rewrite upd_at_length; exact L1|]. split; [simpl; rewrite upd_at_length; exact L2|].
      split; intros a Ha; simpl; rewrite nth_upd_at.
      * destruct (Nat.eqb_spec c a) as [<-|Hne].
        -- rewrite L1. destruct (Nat.ltb_spec c N); [|lia]. rewrite R1 by lia.
           unfold fl_in. destruct (Nat.ltb_spec c c); [lia|]. destruct (Nat.ltb_spec c i); [|lia].
           destruct (Nat.ltb_spec c (S c)); [|lia]. rewrite E2. reflexivity.
        -- rewrite R1 by lia. unfold fl_in.
           destruct (Nat.ltb_spec a c), (Nat.ltb_spec a (S c)); try lia; try reflexivity.
           destruct (a <? i); [reflexivity|]. destruct (Nat.eqb_spec a i); [|reflexivity].
           rewrite seq_S, filter_app. simpl. rewrite E1, app_nil_r. reflexivity.
      * destruct (Nat.eqb_spec i a) as [<-|Hne].
        -- rewrite L2. destruct (Nat.ltb_spec i N); [|lia]. rewrite R2 by lia.
           unfold fc_in. destruct (Nat.ltb_spec i c); [lia|]. destruct (Nat.ltb_spec i (S c)); [lia|].
           destruct (Nat.ltb_spec i i); [lia|]. rewrite Nat.eqb_refl.
           rewrite seq_S, cnt_app. simpl. rewrite cnt_one, E2. reflexivity.
        -- rewrite R2 by lia. unfold fc_in.
           destruct (Nat.ltb_spec a c), (Nat.ltb_spec a (S c)); try lia; try reflexivity.
           { assert (a = c) by lia; subst a. destruct (Nat.ltb_spec c i); [|lia]. rewrite E1. lia. }
           { destruct (a <? i); [reflexivity|]. destruct (Nat.eqb_spec a i); [lia|reflexivity]. }
    + split; [exact L1|]. split; [exact L2|]. split; intros a Ha.
      * rewrite R1 by lia. unfold fl_in.
        destruct (Nat.ltb_spec a c), (Nat.ltb_spec a (S c)); try lia; try reflexivity.
        { assert (a = c) by lia; subst a. destruct (Nat.ltb_spec c i); [|lia].
          rewrite E2, app_nil_r. reflexivity. }
        { destruct (a <? i); [reflexivity|]. destruct (Nat.eqb_spec a i); [|reflexivity].
          rewrite seq_S, filter_app. simpl. rewrite E1, app_nil_r. reflexivity. }
      * rewrite R2 by lia. unfold fc_in.
        destruct (Nat.ltb_spec a c), (Nat.ltb_spec a (S c)); try lia; try reflexivity.
        { assert (a = c) by lia; subst a. destruct (Nat.ltb_spec c i); [|lia]. rewrite E1. lia. }
        { destruct (a <? i); [reflexivity|]. destruct (Nat.eqb_spec a i); [|reflexivity].
          rewrite seq_S, cnt_app. simpl. rewrite cnt_one, E2. lia. }
Qed.

Definition fl_out (r a : nat) : list nat := if a <? r then filter (D a) (seq 0 r) else [].
Definition fc_out (r a : nat) : Z := if a <? r then cnt (fun b => D b a) (seq 0 r) else 0%Z.

Lemma outer_rep r s0 : r <= N -> rep s0 (fl_out 0) (fc_out 0) ->
  rep (fold_left g_outer (seq 0 r) s0) (fl_out r) (fc_out r).
Proof.
  induction r as [|r IH]; intros Hr H0; [exact H0|].
  rewrite seq_S, fold_left_app. cbn [fold_left]; rewrite ?Nat.add_0_l.
  specialize (IH ltac:(lia) H0). destruct IH as (L1 & L2 & R1 & R2).
  set (s := fold_left g_outer (seq 0 r) s0) in *. unfold g_outer.
  eapply rep_ext.
  - apply inner_rep; [lia|lia|].
    split; [simpl; rewrite upd_length; exact L1|]. split; [simpl; rewrite upd_length; exact L2|].
    split; intros a Ha; simpl.
    + destruct (Nat.eq_dec r a) as [<-|Hne].
      * rewrite nth_upd_eq by lia. unfold fl_in. simpl. destruct (Nat.ltb_spec r r); [lia|].
        rewrite Nat.eqb_refl. reflexivity.
      * rewrite nth_upd_neq by assumption. rewrite R1 by lia. unfold fl_in, fl_out. simpl.
        destruct (a <? r); [reflexivity|]. destruct (a =? r); reflexivity.
    + destruct (Nat.eq_dec r a) as [<-|Hne].
      * rewrite nth_upd_eq by lia. unfold fc_in. simpl. destruct (Nat.ltb_spec r r); [lia|].
        rewrite Nat.eqb_refl. reflexivity.
      * rewrite nth_upd_neq by assumption. rewrite R2 by lia. unfold fc_in, fc_out. simpl.
        destruct (a <? r); [reflexivity|]. destruct (Nat.eqb_spec a r); [lia|reflexivity].
  - intros a Ha. unfold fl_in, fl_out.
    destruct (Nat.ltb_spec a r), (Nat.ltb_spec a (S r)); try lia.
    + rewrite seq_S, filter_app. simpl. reflexivity.
    + assert (a = r) by lia; subst. rewrite Nat.eqb_refl.
      rewrite seq_S, filter_app. simpl. rewrite D_irrefl by lia. rewrite app_nil_r. reflexivity.
    + destruct (Nat.eqb_spec a r); [lia|reflexivity].
  - intros a Ha. unfold fc_in, fc_out.
    destruct (Nat.ltb_spec a r), (Nat.ltb_spec a (S r)); try lia.
    + rewrite seq_S, cnt_app. simpl. rewrite cnt_one. reflexivity.
    + assert (a = r) by lia; subst. rewrite Nat.eqb_refl.
      rewrite seq_S, cnt_app. simpl. rewrite cnt_one, D_irrefl by lia. lia.
    + destruct (Nat.eqb_spec a r); [lia|reflexivity].
Qed.

Lemma phase1 : exists s,
  mfold (fnds_outer pts) {| dl := repeat [] N; dc := repeat 0%Z N |} (seq 0 N) = Ok s /\
  rep s (fun a => filter (D a) (seq 0 N)) (fun a => cnt (fun b => D b a) (seq 0 N)).
Proof.
  eexists. split.
  - apply mfold_pure. intros s i Hi. apply in_seq in Hi. apply fnds_outer_pure. lia.
  - eapply rep_ext; [apply outer_rep; [lia|]| |].
    + split; [apply repeat_length|]. split; [apply repeat_length|].
      split; intros a Ha; simpl; unfold fl_out, fc_out; simpl.
      * apply nth_repeat.
      * rewrite nth_indep with (d' := 0%Z) by (rewrite repeat_length; exact Ha). apply nth_repeat.
    + intros a Ha. unfold fl_out. destruct (Nat.ltb_spec a N); [reflexivity|lia].
    + intros a Ha. unfold fc_out. destruct (Nat.ltb_spec a N); [reflexivity|lia].
Qed.

(** *** Phase 2: peeling *)

Lemma fold_flat {S} (f : S -> nat -> S) (h : nat -> list nat) l s :
  fold_left (fun s p => fold_left f (h p) s) l s = fold_left f (flat_map h l) s.
Proof. revert s; induction l as [|a l IH]; intros s; simpl; [reflexivity|]. rewrite IH, fold_left_app. reflexivity. Qed.

Lemma peel_fold fc L : forall c rk nx,
  length c = N -> length rk = N -> (forall q, In q L -> q < N) ->
  (forall q, q < N -> (Z.of_nat (count_occ Nat.eq_dec L q) <= nth q c (-1)%Z)%Z) ->
  exists nl, let s := fold_left (peel_one fc) L {| pc := c; prk := rk; pnext := nx |} in
    length (pc s) = N /\ length (prk s) = N /\ pnext s = nx ++ nl /\ NoDup nl /\
    (forall q, In q nl <-> In q L /\ nth q c (-1)%Z = Z.of_nat (count_occ Nat.eq_dec L q)) /\
    (forall q, q < N -> nth q (pc s) (-1)%Z = (nth q c (-1) - Z.of_nat (count_occ Nat.eq_dec L q))%Z) /\
    (forall q, q < N -> nth q (prk s) 0 = if in_dec Nat.eq_dec q nl then fc + 1 else nth q rk 0).
Proof.
  induction L as [|q0 L IH]; intros c rk nx Lc Lr HL Hc.
  - exists []. simpl. rewrite app_nil_r. repeat split; auto; try constructor; try tauto.
    intros q Hq. lia.
  - assert (Hq0 : q0 < N) by (apply HL; left; reflexivity).
    assert (Hstep : forall q, nth q (upd_at (fun c => (c - 1)%Z) c q0) (-1)%Z
               = if q0 =? q then (nth q c (-1) - 1)%Z else nth q c (-1)%Z).
    { intros q. rewrite nth_upd_at. destruct (Nat.eqb_spec q0 q); [|reflexivity]. subst.
      rewrite Lc. destruct (Nat.ltb_spec q N); [reflexivity|lia]. }
    assert (Hc' : forall q, q < N -> (Z.of_nat (count_occ Nat.eq_dec L q) <= nth q (upd_at (fun c => (c - 1)%Z) c q0) (-1)%Z)%Z).
    { intros q Hq. rewrite Hstep. specialize (Hc q Hq). simpl in Hc.
      destruct (Nat.eq_dec q0 q), (Nat.eqb_spec q0 q); try contradiction; lia. }
    simpl fold_left. unfold peel_one at 2. cbn [pc prk pnext].
    rewrite Hstep, Nat.eqb_refl.
    destruct (Z.eqb_spec (nth q0 c (-1)%Z - 1) 0) as [E|E].
    + destruct (IH (upd_at (fun c => (c - 1)%Z) c q0) (upd rk q0 (fc + 1)) (nx ++ [q0])) as (nl & H).
      * rewrite upd_at_length; exact Lc.
      * rewrite upd_length; exact Lr.
      * intros q Hq; apply HL; right; exact Hq.
      * exact Hc'.
      * cbn zeta in H. destruct H as (H1 & H2 & H3 & H4 & H5 & H6 & H7).
        assert (Hnot : ~ In q0 L).
        { intros C. specialize (Hc' q0 Hq0). rewrite Hstep, Nat.eqb_refl in Hc'.
          apply (count_occ_In Nat.eq_dec) in C. lia. }
        assert (Hnl : ~ In q0 nl) by (intros C; apply H5 in C; tauto).
        exists (q0 :: nl). cbn zeta. split; [exact H1|]. split; [exact H2|].
        split; [rewrite H3, <- app_assoc; reflexivity|].
        split; [constructor; assumption|]. split; [|split].
        -- intros q. simpl. rewrite H5. split.
           ++ intros [<-|[HqL Hq]].
              ** split; [auto|]. destruct (Nat.eq_dec q0 q0); [|contradiction].
                 rewrite (proj1 (count_occ_not_In Nat.eq_dec L q0) Hnot). simpl. lia.
              ** split; [auto|]. rewrite Hstep in Hq.
                 destruct (Nat.eq_dec q0 q), (Nat.eqb_spec q0 q); try contradiction; subst; try contradiction; lia.
           ++ intros [HqL Hq].
              destruct (Nat.eq_dec q0 q) as [|Hne]; [auto|]. destruct HqL as [HqL|HqL]; [auto|].
              right. split; [exact HqL|]. rewrite Hstep. destruct (Nat.eqb_spec q0 q); [contradiction|]. exact Hq.
        -- intros q Hq. rewrite H6 by exact Hq. rewrite Hstep. simpl.
           destruct (Nat.eq_dec q0 q), (Nat.eqb_spec q0 q); try contradiction; lia.
        -- intros q Hq. rewrite H7 by exact Hq.
           destruct (in_dec Nat.eq_dec q nl) as [Hi|Hi], (in_dec Nat.eq_dec q (q0 :: nl)) as [Hj|Hj]; try reflexivity.
           ++ exfalso; apply Hj; right; exact Hi.
           ++ destruct Hj as [<-|Hj]; [|contradiction]. apply nth_upd_eq. lia.
           ++ apply nth_upd_neq. intros <-. apply Hj; left; reflexivity.
    + destruct (IH (upd_at (fun c => (c - 1)%Z) c q0) rk nx) as (nl & H).
      * rewrite upd_at_length; exact Lc.
      * exact Lr.
      * intros q Hq; apply HL; right; exact Hq.
      * exact Hc'.
      * cbn zeta in H. destruct H as (H1 & H2 & H3 & H4 & H5 & H6 & H7).
        exists nl. cbn zeta. repeat (split; [assumption|]). split; [|split; [|exact H7]].
        -- intros q. rewrite H5, Hstep. simpl.
           destruct (Nat.eqb_spec q0 q), (Nat.eq_dec q0 q); try contradiction.
           ++ subst q. split.
              ** intros [? ?]; split; [auto|lia].
              ** intros [_ H]. split; [|lia].
                 apply (count_occ_In Nat.eq_dec). pose proof (Hc' q0 Hq0) as K.
                 rewrite Hstep, Nat.eqb_refl in K. lia.
           ++ split; [intros [? ?]; auto|]. intros [[?|?] ?]; [contradiction|auto].
        -- intros q Hq. rewrite H6 by exact Hq. rewrite Hstep. simpl.
           destruct (Nat.eq_dec q0 q), (Nat.eqb_spec q0 q); try contradiction; lia.
Qed.

(** occurrences of q in the flattened dominance lists of the current front *)
Lemma count_flat doml cur q :
  (forall a, a < N -> nth a doml [] = filter (D a) (seq 0 N)) ->
  (forall p, In p cur -> p < N) -> q < N ->
  Z.of_nat (count_occ Nat.eq_dec (flat_map (fun p => nth p doml []) cur) q) = cnt (fun p => D p q) cur.
Proof.
  intros Hd Hcur Hq. induction cur as [|p cur IH]; simpl; [reflexivity|].
  rewrite count_occ_app, Nat2Z.inj_add, IH by (intros; apply Hcur; right; assumption).
  change (p :: cur) with ([p] ++ cur). rewrite cnt_app, cnt_one. f_equal.
  rewrite Hd by (apply Hcur; left; reflexivity).
  destruct (D p q) eqn:E.
  - assert (count_occ Nat.eq_dec (filter (D p) (seq 0 N)) q = 1); [|lia].
    assert (In q (filter (D p) (seq 0 N))) by (apply filter_In; split; [apply in_seq; lia|exact E]).
    assert (NoDup (filter (D p) (seq 0 N))) by (apply NoDup_filter, seq_NoDup).
    pose proof (proj1 (NoDup_count_occ Nat.eq_dec _) H0 q). apply (count_occ_In Nat.eq_dec) in H. lia.
  - assert (count_occ Nat.eq_dec (filter (D p) (seq 0 N)) q = 0); [|lia].
    apply count_occ_not_In. rewrite filter_In. rewrite E. intros [_ C]; discriminate.
Qed.

Definition inb (i : nat) (l : list nat) : bool := if in_dec Nat.eq_dec i l then true else false.
Lemma inb_true i l : inb i l = true <-> In i l.
Proof. unfold inb. destruct (in_dec Nat.eq_dec i l); split; auto; discriminate. Qed.

(** counting over a sub-list without repetition equals counting members over all *)
Lemma cnt_sub P cur : NoDup cur -> (forall p, In p cur -> p < N) ->
  cnt P cur = cnt (fun j => P j && inb j cur) (seq 0 N).
Proof.
  intros ND HC. unfold cnt. f_equal. apply Permutation_length. apply NoDup_Permutation.
  - apply NoDup_filter; exact ND.
  - apply NoDup_filter, seq_NoDup.
  - intros x. rewrite !filter_In, in_seq, andb_true_iff, inb_true. split.
    + intros [H1 H2]. specialize (HC x H1). split; [lia|auto].
    + intros (_ & H1 & H2). auto.
Qed.

(** Remaining dominators of i once the members of P have been peeled. *)
Definition remc (P : list nat) (i : nat) : Z := cnt (fun j => D j i && negb (inb j P)) (seq 0 N).

Lemma remc_step P cur i :
  NoDup (P ++ cur) -> (forall p, In p cur -> p < N) ->
  (remc P i - cnt (fun p => D p i) cur)%Z = remc (P ++ cur) i.
Proof.
  intros ND HC. rewrite (cnt_sub (fun p => D p i) cur); [| |exact HC].
  2:{ clear - ND. induction P; simpl in ND; [exact ND|]. inversion ND; auto. }
  unfold remc, cnt.
  enough (forall l, length (filter (fun j => D j i && negb (inb j P)) l)
          = length (filter (fun j => D j i && inb j cur) l) + length (filter (fun j => D j i && negb (inb j (P ++ cur))) l)).
  { rewrite H. lia. }
  induction l as [|j l IH]; simpl; [reflexivity|].
  destruct (D j i); simpl; [|exact IH].
  assert (inb j (P ++ cur) = inb j P || inb j cur).
  { apply eq_true_iff_eq. rewrite orb_true_iff, !inb_true. apply in_app_iff. }
  rewrite H. destruct (inb j P) eqn:EP, (inb j cur) eqn:EC; simpl; try rewrite IH; try lia.
  exfalso. apply inb_true in EP, EC. clear - ND EP EC. induction P as [|x P IHP]; [contradiction|].
  simpl in ND. inversion ND; subst. destruct EP as [->|EP]; [|auto].
  apply H1. apply in_or_app; auto.
Qed.

Record front_inv (done : list (list nat)) (cur : list nat) (c : list Z) (rk : list nat) : Prop := {
  fi_lenc : length c = N;
  fi_lenr : length rk = N;
  fi_nodup : NoDup (concat done ++ cur);
  fi_c : forall i, i < N -> nth i c (-1)%Z = remc (concat done) i;
  fi_mem : forall i, In i (concat done ++ cur) <-> (i < N /\ remc (concat done) i = 0%Z);
  fi_rank : forall k i, In i (nth k (done ++ [cur]) []) -> nth i rk 0 = k;
  fi_ne : forall f, In f done -> f <> [];
  fi_down : forall k i, In i (nth k (done ++ [cur]) []) -> forall j, dom_idx pts j i ->
              exists m, m < k /\ In j (nth m (done ++ [cur]) []);
  fi_up : forall k i, In i (nth (S k) (done ++ [cur]) []) ->
              exists j, In j (nth k (done ++ [cur]) []) /\ dom_idx pts j i
}.

Lemma nth_app_last {A} (l : list (list A)) x : nth (length l) (l ++ [x]) [] = x.
Proof. rewrite app_nth2, Nat.sub_diag by lia. reflexivity. Qed.

Lemma in_nth_concat (l : list (list nat)) i : In i (concat l) <-> exists k, k < length l /\ In i (nth k l []).
Proof.
  rewrite in_concat. split.
  - intros (f & Hf & Hi). apply In_nth with (d := []) in Hf. destruct Hf as (k & Hk & <-). eauto.
  - intros (k & Hk & Hi). exists (nth k l []). split; [apply nth_In; exact Hk|exact Hi].
Qed.

Lemma peel_step doml done cur c rk :
  (forall a, a < N -> nth a doml [] = filter (D a) (seq 0 N)) ->
  cur <> [] -> front_inv done cur c rk ->
  let s := peel_front doml (length done) cur c rk in
  front_inv (done ++ [cur]) (pnext s) (pc s) (prk s).
Proof.
  intros Hd Hne [Lc Lr ND Hc Hm Hr Hfne Hdn Hup].
  assert (HcurN : forall p, In p cur -> p < N).
  { intros p Hp. apply (Hm p). apply in_or_app; auto. }
  unfold peel_front. rewrite fold_flat.
  set (L := flat_map (fun p => nth p doml []) cur).
  assert (HL : forall q, In q L -> q < N).
  { intros q Hq. apply in_flat_map in Hq. destruct Hq as (p & Hp & Hq).
    rewrite Hd in Hq by auto. apply filter_In in Hq. destruct Hq as [Hq _]. apply in_seq in Hq. lia. }
  assert (Hcnt : forall q, q < N -> Z.of_nat (count_occ Nat.eq_dec L q) = cnt (fun p => D p q) cur).
  { intros q Hq. apply count_flat; assumption. }
  destruct (peel_fold (length done) L c rk [] Lc Lr HL) as (nl & H).
  { intros q Hq. rewrite Hcnt, Hc by exact Hq.
    pose proof (remc_step (concat done) cur q ND HcurN). pose proof (cnt_nonneg (fun j => D j q && negb (inb j (concat done ++ cur))) (seq 0 N)).
    unfold remc in *. lia. }
  cbn zeta in H. destruct H as (H1 & H2 & H3 & H4 & H5 & H6 & H7). cbn zeta.
  set (s := fold_left (peel_one (length done)) L {| pc := c; prk := rk; pnext := [] |}) in *.
  rewrite H3. simpl.
  assert (HinL : forall q, q < N -> (In q L <-> exists p, In p cur /\ D p q = true)).
  { intros q Hq. unfold L. rewrite in_flat_map. split; intros (p & Hp & K); exists p; (split; [exact Hp|]).
    - rewrite Hd in K by auto. apply filter_In in K. tauto.
    - rewrite Hd by auto. apply filter_In. split; [apply in_seq; lia|exact K]. }
  assert (Hnl : forall q, In q nl <-> q < N /\ In q L /\ remc (concat done ++ cur) q = 0%Z).
  { intros q. rewrite H5. split.
    - intros [K1 K2]. assert (q < N) by auto. split; [assumption|]. split; [assumption|].
      rewrite Hc, Hcnt in K2 by assumption.
      rewrite <- (remc_step (concat done) cur q ND HcurN). lia.
    - intros (K0 & K1 & K2). split; [assumption|]. rewrite Hc, Hcnt by assumption.
      rewrite <- (remc_step (concat done) cur q ND HcurN) in K2. lia. }
  assert (Hcat : concat (done ++ [cur]) = concat done ++ cur).
  { rewrite concat_app. simpl. rewrite app_nil_r. reflexivity. }
  (* members of next are not among the old ones *)
  assert (Hfresh : forall q, In q nl -> ~ In q (concat done ++ cur)).
  { intros q Hq C. apply Hnl in Hq. destruct Hq as (Hq & HqL & _).
    apply Hm in C. destruct C as [_ C]. apply HinL in HqL; [|exact Hq].
    destruct HqL as (p & Hp & Dpq).
    unfold remc in C. rewrite cnt_zero in C. specialize (C p).
    rewrite Dpq in C. simpl in C. apply negb_false_iff in C; [|apply in_seq; specialize (HcurN p Hp); lia].
    apply inb_true in C.
    clear - ND C Hp. induction (concat done) as [|x l IH]; [contradiction|].
    simpl in ND. inversion ND; subst. destruct C as [->|C]; [|auto]. apply H1, in_or_app; auto. }
  constructor.
  - exact H1.
  - exact H2.
  - rewrite Hcat. clear - ND H4 Hfresh.
    apply NoDup_app_remove_l with (l := []) || idtac.
    revert ND Hfresh. generalize (concat done ++ cur). intros l.
    induction l as [|x l IH]; intros ND Hf; simpl; [exact H4|].
    inversion ND; subst. constructor.
    + rewrite in_app_iff. intros [K|K]; [contradiction|]. apply (Hf x K). left; reflexivity.
    + apply IH; [assumption|]. intros q Hq C. apply (Hf q Hq). right; exact C.
  - intros i Hi. rewrite H6 by exact Hi. rewrite Hcat, Hc, Hcnt by exact Hi. apply remc_step; assumption.
  - intros i. rewrite Hcat, in_app_iff. split.
    + intros [K|K].
      * apply Hm in K. destruct K as [Hi K]. split; [exact Hi|].
        unfold remc in *. rewrite cnt_zero in *. intros j Hj. specialize (K j Hj).
        apply andb_false_iff in K. apply andb_false_iff. destruct K as [K|K]; [auto|].
        right. apply negb_false_iff in K. apply negb_false_iff, inb_true. apply inb_true in K.
        apply in_or_app; auto.
      * apply Hnl in K. tauto.
    + intros [Hi K].
      destruct (in_dec Nat.eq_dec i (concat done ++ cur)) as [|Hn]; [auto|right].
      apply Hnl. split; [exact Hi|]. split; [|exact K].
      apply HinL; [exact Hi|].
      assert (Hnz : remc (concat done) i <> 0%Z) by (intros C; apply Hn, Hm; auto).
      destruct (filter (fun p => D p i) cur) as [|p t] eqn:E.
      * exfalso. apply Hnz. rewrite <- K, <- (remc_step (concat done) cur i ND HcurN).
        unfold cnt. rewrite E. simpl. lia.
      * assert (In p (filter (fun p => D p i) cur)) by (rewrite E; left; reflexivity).
        apply filter_In in H. exists p; exact H.
  - intros k i Hi.
    destruct (lt_eq_lt_dec k (length (done ++ [cur]))) as [[Hk|Hk]|Hk].
    + rewrite app_nth1 in Hi by exact Hk.
      assert (i < N).
      { apply (Hm i). rewrite <- Hcat. apply in_nth_concat. exists k; auto. }
      rewrite H7 by assumption.
      destruct (in_dec Nat.eq_dec i nl) as [C|C]; [|apply Hr; exact Hi].
      exfalso. apply (Hfresh i C). rewrite <- Hcat. apply in_nth_concat. eauto.
    + subst k. rewrite nth_app_last in Hi.
      assert (i < N) by (apply Hnl in Hi; tauto).
      rewrite H7 by assumption. destruct (in_dec Nat.eq_dec i nl); [|contradiction].
      rewrite app_length. reflexivity.
    + rewrite nth_overflow in Hi by (rewrite app_length; simpl; lia). contradiction.
  - intros f Hf. apply in_app_or in Hf. destruct Hf as [Hf|[<-|[]]]; auto.
  - intros k i Hi j Dj.
    destruct (lt_eq_lt_dec k (length (done ++ [cur]))) as [[Hk|Hk]|Hk].
    + rewrite app_nth1 in Hi by exact Hk. destruct (Hdn k i Hi j Dj) as (m & Hm1 & Hm2).
      exists m. split; [exact Hm1|]. rewrite app_nth1 by lia. exact Hm2.
    + subst k. rewrite nth_app_last in Hi. apply Hnl in Hi. destruct Hi as (Hi & _ & K).
      pose proof (dom_idx_lt _ _ _ Dj) as [Hj _].
      unfold remc in K. rewrite cnt_zero in K. specialize (K j).
      rewrite (proj2 (D_spec j i Hj Hi) Dj) in K. simpl in K.
      apply negb_false_iff in K; [|apply in_seq; split; [lia|exact Hj]]. apply inb_true in K.
      rewrite <- Hcat in K. apply in_nth_concat in K. destruct K as (m & Hm1 & Hm2).
      exists m. split; [exact Hm1|]. rewrite app_nth1 by exact Hm1. exact Hm2.
    + rewrite nth_overflow in Hi by (rewrite app_length; simpl; lia). contradiction.
  - intros k i Hi.
    destruct (lt_eq_lt_dec (S k) (length (done ++ [cur]))) as [[Hk|Hk]|Hk].
    + rewrite app_nth1 in Hi by exact Hk. destruct (Hup k i Hi) as (j & Hj & Dj).
      exists j. split; [|exact Dj]. rewrite app_nth1 by lia. exact Hj.
    + rewrite Hk, nth_app_last in Hi. apply Hnl in Hi. destruct Hi as (Hi & HiL & _).
      apply HinL in HiL; [|exact Hi]. destruct HiL as (p & Hp & Dpi).
      exists p. split.
      * rewrite app_length in Hk; simpl in Hk. replace k with (length done) by lia.
        rewrite app_nth1 by (rewrite app_length; simpl; lia). rewrite nth_app_last. exact Hp.
      * apply D_spec; auto.
    + rewrite nth_overflow in Hi by (rewrite app_length; simpl; lia). contradiction.
Qed.

Lemma nodup_bound l : NoDup l -> (forall i, In i l -> i < N) -> length l <= N.
Proof.
  intros ND H. rewrite <- (seq_length N 0). apply NoDup_incl_length; [exact ND|].
  intros i Hi. apply in_seq. specialize (H i Hi). lia.
Qed.

Lemma peel_loop_ok doml :
  (forall a, a < N -> nth a doml [] = filter (D a) (seq 0 N)) ->
  forall fuel done cur c rk,
  cur <> [] -> front_inv done cur c rk ->
  N < fuel + length (concat done) + 1 ->
  exists done' cur' c' rk',
    peel_loop fuel doml (length done) cur c rk (done ++ [cur]) = Ok (done', rk') /\
    front_inv done' cur' c' rk' /\ cur' = [].
Proof.
  intros Hd. induction fuel as [|fuel IH]; intros done cur c rk Hne I Hf.
  - exfalso. destruct I as [_ _ ND _ Hm _ _ _ _].
    assert (length (concat done ++ cur) <= N).
    { apply nodup_bound; [exact ND|]. intros i Hi. apply Hm in Hi. tauto. }
    rewrite app_length in H. destruct cur; [congruence|]. simpl in H. lia.
  - pose proof (peel_step doml done cur c rk Hd Hne I) as I'. cbn zeta in I'.
    destruct cur as [|x cur]; [congruence|]. simpl.
    set (s := peel_front doml (length done) (x :: cur) c rk) in *.
    destruct (pnext s) as [|y nx] eqn:E.
    + exists (done ++ [x :: cur]), [], (pc s), (prk s). split; [|auto].
      destruct fuel; reflexivity.
    + rewrite <- E in *. replace (length done + 1) with (length (done ++ [x :: cur])) by (rewrite app_length; simpl; lia).
      apply IH.
      * rewrite E; discriminate.
      * exact I'.
      * rewrite concat_app. simpl. rewrite app_nil_r, app_length. simpl. lia.
Qed.

Lemma filter_seq_in P i : In i (filter P (seq 0 N)) <-> i < N /\ P i = true.
Proof. rewrite filter_In, in_seq. split; intros [H1 H2]; split; auto; lia. Qed.

Theorem fnds_correct : 2 <= N -> exists r,
  fast_non_dominated_sorting pts = Ok r /\
  Permutation (seq 0 N) (concat (fr_fronts r)) /\
  (forall f, In f (fr_fronts r) -> f <> []) /\
  (forall k i, In i (nth k (fr_fronts r) []) ->
     (forall j, dom_idx pts j i -> exists m, m < k /\ In j (nth m (fr_fronts r) [])) /\
     nth_error (fr_rank r) i = Some k) /\
  (forall k i, In i (nth (S k) (fr_fronts r) []) -> exists j, In j (nth k (fr_fronts r) []) /\ dom_idx pts j i) /\
  length (fr_rank r) = N /\ length (fr_dom_list r) = N /\ length (fr_dom_count r) = N /\
  (forall i, i < N -> nth_error (fr_dom_list r) i = Some (filter (D i) (seq 0 N))) /\
  (forall i, i < N -> nth_error (fr_dom_count r) i = Some (cnt (fun b => D b i) (seq 0 N))).
Proof.
  intros HN. destruct phase1 as (s & Es & L1 & L2 & R1 & R2).
  unfold fast_non_dominated_sorting. fold N.
  destruct (Nat.ltb_spec N 2); [lia|]. unfold throw_if. cbn [bind]. rewrite Es. cbn [bind].
  set (front0 := filter (fun i => (nth i (dc s) (-1) =? 0)%Z) (seq 0 N)).
  assert (Hrem0 : forall i, i < N -> nth i (dc s) (-1)%Z = remc [] i).
  { intros i Hi. rewrite R2 by exact Hi. unfold remc. apply cnt_ext. intros x _.
    simpl. destruct (D x i); reflexivity. }
  assert (I0 : front_inv [] front0 (dc s) (repeat 0 N)).
  { constructor; simpl.
    - exact L2.
    - apply repeat_length.
    - apply NoDup_filter, seq_NoDup.
    - exact Hrem0.
    - intros i. unfold front0. rewrite filter_seq_in. split.
      + intros [Hi K]. split; [exact Hi|]. rewrite <- Hrem0 by exact Hi. apply Z.eqb_eq; exact K.
      + intros [Hi K]. split; [exact Hi|]. rewrite Hrem0 by exact Hi. apply Z.eqb_eq; exact K.
    - intros k i Hi. rewrite nth_repeat. destruct k as [|[|k]]; [reflexivity|contradiction|contradiction].
    - intros f [].
    - intros k i Hi j Dj. exfalso. destruct k as [|[|k]]; try contradiction.
      unfold front0 in Hi. apply filter_seq_in in Hi. destruct Hi as [Hi K].
      apply Z.eqb_eq in K. rewrite Hrem0 in K by exact Hi. unfold remc in K. rewrite cnt_zero in K.
      pose proof (dom_idx_lt _ _ _ Dj) as [Hj _]. specialize (K j). fold N in Hj.
      rewrite (proj2 (D_spec j i Hj Hi) Dj) in K. simpl in K.
      assert (In j (seq 0 N)) by (apply in_seq; split; [lia|exact Hj]). specialize (K H0). discriminate.
    - intros k i Hi. destruct k as [|k]; contradiction. }
  assert (Hf0 : front0 <> []).
  { destruct (exists_minimal (dom_idx pts) (dom_idx_dec pts) (dom_idx_irrefl pts) (dom_idx_trans pts) (seq 0 N))
      as (m & Hm & Hmin).
    { destruct N; [lia|discriminate]. }
    apply in_seq in Hm. intros C.
    assert (In m front0); [|rewrite C in H0; contradiction].
    apply filter_seq_in. split; [lia|]. apply Z.eqb_eq. rewrite Hrem0 by lia. unfold remc.
    apply cnt_zero. intros x Hx. apply andb_false_iff. left.
    destruct (D x m) eqn:E; [|reflexivity]. exfalso. apply (Hmin x Hx). apply D_spec; auto; [|lia].
    apply in_seq in Hx; lia. }
  destruct (peel_loop_ok (dl s) R1 (S N) [] front0 (dc s) (repeat 0 N) Hf0 I0) as (done & cur' & c' & rk' & E & I & ->).
  { simpl; lia. }
  simpl app in E. simpl length in E. rewrite E. cbn [bind]. eexists. split; [reflexivity|]. simpl.
  destruct I as [Lc Lr ND Hc Hm Hr Hfne Hdn Hup].
  rewrite app_nil_r in ND. 
  assert (Hm' : forall i, In i (concat done) <-> i < N /\ remc (concat done) i = 0%Z).
  { intros i. rewrite <- Hm, app_nil_r. reflexivity. }
  assert (Hall : forall i, In i (concat done) <-> i < N).
  { intros i. split; [intros H0; apply Hm' in H0; tauto|]. intros Hi.
    destruct (in_dec Nat.eq_dec i (concat done)) as [|Hn]; [assumption|exfalso].
    set (R := filter (fun i => negb (inb i (concat done))) (seq 0 N)).
    assert (HR : forall x, In x R <-> x < N /\ ~ In x (concat done)).
    { intros x. unfold R. rewrite filter_seq_in, negb_true_iff. split.
      - intros [K1 K2]. split; [exact K1|]. intros C. apply inb_true in C. congruence.
      - intros [K1 K2]. split; [exact K1|]. destruct (inb x (concat done)) eqn:Ex; [|reflexivity].
        apply inb_true in Ex. contradiction. }
    destruct (exists_minimal (dom_idx pts) (dom_idx_dec pts) (dom_idx_irrefl pts) (dom_idx_trans pts) R)
      as (m & HmR & Hmin).
    { intros C. assert (In i R) by (apply HR; auto). rewrite C in H0. contradiction. }
    apply HR in HmR. destruct HmR as [HmN Hmn]. apply Hmn. apply Hm'. split; [exact HmN|].
    unfold remc. apply cnt_zero. intros x Hx. apply in_seq in Hx.
    destruct (D x m) eqn:Ed; [|reflexivity]. simpl. apply negb_false_iff, inb_true.
    destruct (in_dec Nat.eq_dec x (concat done)) as [|Hxn]; [assumption|exfalso].
    apply (Hmin x); [apply HR; split; [lia|exact Hxn]|]. apply D_spec; auto; lia. }
  assert (Hnth : forall k, nth k (done ++ [[]]) [] = nth k done []).
  { intros k. destruct (lt_eq_lt_dec k (length done)) as [[Hk|Hk]|Hk].
    - apply app_nth1; exact Hk.
    - subst. rewrite nth_app_last, nth_overflow by lia. reflexivity.
    - rewrite !nth_overflow; [reflexivity|lia|rewrite app_length; simpl; lia]. }
  split; [|split; [|split; [|split; [|split; [|split; [|split; [|split]]]]]]].
  - apply NoDup_Permutation; [apply seq_NoDup|exact ND|]. intros x. rewrite Hall, in_seq. lia.
  - exact Hfne.
  - intros k i Hi. assert (Hi' : In i (nth k (done ++ [[]]) [])) by (rewrite Hnth; exact Hi). split.
    + intros j Dj. destruct (Hdn k i Hi' j Dj) as (m & H1 & H2). exists m. rewrite Hnth in H2. auto.
    + rewrite <- (Hr k i Hi'). apply nth_error_nth'. rewrite Lr.
      apply Hall. apply in_nth_concat. exists k. split; [|exact Hi].
      destruct (lt_dec k (length done)); [assumption|]. rewrite nth_overflow in Hi by lia. contradiction.
  - intros k i Hi. specialize (Hup k i). rewrite !Hnth in Hup. auto.
  - exact Lr.
  - exact L1.
  - exact L2.
  - intros i Hi. rewrite <- R1 by exact Hi. apply nth_error_nth'. lia.
  - intros i Hi. rewrite <- R2 by exact Hi. apply nth_error_nth'. lia.
Qed.
End Fnds.
