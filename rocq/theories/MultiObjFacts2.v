(** Correctness of sort_population_mo, ideal, nadir and decompose_objectives. *)
From Coq Require Import List Bool Arith ZArith Lia Permutation Sorting.Sorted.
From Verif Require Import Dbl DblFacts Outcome StdSort BaseFacts Compare MultiObj SpecOrder SpecMultiObj CompareFacts DominanceFacts FndsFacts MultiObjFacts CrowdFacts.
Import ListNotations.

(** ** sort_population_mo *)

Lemma crowd_fill_fold front tmp n : forall c,
  NoDup front -> n <= length front -> (forall i, In i front -> i < length c) ->
  length (fold_left (fun c i => upd c (nth i front 0) (cmpn tmp i)) (seq 0 n) c) = length c /\
  (forall k i, k < n -> nth_error front k = Some i ->
      nth_error (fold_left (fun c i => upd c (nth i front 0) (cmpn tmp i)) (seq 0 n) c) i = Some (cmpn tmp k)) /\
  (forall i, ~ In i front ->
      nth_error (fold_left (fun c i => upd c (nth i front 0) (cmpn tmp i)) (seq 0 n) c) i = nth_error c i).
Proof.
  induction n as [|n IH]; intros c ND Hn Hc.
  - simpl. split; [reflexivity|]. split; [intros; lia|reflexivity].
  - rewrite seq_S, fold_left_app. cbn [fold_left Nat.add].
    destruct (IH c ND ltac:(lia) Hc) as (L & H1 & H2).
    set (s := fold_left _ (seq 0 n) c) in *.
    assert (In (nth n front 0) front) by (apply nth_In; lia).
    split; [rewrite upd_length; exact L|]. split.
    + intros k i Hk Ei. destruct (Nat.eq_dec k n) as [->|Hne].
      * rewrite (nth_error_nth front n 0 Ei). apply nth_error_upd_eq.
        rewrite L. apply Hc. eapply nth_error_In; exact Ei.
      * rewrite nth_error_upd_neq; [apply H1; auto; lia|].
        intros E. apply Hne. apply (proj1 (NoDup_nth_error front) ND); [apply nth_error_Some; congruence|].
        rewrite Ei. rewrite <- E. symmetry. apply nth_error_nth'. lia.
    + intros i Hi. rewrite nth_error_upd_neq; [apply H2; exact Hi|]. intros E. apply Hi. rewrite <- E. exact H.
Qed.

Lemma crowd_fill_ok srt pts M c front : sort_contract srt -> uniform pts M -> 2 <= M ->
  length c = length pts -> NoDup front -> (forall i, In i front -> i < length pts) -> front <> [] ->
  exists c', crowd_fill srt pts c front = Ok c' /\ length c' = length pts /\
    front_crowding M pts front c' /\ (forall i, ~ In i front -> nth_error c' i = nth_error c i).
Proof.
  intros C U HM L ND Hlt Hne. unfold crowd_fill.
  destruct (Nat.eqb_spec (length front) 1) as [E1|E1].
  - destruct front as [|f [|]]; try discriminate. simpl. eexists. split; [reflexivity|].
    rewrite upd_length. split; [exact L|]. split.
    + apply nth_error_upd_eq. rewrite L. apply Hlt. left; reflexivity.
    + intros i Hi. apply nth_error_upd_neq. intros E. apply Hi. left. exact E.
  - assert (2 <= length front) by (destruct front as [|? [|]]; simpl in *; try congruence; lia).
    destruct (crowding_ok srt (map (pnt pts) front) M C) as (cds & Ecd & Lcd & CS).
    { rewrite map_length; assumption. } { exact HM. } { apply uniform_map_pnt; assumption. }
    rewrite map_length in Lcd. rewrite Ecd. cbn [bind].
    destruct (crowd_fill_fold front cds (length front) c ND (Nat.le_refl _)) as (L' & H1 & H2).
    { intros i Hi. rewrite L. auto. }
    eexists. split; [reflexivity|]. split; [rewrite L'; exact L|]. split; [|exact H2].
    set (c' := fold_left _ _ c) in *. unfold front_crowding.
    assert (G : exists cds, crowding_spec (map (fun i => nth i pts []) front) M cds /\
         forall k i, nth_error front k = Some i -> nth_error c' i = nth_error cds k).
    { exists cds. split; [exact CS|]. intros k i Ei.
      assert (k < length front) by (apply nth_error_Some; congruence).
      rewrite (H1 k i); auto. symmetry. apply nth_error_nth'. lia. }
    destruct front as [|? [|]]; [exact G|simpl in *; lia|exact G].
Qed.

Lemma crowd_fill_all srt pts M : sort_contract srt -> uniform pts M -> 2 <= M ->
  forall fronts c, length c = length pts -> NoDup (concat fronts) -> (forall i, In i (concat fronts) -> i < length pts) ->
  (forall f, In f fronts -> f <> []) ->
  exists c', mfold (crowd_fill srt pts) c fronts = Ok c' /\ length c' = length pts /\
    (forall f, In f fronts -> front_crowding M pts f c') /\
    (forall i, ~ In i (concat fronts) -> nth_error c' i = nth_error c i).
Proof.
  intros C U HM. induction fronts as [|f fronts IH]; intros c L ND Hlt Hne.
  - exists c. simpl. repeat split; auto. intros f [].
  - cbn [mfold concat]. simpl in ND, Hlt.
    destruct (crowd_fill_ok srt pts M c f C U HM L) as (c1 & E1 & L1 & F1 & O1).
    { eapply NoDup_app_l; exact ND. } { intros i Hi. apply Hlt, in_or_app; auto. } { apply Hne; left; reflexivity. }
    rewrite E1. cbn [bind].
    destruct (IH c1 L1) as (c2 & E2 & L2 & F2 & O2).
    { eapply NoDup_app_r; exact ND. } { intros i Hi. apply Hlt, in_or_app; auto. } { intros g Hg. apply Hne; right; exact Hg. }
    exists c2. split; [exact E2|]. split; [exact L2|]. split.
    + intros g [<-|Hg]; [|auto].
      assert (Hsame : forall i, In i f -> nth_error c2 i = nth_error c1 i).
      { intros i Hi. apply O2. intros Hi2. eapply NoDup_app_disj; eassumption. }
      clear - F1 Hsame. unfold front_crowding in *.
      assert (G : (exists cds, crowding_spec (map (fun i => nth i pts []) f) M cds /\
         forall k i, nth_error f k = Some i -> nth_error c1 i = nth_error cds k) ->
         exists cds, crowding_spec (map (fun i => nth i pts []) f) M cds /\
         forall k i, nth_error f k = Some i -> nth_error c2 i = nth_error cds k).
      { intros (cds & E & H). exists cds. split; [exact E|]. intros k i Ei. rewrite Hsame; [auto|].
        eapply nth_error_In; exact Ei. }
      destruct f as [|a [|]]; [exact (G F1)| |exact (G F1)]. rewrite Hsame; [exact F1|left; reflexivity].
    + intros i Hi. rewrite O2, O1; [reflexivity| |]; intros K; apply Hi, in_or_app; auto.
Qed.

Lemma sort_mo_ok srt pts M : sort_contract srt -> uniform pts M -> 2 <= M -> 2 <= length pts ->
  exists idx, sort_population_mo srt pts = Ok idx /\ mo_sorted M pts idx.
Proof.
  intros C U HM HN. unfold sort_population_mo.
  destruct (Nat.eqb_spec (length pts) 0); [lia|]. destruct (Nat.eqb_spec (length pts) 1); [lia|].
  destruct (fnds_ok pts M U HN) as (r & -> & FD & RK & _ & _). cbn [bind].
  assert (NDc : NoDup (concat (fr_fronts r))).
  { eapply Permutation_NoDup; [apply (fd_perm _ _ FD)|apply seq_NoDup]. }
  destruct (crowd_fill_all srt pts M C U HM (fr_fronts r) (repeat dzero (length pts))) as (crowd & -> & Lc & FC & _).
  { apply repeat_length. } { exact NDc. }
  { intros i H. eapply Permutation_in in H; [|apply Permutation_sym, (fd_perm _ _ FD)]. apply in_seq in H; lia. }
  { apply (fd_nonempty _ _ FD). }
  cbn [bind].
  destruct (std_sort_ok srt (sort_mo_cmp (fr_rank r) crowd) (iota (length pts)) C) as (idx & E & P & Srt).
  { split; intros; unfold sort_mo_cmp in *.
    - rewrite Nat.eqb_refl. rewrite greater_than_f_flip. apply ltf_false, better_irrefl.
    - repeat match goal with |- context [?a =? ?b] => destruct (Nat.eqb_spec a b) | H : context [?a =? ?b] |- _ => destruct (Nat.eqb_spec a b) end;
      rewrite ?greater_than_f_flip, ?Nat.ltb_lt, ?less_than_f_spec in *; try lia.
      eapply better_trans; eassumption.
    - repeat match goal with |- context [?a =? ?b] => destruct (Nat.eqb_spec a b) | H : context [?a =? ?b] |- _ => destruct (Nat.eqb_spec a b) end;
      rewrite ?greater_than_f_flip, ?Nat.ltb_ge, ?ltf_false in *; try lia.
      split; [exact (not_worse_trans _ _ _ H2 H4)|exact (not_worse_trans _ _ _ H5 H3)]. }
  rewrite E. exists idx. split; [reflexivity|]. split; [exact P|].
  exists (fr_fronts r), crowd. split; [exact FD|]. split; [exact FC|].
  intros a b p q kp kq Hab Ha Hb Hp Hq.
  pose proof (sorted_by_nth _ _ _ _ _ _ Srt Hab Ha Hb) as Hs. unfold sort_mo_cmp in Hs.
  assert (HpN : p < length pts) by (apply (Permutation_iota_in _ _ _ P); eapply nth_error_In; exact Ha).
  assert (HqN : q < length pts) by (apply (Permutation_iota_in _ _ _ P); eapply nth_error_In; exact Hb).
  destruct RK as [LR RK].
  assert (Rp : nth p (fr_rank r) 0 = kp) by (eapply nth_error_nth, RK; eauto).
  assert (Rq : nth q (fr_rank r) 0 = kq) by (eapply nth_error_nth, RK; eauto).
  rewrite Rp, Rq in Hs.
  destruct (Nat.eqb_spec kq kp) as [Ek|Ek].
  - subst kq. rewrite Ek in *. split; [lia|]. intros _. exists (cmpn crowd p), (cmpn crowd q).
    split; [apply nth_error_nth'; lia|]. split; [apply nth_error_nth'; lia|].
    rewrite greater_than_f_flip in Hs. apply ltf_false in Hs. exact Hs.
  - rewrite Nat.ltb_ge in Hs. split; [exact Hs|]. intros; lia.
Qed.

(** ** ideal, nadir *)

Lemma ideal_ok pts M : uniform pts M -> pts <> [] ->
  exists r, ideal pts = Ok r /\ length r = M /\
    forall j, j < M -> exists v, nth_error r j = Some v /\ is_min_of pts (fun _ => True) j v.
Proof.
  intros U Hne. destruct pts as [|p0 ps]; [congruence|]. cbn [ideal].
  assert (EM : length p0 = M) by (apply U; left; reflexivity). rewrite EM.
  rewrite (proj2 (all_size_spec (p0 :: ps) M) U). cbn [negb throw_if bind].
  set (pts := p0 :: ps) in *.
  assert (H : forall j, j < M -> exists i, min_element (fun f1 f2 => less_than_f (cmpn f1 j) (cmpn f2 j)) pts = Some i /\
     i < length pts /\ forall k, k < length pts -> not_worse (val pts i j) (val pts k j)).
  { intros j Hj. destruct (min_element_spec (fun f1 f2 => less_than_f (cmpn f1 j) (cmpn f2 j)) pts) as (i & x & E & Hi & Hmin).
    { apply (ltf_key_swo (fun f => cmpn f j)). } { apply (ltf_key_swo (fun f => cmpn f j)). } { exact Hne. }
    exists i. split; [exact E|]. split; [apply nth_error_Some; congruence|]. intros k Hk.
    destruct (nth_error pts k) as [y|] eqn:Ey; [|apply nth_error_None in Ey; lia].
    specialize (Hmin y (nth_error_In _ _ Ey)). cbn beta in Hmin. apply ltf_false in Hmin.
    unfold val. rewrite (nth_error_nth pts i [] Hi), (nth_error_nth pts k [] Ey). exact Hmin. }
  rewrite (mmap_pure _ (fun j => val pts (match min_element (fun f1 f2 => less_than_f (cmpn f1 j) (cmpn f2 j)) pts with Some i => i | None => 0 end) j)).
  2:{ intros j Hj. apply in_seq in Hj. destruct (H j ltac:(lia)) as (i & -> & Hi & _). unfold deref.
      rewrite (vget_nth _ _ [] Hi). cbn [bind]. rewrite (vget_nth _ _ NaN); [reflexivity|].
      rewrite (U (nth i pts [])); [lia|apply nth_In; exact Hi]. }
  eexists. split; [reflexivity|]. split; [rewrite map_length, seq_length; reflexivity|].
  intros j Hj. destruct (H j Hj) as (i & E & Hi & Hmin). eexists. split.
  - rewrite nth_error_map. rewrite (nth_error_nth' (seq 0 M) 0) by (rewrite seq_length; exact Hj).
    rewrite seq_nth by exact Hj. reflexivity.
  - cbn [Nat.add]. rewrite E. split; [exists i; auto|]. intros k _ Hk. auto.
Qed.

Lemma nadir_ok pts M : uniform pts M -> 2 <= length pts ->
  exists r, nadir pts = Ok r /\ length r = M /\
    forall j, j < M -> exists v, nth_error r j = Some v /\ is_max_of pts (nondominated pts) j v.
Proof.
  intros U HN. destruct pts as [|p0 ps]; [simpl in HN; lia|]. cbn [nadir].
  assert (EM : length p0 = M) by (apply U; left; reflexivity). rewrite EM.
  set (pts := p0 :: ps) in *.
  destruct (fnds_ok pts M U HN) as (r & -> & FD & RK & _ & _). cbn [bind].
  destruct (fr_fronts r) as [|f0 fs] eqn:Ef.
  { pose proof (Permutation_length (fd_perm _ _ FD)) as L. rewrite seq_length in L. simpl in L. lia. }
  unfold vget at 1. cbn [nth_error bind].
  assert (F0 : forall i, In i f0 <-> nondominated pts i) by (intros i; apply (fd_first _ _ FD i)).
  assert (Hf0 : f0 <> []) by (apply (fd_nonempty _ _ FD); left; reflexivity).
  set (nd := map (pnt pts) f0).
  assert (Hnd : nd <> []) by (unfold nd; destruct f0; simpl; congruence).
  assert (Ux : uniform nd M).
  { apply uniform_map_pnt; [exact U|]. intros i Hi. apply F0 in Hi. apply Hi. }
  assert (H : forall j, j < M -> exists k i, max_element (fun f1 f2 => less_than_f (cmpn f1 j) (cmpn f2 j)) nd = Some k /\
     nth_error nd k = Some (pnt pts i) /\ nondominated pts i /\ forall m, nondominated pts m -> not_worse (val pts m j) (val pts i j)).
  { intros j Hj. destruct (max_element_spec (fun f1 f2 => less_than_f (cmpn f1 j) (cmpn f2 j)) nd) as (k & x & E & Hk & Hmax).
    { apply (ltf_key_swo (fun f => cmpn f j)). } { apply (ltf_key_swo (fun f => cmpn f j)). } { exact Hnd. }
    assert (Hin : In x nd) by (eapply nth_error_In; exact Hk).
    apply in_map_iff in Hin. destruct Hin as (i & <- & Hi).
    exists k, i. split; [exact E|]. split; [exact Hk|]. split; [apply F0; exact Hi|].
    intros m Hm. assert (In (pnt pts m) nd) by (apply in_map, F0, Hm).
    specialize (Hmax _ H). cbn beta in Hmax. apply ltf_false in Hmax. exact Hmax. }
  rewrite (mmap_pure _ (fun j => cmpn (pnt nd (match max_element (fun f1 f2 => less_than_f (cmpn f1 j) (cmpn f2 j)) nd with Some i => i | None => 0 end)) j)).
  2:{ intros j Hj. apply in_seq in Hj. destruct (H j ltac:(lia)) as (k & i & -> & Hk & Hi & _). unfold deref.
      unfold vget at 1. rewrite Hk. cbn [bind]. unfold pnt at 2. rewrite (nth_error_nth _ _ _ Hk).
      apply vget_nth. rewrite (Ux (pnt pts i)); [lia|eapply nth_error_In; exact Hk]. }
  eexists. split; [reflexivity|]. split; [rewrite map_length, seq_length; reflexivity|].
  intros j Hj. destruct (H j Hj) as (k & i & E & Hk & Hi & Hmax). eexists. split.
  - rewrite nth_error_map. rewrite (nth_error_nth' (seq 0 M) 0) by (rewrite seq_length; exact Hj).
    rewrite seq_nth by exact Hj. reflexivity.
  - cbn [Nat.add]. rewrite E. unfold pnt at 1. rewrite (nth_error_nth _ _ _ Hk).
    split; [exists i; split; [exact Hi|]; split; [apply Hi|reflexivity]|].
    intros m Hm _. apply Hmax; exact Hm.
Qed.
