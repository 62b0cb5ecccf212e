From Coq Require Import List Bool Arith ZArith Lia Permutation.
From Verif Require Import Dbl DblFacts IntDbl Outcome BaseFacts StdSort Compare SpecOrder CompareFacts DominanceFacts MultiObj SpecMultiObj FndsFacts CrowdFacts MultiObjFacts MultiObjFacts2 AlgoFacts2 GeneticFacts AlgNsga2 SpecNsga2.
Import ListNotations.

(** ** Ranks and crowding distances *)
Lemma spacing_loop front cds n : forall k cd, k + n <= length front -> length front <= length cds -> (forall i, In i front -> i < length cd) ->
  mfold (fun cd i => bind (vget front i) (fun k => bind (vget cds i) (fun v => vset cd k v))) cd (seq k n) = Ok (fold_left (fun c i => upd c (nth i front 0) (cmpn cds i)) (seq k n) cd).
Proof.
  induction n as [|n IH]; intros k cd Hn HL Hc; [reflexivity|]. cbn [seq mfold fold_left].
  destruct (vget_in_range front k ltac:(lia)) as (i & Ei & Ni). destruct (vget_in_range cds k ltac:(lia)) as (v & Ev & Nv). rewrite Ei. cbn [bind]. rewrite Ev. cbn [bind].
  assert (Hi : i < length cd) by (apply Hc; eapply nth_error_In; eauto). unfold vset at 1. destruct (Nat.ltb_spec i (length cd)); [|lia]. cbn [bind].
  assert (Ek : cmpn cds k = v) by (unfold cmpn; now apply nth_error_nth). rewrite (nth_error_nth front k 0 Ni), Ek. apply IH; [lia|exact HL|]. intros j Hj. rewrite upd_length. auto.
Qed.
Lemma pick_ok (F : list (list dbl)) front : (forall i, In i front -> i < length F) -> mmap (vget F) front = Ok (map (pnt F) front).
Proof.
  induction front as [|i front IH]; intros H; [reflexivity|]. cbn [mmap map]. destruct (vget_in_range F i (H i (or_introl eq_refl))) as (f & Ef & Nf). rewrite Ef. cbn [bind].
  rewrite IH by (intros j Hj; apply H; now right). cbn [bind]. unfold pnt at 2. now rewrite (nth_error_nth F i [] Nf).
Qed.
Lemma nsga2_crowd_ok srt F M cd front : sort_contract srt -> uniform F M -> 2 <= M -> length cd = length F -> NoDup front -> (forall i, In i front -> i < length F) -> front <> [] ->
  exists cd', nsga2_crowd srt F cd front = Ok cd' /\ length cd' = length F /\ front_spacing M F front cd' /\ (forall i, ~ In i front -> nth_error cd' i = nth_error cd i).
Proof.
  intros C U HM L ND Hlt Hne. unfold nsga2_crowd. destruct (Nat.eqb_spec (length front) 1) as [E1|E1]; [|destruct (Nat.eqb_spec (length front) 2) as [E2|E2]].
  - destruct front as [|i [|]]; try discriminate. pose proof (Hlt i (or_introl eq_refl)) as Hi. cbn [vget nth_error bind]. unfold vset. destruct (Nat.ltb_spec i (length cd)); [|lia]. eexists. split; [reflexivity|].
    rewrite upd_length. split; [exact L|]. split; [split; [|cbn; lia]|].
    + intros _ j [<-|[]]. apply nth_error_upd_eq. lia.
    + intros j Hj. apply nth_error_upd_neq. intros E. apply Hj. now left.
  - destruct front as [|i [|j [|]]]; try discriminate. pose proof (Hlt i (or_introl eq_refl)) as Hi. pose proof (Hlt j (or_intror (or_introl eq_refl))) as Hj. cbn [vget nth_error bind]. unfold vset.
    destruct (Nat.ltb_spec i (length cd)); [|lia]. cbn [bind]. rewrite upd_length. destruct (Nat.ltb_spec j (length cd)); [|lia]. eexists. split; [reflexivity|]. rewrite !upd_length. split; [exact L|].
    assert (N : i <> j) by (inversion ND as [|? ? K]; intros ->; apply K; now left). split; [split; [|cbn; lia]|].
    + intros _ k [<-|[<-|[]]]; [rewrite nth_error_upd_neq by congruence; apply nth_error_upd_eq; lia|apply nth_error_upd_eq; rewrite upd_length; lia].
    + intros k Hk. rewrite !nth_error_upd_neq; [reflexivity| |]; intros E; apply Hk; [now left|right; now left].
  - assert (H3 : 3 <= length front) by (destruct front as [|? [|? [|]]]; cbn in *; try congruence; lia). rewrite pick_ok by exact Hlt. cbn [bind].
    destruct (crowding_ok srt (map (pnt F) front) M C) as (cds & Ecd & Lcd & CS); [rewrite map_length; lia|exact HM|apply uniform_map_pnt; assumption|]. rewrite map_length in Lcd. rewrite Ecd. cbn [bind]. rewrite Lcd.
    assert (HB : forall i, In i front -> i < length cd) by (intros i Hi; rewrite L; auto). rewrite (spacing_loop front cds (length front) 0 cd); [|lia|lia|exact HB].
    destruct (crowd_fill_fold front cds (length front) cd ND (Nat.le_refl _) HB) as (L' & H1 & H2). eexists. split; [reflexivity|]. split; [rewrite L'; exact L|]. split; [split; [lia|]|exact H2].
    intros _. exists cds. split; [exact CS|]. intros k i Ei. assert (k < length front) by (apply nth_error_Some; congruence). rewrite (H1 k i) by assumption. symmetry. apply nth_error_nth'. lia.
Qed.
Lemma nsga2_crowd_all srt F M : sort_contract srt -> uniform F M -> 2 <= M ->
  forall fronts cd, length cd = length F -> NoDup (concat fronts) -> (forall i, In i (concat fronts) -> i < length F) -> (forall f, In f fronts -> f <> []) ->
  exists cd', mfold (nsga2_crowd srt F) cd fronts = Ok cd' /\ length cd' = length F /\ (forall f, In f fronts -> front_spacing M F f cd') /\ (forall i, ~ In i (concat fronts) -> nth_error cd' i = nth_error cd i).
Proof.
  intros C U HM. induction fronts as [|f fronts IH]; intros cd L ND Hlt Hne.
  - exists cd. cbn. repeat split; auto; contradiction.
  - cbn [mfold concat]. cbn in ND, Hlt. destruct (nsga2_crowd_ok srt F M cd f C U HM L) as (c1 & E1 & L1 & F1 & O1); [eapply NoDup_app_l; exact ND|intros i Hi; apply Hlt, in_or_app; auto|apply Hne; now left|].
    rewrite E1. cbn [bind]. destruct (IH c1 L1) as (c2 & E2 & L2 & F2 & O2); [eapply NoDup_app_r; exact ND|intros i Hi; apply Hlt, in_or_app; auto|intros g Hg; apply Hne; now right|].
    exists c2. split; [exact E2|]. split; [exact L2|]. split.
    + intros g [<-|Hg]; [|auto]. assert (SM : forall i, In i f -> nth_error c2 i = nth_error c1 i) by (intros i Hi; apply O2; intros Hi2; eapply NoDup_app_disj; eassumption). destruct F1 as [A B]. split.
      * intros H i Hi. rewrite SM by exact Hi. auto.
      * intros H. destruct (B H) as (cds & CS & K). exists cds. split; [exact CS|]. intros k i Ei. rewrite SM by (eapply nth_error_In; exact Ei). auto.
    + intros i Hi. rewrite O2, O1; [reflexivity| |]; intros K; apply Hi, in_or_app; auto.
Qed.
Lemma nsga2_ranking_ok srt F M : sort_contract srt -> uniform F M -> 2 <= M -> 2 <= length F ->
  exists fronts rank cd, nsga2_ranking srt F = Ok (rank, cd) /\ front_decomposition F fronts /\ rank_ok F fronts rank /\ length cd = length F /\ forall f, In f fronts -> front_spacing M F f cd.
Proof.
  intros C U HM HN. unfold nsga2_ranking. destruct (fnds_ok F M U HN) as (t & -> & FD & RK & _ & _). cbn [bind].
  destruct (nsga2_crowd_all srt F M C U HM (fr_fronts t) (repeat dzero (length F))) as (cd & -> & Lc & FC & _).
  - apply repeat_length.
  - eapply Permutation_NoDup; [apply (fd_perm _ _ FD)|apply seq_NoDup].
  - intros i H. eapply Permutation_in in H; [|apply Permutation_sym, (fd_perm _ _ FD)]. apply in_seq in H; lia.
  - apply (fd_nonempty _ _ FD).
  - cbn [bind]. exists (fr_fronts t), (fr_rank t), cd. auto.
Qed.
