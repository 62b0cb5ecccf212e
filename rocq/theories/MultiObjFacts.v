(** Correctness of the remaining multi-objective utilities. *)
From Coq Require Import List Bool Arith ZArith Lia Permutation Sorting.Sorted.
From Verif Require Import Dbl Outcome StdSort BaseFacts Compare MultiObj SpecOrder SpecMultiObj CompareFacts DominanceFacts FndsFacts.
Import ListNotations.

(** ** fast_non_dominated_sorting in specification terms *)

Lemma nodup_concat_unique (ll : list (list nat)) i k m :
  NoDup (concat ll) -> In i (nth k ll []) -> In i (nth m ll []) -> k = m.
Proof.
  revert k m. induction ll as [|l ll IH]; intros k m ND Hk Hm.
  - destruct k; contradiction.
  - simpl in ND.
    assert (Hdis : forall x, In x l -> In x (concat ll) -> False).
    { intros x H1 H2. clear - ND H1 H2. induction l as [|y l IHl]; [contradiction|].
      simpl in ND. inversion ND; subst. destruct H1 as [->|H1]; [|auto]. apply H3, in_or_app; auto. }
    assert (NoDup (concat ll)).
    { clear - ND. induction l; [exact ND|]. simpl in ND. inversion ND; auto. }
    assert (G : forall n, In i (nth n ll []) -> In i (concat ll)).
    { intros n Hn. apply in_nth_concat. exists n. split; [|exact Hn].
      destruct (lt_dec n (length ll)); [assumption|]. rewrite nth_overflow in Hn by lia. contradiction. }
    destruct k as [|k], m as [|m]; simpl in *; auto.
    + exfalso; eauto.
    + exfalso; eauto.
Qed.

Lemma fnds_ok pts M : uniform pts M -> 2 <= length pts -> exists r,
  fast_non_dominated_sorting pts = Ok r /\ front_decomposition pts (fr_fronts r) /\
  rank_ok pts (fr_fronts r) (fr_rank r) /\ dom_list_ok pts (fr_dom_list r) /\ dom_count_ok pts (fr_dom_count r).
Proof.
  intros U HN. destruct (fnds_correct pts M U HN) as (r & E & P & Hne & Hk & Hup & L1 & L2 & L3 & Hdl & Hdc).
  exists r. split; [exact E|].
  assert (Hall : forall i, i < length pts -> exists k, In i (nth k (fr_fronts r) [])).
  { intros i Hi. assert (In i (concat (fr_fronts r))).
    { eapply Permutation_in; [exact P|]. apply in_seq; lia. }
    apply in_nth_concat in H. destruct H as (k & _ & H). eauto. }
  assert (Hlt : forall k i, In i (nth k (fr_fronts r) []) -> i < length pts).
  { intros k i Hi. assert (In i (seq 0 (length pts))).
    { eapply Permutation_in; [apply Permutation_sym; exact P|]. apply in_nth_concat. exists k. split; [|exact Hi].
      destruct (lt_dec k (length (fr_fronts r))); [assumption|]. rewrite nth_overflow in Hi by lia. contradiction. }
    apply in_seq in H. lia. }
  split; [|split; [|split]].
  - constructor; auto.
    + intros i. split.
      * intros Hi. split; [eapply Hlt; exact Hi|]. intros j Dj.
        destruct (proj1 (Hk 0 i Hi) j Dj) as (m & Hm & _). lia.
      * intros [Hi Hnd]. destruct (Hall i Hi) as ([|k] & Hki); [exact Hki|].
        destruct (Hup k i Hki) as (j & _ & Dj). exfalso. exact (Hnd j Dj).
    + intros k i j Hi Dj. exact (proj1 (Hk k i Hi) j Dj).
  - split; [exact L1|]. intros i k. split.
    + intros Hr. assert (Hi : i < length pts) by (rewrite <- L1; apply nth_error_Some; congruence).
      destruct (Hall i Hi) as (k' & Hk'). pose proof (proj2 (Hk k' i Hk')). congruence.
    + intros Hi. exact (proj2 (Hk k i Hi)).
  - split; [exact L2|]. intros i l Hl.
    assert (Hi : i < length pts) by (rewrite <- L2; apply nth_error_Some; congruence).
    rewrite Hdl in Hl by exact Hi. inversion Hl; subst l. split.
    + apply NoDup_filter, seq_NoDup.
    + intros j. rewrite filter_In, in_seq. split.
      * intros [Hj Dj]. apply (D_spec pts M U i j); auto; lia.
      * intros Dj. pose proof (dom_idx_lt _ _ _ Dj) as [_ Hj]. split; [lia|].
        apply (D_spec pts M U i j); auto.
  - split; [exact L3|]. intros i c Hc.
    assert (Hi : i < length pts) by (rewrite <- L3; apply nth_error_Some; congruence).
    rewrite Hdc in Hc by exact Hi. inversion Hc; subst c.
    exists (filter (fun b => domb (pnt pts b) (pnt pts i)) (seq 0 (length pts))).
    split; [apply NoDup_filter, seq_NoDup|]. split; [|reflexivity].
    intros j. rewrite filter_In, in_seq. split.
    + intros [Hj Dj]. apply (D_spec pts M U j i); auto; lia.
    + intros Dj. pose proof (dom_idx_lt _ _ _ Dj) as [Hj _]. split; [lia|].
      apply (D_spec pts M U j i); auto.
Qed.

(** The decomposition is unique, so "the front of a point" is well defined. *)
Lemma front_unique pts f1 f2 : front_decomposition pts f1 -> front_decomposition pts f2 ->
  forall k i, In i (nth k f1 []) -> In i (nth k f2 []).
Proof.
  intros F1 F2.
  assert (ND : forall f, front_decomposition pts f -> NoDup (concat f)).
  { intros f F. eapply Permutation_NoDup; [apply (fd_perm _ _ F)|apply seq_NoDup]. }
  assert (All : forall f k i g, front_decomposition pts f -> front_decomposition pts g -> In i (nth k f []) -> exists m, In i (nth m g [])).
  { intros f k i g F G Hi.
    assert (In i (concat f)).
    { apply in_nth_concat. exists k. split; [|exact Hi].
      destruct (lt_dec k (length f)); [assumption|]. rewrite nth_overflow in Hi by lia. contradiction. }
    assert (In i (concat g)).
    { eapply Permutation_in; [apply (fd_perm _ _ G)|]. eapply Permutation_in; [apply Permutation_sym, (fd_perm _ _ F)|exact H]. }
    apply in_nth_concat in H0. destruct H0 as (m & _ & H0). eauto. }
  assert (G : forall k i, (In i (nth k f1 []) -> In i (nth k f2 [])) /\ (In i (nth k f2 []) -> In i (nth k f1 []))).
  { induction k as [k IH] using lt_wf_ind. 
    assert (HH : forall fa fb, front_decomposition pts fa -> front_decomposition pts fb ->
       (forall m, m < k -> forall i, In i (nth m fa []) -> In i (nth m fb [])) ->
       forall i, In i (nth k fa []) -> In i (nth k fb [])).
    { intros fa fb Fa Fb IH' i Hi. destruct (All fa k i fb Fa Fb Hi) as (k2 & Hk2).
      destruct (lt_eq_lt_dec k2 k) as [[Hlt| ->]|Hlt]; [|exact Hk2|].
      - destruct k as [|k']; [lia|].
        destruct (fd_later _ _ Fa k' i Hi) as (j & Hj & Dj).
        apply IH' in Hj; [|lia].
        destruct (fd_earlier _ _ Fb k2 i j Hk2 Dj) as (m & Hm & Hjm).
        pose proof (nodup_concat_unique fb j _ _ (ND _ Fb) Hj Hjm). lia.
      - destruct k2 as [|k2]; [lia|].
        destruct (fd_later _ _ Fb k2 i Hk2) as (j & Hj & Dj).
        destruct (fd_earlier _ _ Fa k i j Hi Dj) as (m & Hm & Hjm).
        apply IH' in Hjm; [|exact Hm].
        pose proof (nodup_concat_unique fb j _ _ (ND _ Fb) Hj Hjm). lia. }
    intros i. split.
    - apply HH; auto. intros m Hm j. apply (IH m Hm j).
    - apply HH; auto. intros m Hm j. apply (IH m Hm j). }
  intros k i. apply G.
Qed.

(** Ragged input raises, for at least two points. *)
Lemma fnds_ragged pts : 2 <= length pts -> ~ uniform pts (length (pnt pts 0)) ->
  fast_non_dominated_sorting pts = Throw InvalidArgument.
Proof.
  intros HN HU. unfold fast_non_dominated_sorting. destruct (Nat.ltb_spec (length pts) 2); [lia|].
  unfold throw_if. cbn [bind].
  set (M := length (pnt pts 0)) in *.
  (* least index of a point of a different size *)
  assert (exists i, i < length pts /\ length (pnt pts i) <> M /\ forall j, j < i -> length (pnt pts j) = M)
    as (i & Hi & Hne & Hlt).
  { assert (H0 : exists n, n <= length pts /\ ((forall j, j < n -> length (pnt pts j) = M) -> False)).
    { exists (length pts). split; [lia|]. intros C. apply HU. intros p Hp.
      apply In_nth with (d := []) in Hp. destruct Hp as (j & Hj & <-). apply C; exact Hj. }
    destruct H0 as (n & Hn & HC). induction n as [|n IH]; [exfalso; apply HC; intros; lia|].
    destruct (forallb (fun j => length (pnt pts j) =? M) (seq 0 n)) eqn:E.
    - rewrite forallb_forall in E. exists n. split; [lia|]. split.
      + intros C. apply HC. intros j Hj. destruct (Nat.eq_dec j n) as [->|]; [exact C|].
        apply Nat.eqb_eq, E, in_seq. lia.
      + intros j Hj. apply Nat.eqb_eq, E, in_seq. lia.
    - apply IH; [lia|]. intros C. assert (forallb (fun j => length (pnt pts j) =? M) (seq 0 n) = true); [|congruence].
      apply forallb_forall. intros j Hj. apply in_seq in Hj. apply Nat.eqb_eq, C. lia. }
  assert (Hi0 : 0 < i).
  { destruct i; [|lia]. exfalso. apply Hne. reflexivity. }
  replace (seq 0 (length pts)) with (seq 0 i ++ i :: seq (S i) (length pts - S i)).
  2:{ change (i :: seq (S i) (length pts - S i)) with (seq (0 + i) (S (length pts - S i))).
      rewrite <- seq_app. f_equal. lia. }
  rewrite mfold_app.
  assert (E : exists s, mfold (fnds_outer pts) {| dl := repeat [] (length pts); dc := repeat 0%Z (length pts) |} (seq 0 i) = Ok s).
  { set (s0 := {| dl := repeat [] (length pts); dc := repeat 0%Z (length pts) |}). clearbody s0. clear HU.
    assert (G : forall n s, n <= i -> exists s', mfold (fnds_outer pts) s (seq (i - n) n) = Ok s').
    { induction n as [|n IH]; intros s Hn; simpl; [eauto|].
      assert (exists s1, fnds_outer pts s (i - S n) = Ok s1) as (s1 & ->).
      { unfold fnds_outer.
        assert (G2 : forall l s, (forall j, In j l -> j < i) -> exists s', mfold (fnds_inner pts (i - S n)) s l = Ok s').
        { induction l as [|j l IHl]; intros s' Hl; simpl; [eauto|].
          unfold fnds_inner at 1.
          rewrite !pareto_dominance_ok by (rewrite !Hlt by (try (apply Hl; left; reflexivity); lia); reflexivity).
          simpl. destruct (domb _ _); [|destruct (domb _ _)]; simpl; apply IHl; intros; apply Hl; right; assumption. }
        apply G2. intros j Hj. apply in_seq in Hj. lia. }
      cbn [bind]. replace (S (i - S n)) with (i - n) by lia. apply IH. lia. }
    destruct (G i s0 (Nat.le_refl i)) as (s' & Hs'). rewrite Nat.sub_diag in Hs'. eauto. }
  destruct E as (s & ->). simpl. unfold fnds_outer at 1.
  destruct i as [|i']; [lia|]. simpl.
  unfold fnds_inner at 1. unfold pareto_dominance.
  fold M. destruct (Nat.eqb_spec (length (pnt pts (S i'))) M); [contradiction|]. reflexivity.
Qed.

(** ** non_dominated_front_2d *)

Definition lexlt (a b : vec) : bool :=
  if equal_to_f (cmpn a 0) (cmpn b 0) then less_than_f (cmpn a 1) (cmpn b 1) else less_than_f (cmpn a 0) (cmpn b 0).

Lemma equal_to_f_refl a : equal_to_f a a = true.
Proof. apply equal_to_f_spec; reflexivity. Qed.

Lemma lexlt_swo l : strict_weak_on lexlt l.
Proof.
  assert (HT : forall a b, lexlt a b = true <-> better (cmpn a 0) (cmpn b 0) \/ (cmpn a 0 = cmpn b 0 /\ better (cmpn a 1) (cmpn b 1))).
  { intros a b. unfold lexlt. destruct (equal_to_f (cmpn a 0) (cmpn b 0)) eqn:E.
    - apply equal_to_f_spec in E. rewrite less_than_f_spec. split; [auto|].
      intros [H|[_ H]]; [|exact H]. rewrite E in H. exfalso; exact (better_irrefl _ H).
    - rewrite less_than_f_spec. split; [auto|]. intros [H|[H _]]; [exact H|].
      apply equal_to_f_spec in H. congruence. }
  assert (HF : forall a b, lexlt a b = false -> lexlt b a = false -> cmpn a 0 = cmpn b 0 /\ cmpn a 1 = cmpn b 1).
  { intros a b H1 H2.
    destruct (better_total (cmpn a 0) (cmpn b 0)) as [C|[C|C]].
    - rewrite (proj2 (HT a b)) in H1 by auto. discriminate.
    - split; [exact C|]. destruct (better_total (cmpn a 1) (cmpn b 1)) as [K|[K|K]]; [|exact K|].
      + rewrite (proj2 (HT a b)) in H1 by auto. discriminate.
      + rewrite (proj2 (HT b a)) in H2 by auto. discriminate.
    - rewrite (proj2 (HT b a)) in H2 by auto. discriminate. }
  split.
  - intros a _. destruct (lexlt a a) eqn:E; [|reflexivity]. apply HT in E.
    destruct E as [E|[_ E]]; exfalso; exact (better_irrefl _ E).
  - intros a b c _ _ _. rewrite !HT. intros [H|[H H']] [K|[K K']].
    + left. eapply better_trans; eassumption.
    + left. rewrite <- K. exact H.
    + left. rewrite H. exact K.
    + right. split; [congruence|]. eapply better_trans; eassumption.
  - intros a b c _ _ _ H1 H2 H3 H4. destruct (HF a b H1 H2) as [A1 A2]. destruct (HF b c H3 H4) as [B1 B2].
    unfold lexlt. rewrite A1, A2, B1, B2, equal_to_f_refl.
    split; apply ltf_false, better_irrefl.
Qed.

Lemma dominates_lexlt a b : length a = 2 -> dominates a b -> lexlt a b = true.
Proof.
  intros La (L & NW & i & x & y & Hx & Hy & B).
  destruct a as [|a0 [|a1 [|]]]; try discriminate. destruct b as [|b0 [|b1 [|]]]; try discriminate.
  unfold lexlt, cmpn. simpl.
  pose proof (NW 0 a0 b0 eq_refl eq_refl) as N0. pose proof (NW 1 a1 b1 eq_refl eq_refl) as N1.
  destruct (equal_to_f a0 b0) eqn:E.
  - apply equal_to_f_spec in E. subst. apply less_than_f_spec.
    destruct i as [|[|i]]; simpl in Hx, Hy.
    + inversion Hx; inversion Hy; subst. exfalso; exact (better_irrefl _ B).
    + inversion Hx; inversion Hy; subst; exact B.
    + destruct i; discriminate.
  - apply less_than_f_spec. apply not_worse_iff in N0. destruct N0 as [N0|N0]; [exact N0|].
    apply equal_to_f_spec in N0. congruence.
Qed.

Lemma nd2d_flag_ok pts front i : uniform pts 2 -> i < length pts -> (forall j, In j front -> j < length pts) ->
  exists b, nd2d_flag pts front i = Ok b /\ (b = true <-> exists j, In j front /\ dom_idx pts j i).
Proof.
  intros U Hi. induction front as [|j front IH]; intros Hf; simpl.
  - exists false. split; [reflexivity|]. split; [discriminate|]. intros (j & [] & _).
  - assert (Hj : j < length pts) by (apply Hf; left; reflexivity).
    rewrite pareto_dominance_ok by (rewrite !(uniform_pnt pts 2) by assumption; reflexivity). simpl.
    destruct (domb (pnt pts j) (pnt pts i)) eqn:E.
    + exists true. split; [reflexivity|]. split; [intros _|reflexivity]. exists j. split; [auto|].
      apply (D_spec pts 2 U j i Hj Hi). exact E.
    + destruct IH as (b & -> & Hb); [intros; apply Hf; right; assumption|].
      exists b. split; [reflexivity|]. rewrite Hb. split.
      * intros (k & Hk & Dk). exists k; auto.
      * intros (k & [<-|Hk] & Dk); [|eauto]. apply (D_spec pts 2 U j i Hj Hi) in Dk. congruence.
Qed.

Lemma NoDup_snoc {A} (l : list A) x : NoDup l -> ~ In x l -> NoDup (l ++ [x]).
Proof.
  intros ND H. apply (Permutation_NoDup (l := x :: l)).
  - apply Permutation_cons_append.
  - constructor; assumption.
Qed.

Lemma nd2d_correct srt pts : sort_contract srt -> uniform pts 2 ->
  exists front, non_dominated_front_2d srt pts = Ok front /\ NoDup front /\
                forall i, In i front <-> nondominated pts i.
Proof.
  intros C U. destruct pts as [|p0 pts'] eqn:Epts.
  - exists []. split; [reflexivity|]. split; [constructor|]. intros i. split; [contradiction|].
    intros [H _]; simpl in H; lia.
  - unfold non_dominated_front_2d.
    assert (Hp0 : length p0 = 2) by (apply U; left; reflexivity). rewrite Hp0.
    rewrite <- Epts in *. clear p0 pts' Epts Hp0.
    rewrite (proj2 (all_size_spec pts 2) U). unfold throw_if. cbn [negb bind]. simpl Nat.eqb. cbn [negb bind].
    assert (SW : strict_weak_on (nd2d_cmp pts) (iota (length pts))).
    { apply (strict_weak_key lexlt (pnt pts)). apply lexlt_swo. }
    destruct (std_sort_ok srt (nd2d_cmp pts) (iota (length pts)) C SW) as (idx & -> & P & Srt).
    cbn [bind].
    assert (G : forall suf pre front, idx = pre ++ suf ->
      incl front pre -> NoDup front ->
      (forall i, In i pre -> In i front \/ exists j, In j front /\ dom_idx pts j i) ->
      (forall i j, In i front -> In j pre -> ~ dom_idx pts j i) ->
      exists front', mfold (fun front i => bind (nd2d_flag pts front i) (fun flag : bool => Ok (if flag then front else front ++ [i]))) front suf = Ok front' /\
        incl front' idx /\ NoDup front' /\
        (forall i, In i idx -> In i front' \/ exists j, In j front' /\ dom_idx pts j i) /\
        (forall i j, In i front' -> In j idx -> ~ dom_idx pts j i)).
    { induction suf as [|x suf IH]; intros pre front Hidx Hinc Hnd Hb Hc.
      - rewrite app_nil_r in Hidx; subst pre. exists front. simpl. auto.
      - assert (Hx : In x idx) by (rewrite Hidx; apply in_or_app; right; left; reflexivity).
        assert (HxN : x < length pts) by (apply (Permutation_iota_in _ _ _ P); exact Hx).
        assert (Hpre : forall j, In j pre -> j < length pts).
        { intros j Hj. apply (Permutation_iota_in _ _ _ P). rewrite Hidx. apply in_or_app; auto. }
        assert (NDidx : NoDup idx) by (eapply Permutation_NoDup; [exact P|apply iota_NoDup]).
        assert (Hxpre : ~ In x pre).
        { intros K. rewrite Hidx in NDidx. apply NoDup_remove_2 in NDidx. apply NDidx. apply in_or_app; auto. }
        assert (Hlater : forall i, In i pre -> ~ dom_idx pts x i).
        { intros i Hi Dxi. rewrite Hidx in Srt.
          pose proof (sorted_by_app _ _ _ i x Srt Hi (or_introl eq_refl)) as Hs.
          apply dom_idx_iff in Dxi; auto.
          apply dominates_lexlt in Dxi; [|apply (uniform_pnt pts 2); auto].
          change (nd2d_cmp pts x i) with (lexlt (pnt pts x) (pnt pts i)) in Hs. congruence. }
        simpl. destruct (nd2d_flag_ok pts front x U HxN) as (b & -> & Hbf).
        { intros j Hj. apply Hpre, Hinc, Hj. }
        cbn [bind]. apply (IH (pre ++ [x])).
        + rewrite <- app_assoc. exact Hidx.
        + destruct b.
          * intros j Hj. apply in_or_app; left; auto.
          * intros j Hj. apply in_app_or in Hj. apply in_or_app. destruct Hj as [Hj|Hj]; auto.
        + destruct b; [exact Hnd|]. apply NoDup_snoc; [exact Hnd|]. intros K. apply Hxpre, Hinc, K.
        + intros i Hi. apply in_app_or in Hi. destruct Hi as [Hi|[<-|[]]].
          * destruct (Hb i Hi) as [K|(j & Hj & Dj)].
            -- left. destruct b; [exact K|apply in_or_app; auto].
            -- right. exists j. split; [|exact Dj]. destruct b; [exact Hj|apply in_or_app; auto].
          * destruct b.
            -- right. apply Hbf. reflexivity.
            -- left. apply in_or_app; right; left; reflexivity.
        + intros i j Hi Hj Dji.
          assert (Hi' : In i front \/ (b = false /\ i = x)).
          { destruct b; [auto|]. apply in_app_or in Hi. destruct Hi as [Hi|[<-|[]]]; auto. }
          apply in_app_or in Hj. destruct Hi' as [Hi'|[-> ->]].
          * destruct Hj as [Hj|[<-|[]]]; [exact (Hc i j Hi' Hj Dji)|].
            exact (Hlater i (Hinc i Hi') Dji).
          * destruct Hj as [Hj|[<-|[]]]; [|exact (dom_idx_irrefl _ _ Dji)].
            assert (false = true); [|discriminate]. apply Hbf.
            destruct (Hb j Hj) as [K|(j' & K & Dj')]; [exists j; auto|].
            exists j'. split; [exact K|]. eapply dom_idx_trans; eassumption. }
    destruct (G idx [] []) as (front' & E & H1 & H2 & H3 & H4); [reflexivity| | | | |].
    { intros i []. }
    { constructor. }
    { intros i []. }
    { intros i j []. }
    exists front'. split; [exact E|]. split; [exact H2|]. intros i. split.
    + intros Hi. split; [apply (Permutation_iota_in _ _ _ P), H1, Hi|].
      intros j Dj. pose proof (dom_idx_lt _ _ _ Dj) as [Hj _].
      apply (H4 i j Hi); [|exact Dj]. apply (Permutation_iota_in _ _ _ P). exact Hj.
    + intros [Hi Hn]. destruct (H3 i) as [K|(j & _ & Dj)]; [|exact K|].
      * apply (Permutation_iota_in _ _ _ P). exact Hi.
      * exfalso. exact (Hn j Dj).
Qed.

Lemma nd2d_throws srt pts : pts <> [] -> ~ uniform pts 2 ->
  non_dominated_front_2d srt pts = Throw InvalidArgument.
Proof.
  intros Hne HU. destruct pts as [|p0 pts']; [congruence|]. unfold non_dominated_front_2d.
  destruct (all_size (length p0) (p0 :: pts')) eqn:E; unfold throw_if; cbn [negb bind]; [|reflexivity].
  destruct (Nat.eqb_spec (length p0) 2) as [E2|]; [|reflexivity].
  exfalso. apply HU. apply all_size_spec. rewrite <- E2. exact E.
Qed.
