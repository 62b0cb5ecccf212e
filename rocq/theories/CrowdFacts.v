(** Correctness of crowding_distance, select_best_N_mo, sort_population_mo, ideal
    and nadir. *)
From Coq Require Import List Bool Arith ZArith Lia Permutation Sorting.Sorted.
From Verif Require Import Dbl DblFacts Outcome StdSort BaseFacts Compare MultiObj SpecOrder SpecMultiObj CompareFacts DominanceFacts FndsFacts MultiObjFacts.
Import ListNotations.

(** ** crowding_distance *)

Lemma nth_error_upd_at {A} (f : A -> A) l i j :
  nth_error (upd_at f l i) j = if i =? j then option_map f (nth_error l j) else nth_error l j.
Proof.
  revert i j; induction l as [|h t IH]; intros [|i] [|j]; simpl; try reflexivity.
  - destruct (i =? j); reflexivity.
  - apply IH.
Qed.

Lemma crowd_fold pts i idx df n : forall ret,
  NoDup idx -> (forall k, k < 1 + n -> k < length idx) ->
  length (fold_left (crowd_step pts i idx df) (seq 1 n) ret) = length ret /\
  forall k p, nth_error idx k = Some p ->
    nth_error (fold_left (crowd_step pts i idx df) (seq 1 n) ret) p =
    if (1 <=? k) && (k <? 1 + n)
    then option_map (fun v => dadd v (ddiv (dsub (cmpn (pnt pts (nth (k + 1) idx 0)) i)
                                      (cmpn (pnt pts (nth (k - 1) idx 0)) i)) df)) (nth_error ret p)
    else nth_error ret p.
Proof.
  induction n as [|n IH]; intros ret ND Hl.
  - split; [reflexivity|]. intros k p Hk. cbn [seq fold_left].
    destruct (Nat.leb_spec 1 k), (Nat.ltb_spec k (1 + 0)); try reflexivity; lia.
  - rewrite seq_S, fold_left_app. destruct (IH ret ND) as [L H]; [intros; apply Hl; lia|].
    set (s := fold_left (crowd_step pts i idx df) (seq 1 n) ret) in *.
    cbn [fold_left]. unfold crowd_step. split; [rewrite upd_at_length; exact L|].
    intros k p Hk. rewrite nth_error_upd_at.
    assert (Hkn : k < length idx) by (apply nth_error_Some; congruence).
    assert (Hp : nth k idx 0 = p) by (apply nth_error_nth; exact Hk).
    destruct (Nat.eqb_spec (nth (1 + n) idx 0) p) as [E|E].
    + assert (k = 1 + n).
      { rewrite <- Hp in E. apply (proj1 (NoDup_nth idx 0)) in E; auto. }
      subst k. rewrite (H (1 + n) p Hk).
      destruct (Nat.leb_spec 1 (1 + n)); [|lia]. destruct (Nat.ltb_spec (1 + n) (1 + n)); [lia|].
      destruct (Nat.ltb_spec (1 + n) (1 + S n)); [|lia]. reflexivity.
    + rewrite (H k p Hk). destruct (Nat.eq_dec k (1 + n)) as [->|Hne]; [contradiction|].
      destruct (Nat.ltb_spec k (1 + n)), (Nat.ltb_spec k (1 + S n)); try reflexivity; lia.
Qed.

Lemma crowd_obj_ok srt pts i idx0 ret0 :
  sort_contract srt -> 2 <= length pts -> Permutation (iota (length pts)) idx0 ->
  length ret0 = length pts -> crowding_spec pts i ret0 ->
  exists idx ret, crowd_obj srt pts (idx0, ret0) i = Ok (idx, ret) /\
    Permutation (iota (length pts)) idx /\ length ret = length pts /\ crowding_spec pts (S i) ret.
Proof.
  intros C HN P L CS. unfold crowd_obj. cbn [fst snd].
  destruct (std_sort_ok srt (crowd_cmp pts i) idx0 C) as (idx & -> & P2 & Srt).
  { apply (ltf_key_swo (fun p => cmpn (pnt pts p) i)). }
  cbn [bind]. set (N := length pts) in *.
  assert (P3 : Permutation (iota N) idx) by (etransitivity; eassumption).
  assert (ND : NoDup idx) by (eapply Permutation_NoDup; [exact P3|apply iota_NoDup]).
  assert (Li : length idx = N) by (rewrite <- (Permutation_length P3); apply iota_length).
  set (ret1 := upd (upd ret0 (nth 0 idx 0) PInf) (nth (N - 1) idx 0) PInf).
  set (df := dsub _ _).
  destruct (crowd_fold pts i idx df (N - 2) ret1 ND) as [Lf Hf]; [intros; lia|].
  assert (Lr1 : length ret1 = N) by (unfold ret1; rewrite !upd_length; exact L).
  eexists _, _. split; [reflexivity|]. split; [exact P3|].
  assert (Lnew : length (fold_left (crowd_step pts i idx df) (seq 1 (N - 2)) ret1) = N) by lia.
  split; [exact Lnew|].
  assert (Hpos : forall k p, nth_error idx k = Some p -> nth k idx 0 = p /\ k < N /\ p < N).
  { intros k p Hk. split; [apply nth_error_nth; exact Hk|].
    split; [rewrite <- Li; apply nth_error_Some; congruence|].
    apply (Permutation_iota_in _ _ _ P3). eapply nth_error_In; exact Hk. }
  apply crowding_next with (old := ret0) (idx := idx); auto.
  - intros a b p q Hab Ha Hb. pose proof (sorted_by_nth _ _ _ _ _ _ Srt Hab Ha Hb) as Hs.
    unfold crowd_cmp in Hs. apply ltf_false in Hs. exact Hs.
  - intros p Hp. destruct (Hpos 0 p Hp) as (E0 & _ & HpN). rewrite (Hf 0 p Hp). simpl.
    unfold ret1. rewrite E0. destruct (Nat.eq_dec (nth (N - 1) idx 0) p) as [E|E].
    + rewrite E. apply nth_error_upd_eq. rewrite upd_length. lia.
    + rewrite nth_error_upd_neq by exact E. apply nth_error_upd_eq. lia.
  - intros p Hp. destruct (Hpos (N - 1) p Hp) as (E0 & _ & HpN). rewrite (Hf (N - 1) p Hp).
    destruct (Nat.ltb_spec (N - 1) (1 + (N - 2))); [lia|]. rewrite andb_false_r.
    unfold ret1. rewrite E0. apply nth_error_upd_eq. rewrite upd_length. lia.
  - intros k lo prv p nxt hi o Hk Hlo Hhi Hprv Hp Hnxt Ho.
    rewrite (Hf (k + 1) p Hp).
    fold N in Hk, Hhi.
    destruct (Nat.leb_spec 1 (k + 1)); [|lia]. destruct (Nat.ltb_spec (k + 1) (1 + (N - 2))); [|lia].
    cbn [andb].
    replace (k + 1 + 1) with (k + 2) by lia. replace (k + 1 - 1) with k by lia.
    rewrite (proj1 (Hpos _ _ Hprv)), (proj1 (Hpos _ _ Hnxt)).
    unfold df. rewrite (proj1 (Hpos _ _ Hlo)), (proj1 (Hpos _ _ Hhi)).
    unfold ret1. rewrite (proj1 (Hpos _ _ Hlo)), (proj1 (Hpos _ _ Hhi)).
    assert (hi <> p).
    { intros ->. rewrite <- Hp in Hhi. apply (proj1 (NoDup_nth_error idx) ND) in Hhi; lia. }
    assert (lo <> p).
    { intros ->. rewrite <- Hp in Hlo. apply (proj1 (NoDup_nth_error idx) ND) in Hlo; lia. }
    rewrite !nth_error_upd_neq by assumption. rewrite Ho. reflexivity.
Qed.

Lemma crowding_ok srt pts M : sort_contract srt -> 2 <= length pts -> 2 <= M -> uniform pts M ->
  exists r, crowding_distance srt pts = Ok r /\ length r = length pts /\ crowding_spec pts M r.
Proof.
  intros C HN HM U. unfold crowding_distance.
  destruct (Nat.ltb_spec (length pts) 2); [lia|]. unfold throw_if. cbn [bind].
  rewrite (uniform_pnt pts M 0 U) by lia. destruct (Nat.ltb_spec M 2); [lia|]. cbn [bind].
  rewrite (proj2 (all_size_spec pts M) U). cbn [negb bind].
  assert (G : forall m, m <= M -> exists idx ret,
     mfold (crowd_obj srt pts) (iota (length pts), repeat dzero (length pts)) (seq 0 m) = Ok (idx, ret) /\
     Permutation (iota (length pts)) idx /\ length ret = length pts /\ crowding_spec pts m ret).
  { induction m as [|m IH]; intros Hm.
    - exists (iota (length pts)), (repeat dzero (length pts)). simpl. split; [reflexivity|].
      split; [reflexivity|]. split; [apply repeat_length|]. constructor.
    - destruct IH as (idx & ret & E & P & L & CS); [lia|].
      rewrite seq_S, mfold_app, E. cbn [bind mfold Nat.add].
      destruct (crowd_obj_ok srt pts m idx ret C HN P L CS) as (idx' & ret' & E' & H').
      rewrite E'. cbn [bind]. eauto. }
  destruct (G M (Nat.le_refl M)) as (idx & ret & -> & _ & L & CS). cbn [bind snd]. eauto.
Qed.

Lemma crowding_nonneg pts M : 2 <= length pts -> regular_front pts M ->
  forall m r, crowding_spec pts m r -> m <= M ->
    (forall p v, nth_error r p = Some v -> nonneg v) /\
    (forall j, j < m -> exists a b, nth_error r a = Some PInf /\ nth_error r b = Some PInf /\
        a < length pts /\ b < length pts /\
        (forall p, p < length pts -> not_worse (val pts a j) (val pts p j) /\ not_worse (val pts p j) (val pts b j))).
Proof.
  intros HN R m r CS. induction CS as [|j old new idx CS IH P Asc Ln H0 H1 Hmid]; intros Hm.
  - split; [|intros; lia]. intros p v Hp. apply nth_error_In in Hp. apply repeat_spec in Hp. subst. reflexivity.
  - destruct (IH ltac:(lia)) as [IHn IHj]. clear IH.
    destruct (R j ltac:(lia)) as [Fin_ (pa & pb & Hpa & Hpb & Hdiff)].
    set (N := length pts) in *.
    assert (Li : length idx = N) by (rewrite <- (Permutation_length P); apply seq_length).
    assert (ND : NoDup idx) by (eapply Permutation_NoDup; [exact P|apply seq_NoDup]).
    assert (Hin : forall p, p < N -> exists k, k < N /\ nth_error idx k = Some p).
    { intros p Hp. assert (In p idx) by (eapply Permutation_in; [exact P|apply in_seq; lia]).
      apply In_nth_error in H. destruct H as (k & Hk). exists k. split; [|exact Hk].
      rewrite <- Li. apply nth_error_Some. congruence. }
    assert (HltN : forall k p, nth_error idx k = Some p -> p < N).
    { intros k p Hk. apply nth_error_In in Hk. eapply Permutation_in in Hk; [|apply Permutation_sym; exact P].
      apply in_seq in Hk. lia. }
    destruct (nth_error idx 0) as [lo|] eqn:Elo; [|apply nth_error_None in Elo; lia].
    destruct (nth_error idx (N - 1)) as [hi|] eqn:Ehi; [|apply nth_error_None in Ehi; lia].
    assert (Hext : forall p, p < N -> not_worse (val pts lo j) (val pts p j) /\ not_worse (val pts p j) (val pts hi j)).
    { intros p Hp. destruct (Hin p Hp) as (k & Hk & Ek). split.
      - destruct (Nat.eq_dec k 0) as [->|]; [rewrite Elo in Ek; inversion Ek; apply not_worse_refl|].
        eapply Asc; [|exact Elo|exact Ek]. lia.
      - destruct (Nat.eq_dec k (N - 1)) as [->|]; [rewrite Ehi in Ek; inversion Ek; apply not_worse_refl|].
        eapply Asc; [|exact Ek|exact Ehi]. lia. }
    destruct (Fin_ lo (HltN _ _ Elo)) as (zlo & Vlo & Blo). destruct (Fin_ hi (HltN _ _ Ehi)) as (zhi & Vhi & Bhi).
    assert (Hlt : (zlo < zhi)%Z).
    { destruct (Hext pa Hpa) as [A1 A2]. destruct (Hext pb Hpb) as [B1 B2].
      destruct (Fin_ pa Hpa) as (za & Va & _). destruct (Fin_ pb Hpb) as (zb & Vb & _).
      rewrite Va, Vlo, ?Vhi in *. rewrite Vb, ?Vlo, ?Vhi in *.
      unfold not_worse, better, num_lt in *. destruct (Z.lt_trichotomy zlo zhi) as [|[E|]]; [assumption| |];
      exfalso; apply Hdiff; f_equal; lia. }
    assert (Hdf : exists z, dsub (val pts hi j) (val pts lo j) = Fin z /\ (0 < z)%Z).
    { rewrite Vlo, Vhi. apply dsub_pos_finite; [exact Hlt|].
      change (2 ^ 2097)%Z with (2 * 2 ^ 2096)%Z. lia. }
    destruct Hdf as (zd & Hdf & Hzd).
    (* what happens to each point *)
    assert (Hpt : forall p, p < N -> exists o v, nth_error old p = Some o /\ nth_error new p = Some v /\
                   nonneg v /\ (o = PInf -> v = PInf)).
    { intros p Hp. destruct (Hin p Hp) as (k & Hk & Ek).
      assert (Lo : length old = N).
      { clear - CS. destruct CS; [apply repeat_length|assumption]. }
      destruct (nth_error old p) as [o|] eqn:Eo; [|apply nth_error_None in Eo; lia].
      destruct (Nat.eq_dec k 0) as [->|Hk0].
      { exists o, PInf. rewrite Elo in Ek. inversion Ek; subst. rewrite (H0 p eq_refl). repeat split; auto. }
      destruct (Nat.eq_dec k (N - 1)) as [->|HkN].
      { exists o, PInf. rewrite Ehi in Ek. inversion Ek; subst. rewrite (H1 p eq_refl). repeat split; auto. }
      destruct (nth_error idx (k - 1)) as [prv|] eqn:Eprv; [|apply nth_error_None in Eprv; lia].
      destruct (nth_error idx (k + 1)) as [nxt|] eqn:Enxt; [|apply nth_error_None in Enxt; lia].
      assert (Hg : nonneg (ddiv (dsub (val pts nxt j) (val pts prv j)) (Fin zd))).
      { apply ddiv_nonneg; [|exact Hzd].
        destruct (Fin_ nxt (HltN _ _ Enxt)) as (zn & Vn & _). destruct (Fin_ prv (HltN _ _ Eprv)) as (zp & Vp & _).
        assert (A : not_worse (val pts prv j) (val pts nxt j)) by (eapply Asc; [|exact Eprv|exact Enxt]; lia).
        rewrite Vn, Vp in *. apply dsub_nonneg. unfold not_worse, better, num_lt in A. lia. }
      eexists o, _. split; [reflexivity|]. split.
      - apply (Hmid (k - 1) lo prv p nxt hi o); auto; try lia.
        + replace (k - 1 + 1) with k by lia. exact Ek.
        + replace (k - 1 + 2) with (k + 1) by lia. exact Enxt.
      - rewrite Hdf. split.
        + apply dadd_nonneg; [|exact Hg]. eapply IHn; exact Eo.
        + intros ->. apply dadd_PInf_l; exact Hg. }
    split.
    + intros p v Hv. assert (Hp : p < N) by (rewrite <- Ln; apply nth_error_Some; congruence).
      destruct (Hpt p Hp) as (o & v' & _ & Ev & Hnn & _). rewrite Hv in Ev. inversion Ev; subst. exact Hnn.
    + intros j' Hj'. destruct (Nat.eq_dec j' j) as [->|Hne].
      * exists lo, hi. repeat split; auto; try (eapply HltN; eassumption); apply Hext; assumption.
      * destruct (IHj j' ltac:(lia)) as (a & b & Ha & Hb & HaN & HbN & Hab).
        exists a, b. repeat split; auto; try (apply Hab; assumption).
        -- destruct (Hpt a HaN) as (o & v & Eo & Ev & _ & Hi). rewrite Ha in Eo. inversion Eo; subst o.
           rewrite (Hi eq_refl) in Ev. exact Ev.
        -- destruct (Hpt b HbN) as (o & v & Eo & Ev & _ & Hi). rewrite Hb in Eo. inversion Eo; subst o.
           rewrite (Hi eq_refl) in Ev. exact Ev.
Qed.

(** ** select_best_N_mo *)

Lemma fill_fronts_spec N fronts : forall ret fid,
  length ret < N -> N < length ret + length (concat fronts) ->
  exists done rest, fronts = done ++ rest /\
    ((fill_fronts N fronts ret fid = (ret ++ concat done, fid + length done - 1, true) /\ length (ret ++ concat done) = N /\ done <> []) \/
     (exists front rest', rest = front :: rest' /\
      fill_fronts N fronts ret fid = (ret ++ concat done, fid + length done, false) /\
      length (ret ++ concat done) < N /\ N < length (ret ++ concat done) + length front)).
Proof.
  induction fronts as [|f fronts IH]; intros ret fid H1 H2; simpl in *; [lia|].
  destruct (Nat.leb_spec (length ret + length f) N) as [Hle|Hgt].
  - destruct (Nat.eqb_spec (length (ret ++ f)) N) as [E|E].
    + exists [f], fronts. split; [reflexivity|]. left. simpl. rewrite app_nil_r.
      split; [f_equal; f_equal; lia|]. split; [exact E|discriminate].
    + destruct (IH (ret ++ f) (fid + 1)) as (done & rest & -> & H).
      * rewrite app_length in *. lia.
      * rewrite app_length in *. lia.
      * exists (f :: done), rest. split; [reflexivity|].
        destruct H as [(H & K & Hd)|(front & rest' & Hr & H & K)].
        -- left. simpl. rewrite <- app_assoc in H, K. split; [rewrite H; f_equal; f_equal; destruct done; [congruence|simpl; lia]|].
           split; [exact K|discriminate].
        -- right. exists front, rest'. split; [exact Hr|]. simpl. rewrite <- app_assoc in H, K.
           split; [rewrite H; f_equal; f_equal; lia|exact K].
  - exists [], (f :: fronts). split; [reflexivity|]. right. exists f, fronts. split; [reflexivity|].
    simpl. rewrite app_nil_r. split; [f_equal; f_equal; lia|lia].
Qed.

Lemma mmap_take {A} (l : list A) (g : nat -> outcome A) n :
  n <= length l -> (forall i, i < n -> g i = vget l i) -> mmap g (seq 0 n) = Ok (firstn n l).
Proof.
  intros Hn Hg.
  assert (G : forall m s l', m <= length l' -> (forall i, i < m -> g (s + i) = vget l' i) -> mmap g (seq s m) = Ok (firstn m l')).
  { induction m as [|m IH]; intros s l' Hm Hg'; [reflexivity|].
    destruct l' as [|x l']; [simpl in Hm; lia|]. simpl.
    pose proof (Hg' 0 ltac:(lia)) as E. rewrite Nat.add_0_r in E. rewrite E. simpl.
    rewrite (IH (S s) l').
    - reflexivity.
    - simpl in Hm; lia.
    - intros i Hi. specialize (Hg' (S i) ltac:(lia)). replace (S s + i) with (s + S i) by lia. exact Hg'. }
  apply (G n 0 l); auto.
Qed.

Lemma uniform_map_pnt pts M f : uniform pts M -> (forall i, In i f -> i < length pts) -> uniform (map (pnt pts) f) M.
Proof. intros U H p Hp. apply in_map_iff in Hp. destruct Hp as (i & <- & Hi). apply (uniform_pnt pts M); auto. Qed.

Lemma select_best_ok srt pts M N : sort_contract srt -> uniform pts M -> 2 <= M ->
  exists sel, select_best_N_mo srt pts N = Ok sel /\ best_N_selection M pts N sel.
Proof.
  intros C U HM. unfold select_best_N_mo.
  destruct (Nat.eqb_spec N 0) as [->|HN0].
  { exists []. split; [reflexivity|]. repeat split; [constructor|intros i []|intros fronts ki kj i j _ []|intros fronts k i j _ []]. }
  destruct (Nat.eqb_spec (length pts) 0) as [E0|E0].
  { exists []. split; [reflexivity|]. repeat split; [constructor|intros i []|rewrite E0; simpl; lia|intros fronts ki kj i j _ []|intros fronts k i j _ []]. }
  destruct (Nat.eqb_spec (length pts) 1) as [E1|E1].
  { exists [0]. split; [reflexivity|].
    split; [repeat constructor; intros []|]. split; [intros i [<-|[]]; lia|]. split; [rewrite E1; simpl; lia|]. split.
    - intros fronts ki kj i j _ [<-|[]] Hj Hn. exfalso. apply Hn. left. lia.
    - intros fronts k i j _ [<-|[]] Hj Hn. exfalso. apply Hn. left. lia. }
  destruct (Nat.leb_spec (length pts) N) as [Hle|Hgt].
  { exists (iota (length pts)). split; [reflexivity|].
    split; [apply iota_NoDup|]. split; [intros i; apply in_iota|]. split; [rewrite iota_length; lia|]. split.
    - intros fronts ki kj i j _ _ Hj Hn. exfalso. apply Hn. apply in_iota; exact Hj.
    - intros fronts k i j _ _ Hj Hn. exfalso. apply Hn. apply in_iota; exact Hj. }
  destruct (fnds_ok pts M U ltac:(lia)) as (r & -> & FD & RK & _ & _). cbn [bind].
  assert (Lc : length (concat (fr_fronts r)) = length pts).
  { rewrite <- (Permutation_length (fd_perm _ _ FD)). apply seq_length. }
  assert (NDc : NoDup (concat (fr_fronts r))).
  { eapply Permutation_NoDup; [apply (fd_perm _ _ FD)|apply seq_NoDup]. }
  assert (Hlt : forall i, In i (concat (fr_fronts r)) <-> i < length pts).
  { intros i. split; intros H.
    - eapply Permutation_in in H; [|apply Permutation_sym, (fd_perm _ _ FD)]. apply in_seq in H; lia.
    - eapply Permutation_in; [apply (fd_perm _ _ FD)|]. apply in_seq; lia. }
  destruct (fill_fronts_spec N (fr_fronts r) [] 0) as (done & rest & Efr & H); [simpl; lia|simpl; lia|].
  assert (Hfd : forall k i, In i (nth k done []) -> In i (nth k (fr_fronts r) [])).
  { intros k i Hi. rewrite Efr. destruct (lt_dec k (length done)).
    - rewrite app_nth1 by assumption. exact Hi.
    - rewrite nth_overflow in Hi by lia. contradiction. }
  (* a point outside the whole fronts taken is in a front of index >= length done *)
  assert (Hge : forall j k, ~ In j (concat done) -> In j (nth k (fr_fronts r) []) -> length done <= k).
  { intros j k Hn Hj. destruct (le_lt_dec (length done) k); [assumption|]. exfalso. apply Hn.
    rewrite Efr, app_nth1 in Hj by assumption. apply in_nth_concat. eauto. }
  assert (Hlt2 : forall i k, In i (concat done) -> In i (nth k (fr_fronts r) []) -> k < length done).
  { intros i k Hi Hk. apply in_nth_concat in Hi. destruct Hi as (m & Hm & Hi).
    rewrite (nodup_concat_unique (fr_fronts r) i k m NDc Hk (Hfd m i Hi)). exact Hm. }
  destruct H as [(Hfill & HL & Hdne)|(front & rest' & -> & Hfill & HL1 & HL2)].
  - rewrite Hfill. simpl in HL |- *. exists (concat done). split; [reflexivity|].
    assert (ND : NoDup (concat done)).
    { rewrite Efr, concat_app in NDc. eapply NoDup_app_l; exact NDc. }
    assert (Hs : forall i, In i (concat done) -> i < length pts).
    { intros i Hi. apply Hlt. rewrite Efr, concat_app. apply in_or_app; auto. }
    assert (Hlt3 : forall fronts ki kj i j, front_decomposition pts fronts -> In i (concat done) -> ~ In j (concat done) ->
       In i (nth ki fronts []) -> In j (nth kj fronts []) -> ki < kj).
    { intros fronts ki kj i j F Hi Hn Hik Hjk.
      apply (front_unique pts _ _ F FD) in Hik. apply (front_unique pts _ _ F FD) in Hjk.
      pose proof (Hlt2 i ki Hi Hik). pose proof (Hge j kj Hn Hjk). lia. }
    split; [exact ND|]. split; [exact Hs|]. split; [lia|]. split.
    + intros fronts ki kj i j F Hi Hj Hn Hik Hjk. pose proof (Hlt3 fronts ki kj i j F Hi Hn Hik Hjk). lia.
    + intros fronts k i j F Hi Hj Hn Hik Hjk. pose proof (Hlt3 fronts k k i j F Hi Hn Hik Hjk). lia.
  - rewrite Hfill. simpl in HL1, HL2 |- *.
    assert (Efront : nth_error (fr_fronts r) (length done) = Some front).
    { rewrite Efr, nth_error_app2, Nat.sub_diag by lia. reflexivity. }
    assert (Efront' : nth (length done) (fr_fronts r) [] = front) by (apply nth_error_nth; exact Efront).
    unfold vget at 1. rewrite Efront. cbn [bind].
    assert (Hfs : forall i, In i front -> i < length pts).
    { intros i Hi. apply Hlt. rewrite Efr, concat_app. apply in_or_app; right. simpl. apply in_or_app; auto. }
    assert (Hf2 : 2 <= length front) by lia.
    destruct (crowding_ok srt (map (pnt pts) front) M C) as (cds & Ecd & Lcd & CS).
    { rewrite map_length; exact Hf2. } { exact HM. } { apply uniform_map_pnt; assumption. }
    rewrite map_length in Lcd. rewrite Ecd. cbn [bind].
    destruct (std_sort_ok srt (fun a b => greater_than_f (cmpn cds a) (cmpn cds b)) (iota (length front)) C)
      as (idxs & -> & P & Srt).
    { apply (gtf_key_swo (fun a => cmpn cds a)). }
    cbn [bind].
    set (R := N - length (concat done)).
    assert (Li : length idxs = length front) by (rewrite <- (Permutation_length P); apply iota_length).
    assert (NDi : NoDup idxs) by (eapply Permutation_NoDup; [exact P|apply iota_NoDup]).
    assert (Hil : forall k, In k idxs <-> k < length front) by (intros k; apply (Permutation_iota_in _ _ _ P)).
    (* the selected part is the first R of the re-ordered front *)
    set (srtd := map (fun k => nth k front 0) idxs).
    assert (Emm : mmap (fun i => bind (vget idxs i) (fun k => vget front k)) (seq 0 R) = Ok (firstn R srtd)).
    { apply mmap_take; [unfold srtd; rewrite map_length; unfold R; lia|].
      intros i Hi. unfold vget. unfold srtd.
      destruct (nth_error idxs i) as [k|] eqn:Ek; [|apply nth_error_None in Ek; unfold R in Hi; lia].
      cbn [bind]. rewrite (map_nth_error _ _ _ Ek).
      rewrite (nth_error_nth' front 0); [reflexivity|]. apply Hil. eapply nth_error_In; exact Ek. }
    rewrite Emm. cbn [bind]. exists (concat done ++ firstn R srtd). split; [reflexivity|].
    assert (NDs : NoDup srtd).
    { unfold srtd. apply NoDup_nth_error. intros a b Ha Eab. rewrite map_length in Ha.
      rewrite !nth_error_map in Eab.
      destruct (nth_error idxs a) as [x|] eqn:Ea; [|apply nth_error_None in Ea; lia].
      destruct (nth_error idxs b) as [y|] eqn:Eb; [|discriminate].
      simpl in Eab. inversion Eab as [Exy].
      assert (NDf : NoDup front).
      { rewrite Efr, concat_app in NDc. apply NoDup_app_r in NDc. simpl in NDc. eapply NoDup_app_l; exact NDc. }
      assert (Hx : x < length front) by (apply Hil; eapply nth_error_In; exact Ea).
      assert (Hy : y < length front) by (apply Hil; eapply nth_error_In; exact Eb).
      apply (proj1 (NoDup_nth front 0) NDf) in Exy; auto. subst y.
      apply (proj1 (NoDup_nth_error idxs) NDi); [lia|congruence]. }
    assert (Hsf : forall i, In i srtd <-> In i front).
    { intros i. unfold srtd. rewrite in_map_iff. split.
      - intros (k & <- & Hk). apply nth_In, Hil, Hk.
      - intros Hi. apply In_nth with (d := 0) in Hi. destruct Hi as (k & Hk & <-). exists k. split; [reflexivity|].
        apply Hil; exact Hk. }
    assert (Hff : forall i, In i (firstn R srtd) -> In i front).
    { intros i Hi. apply Hsf. rewrite <- (firstn_skipn R srtd). apply in_or_app; auto. }
    assert (Ls : length srtd = length front) by (unfold srtd; rewrite map_length; exact Li).
    assert (Hdisj : forall i, In i (concat done) -> In i front -> False).
    { intros i H1 H2. rewrite Efr, concat_app in NDc. eapply NoDup_app_disj; [exact NDc|exact H1|].
      simpl. apply in_or_app; auto. }
    assert (Hk0 : forall i k, In i (concat done ++ firstn R srtd) -> In i (nth k (fr_fronts r) []) -> k <= length done).
    { intros i k Hi Hik. apply in_app_or in Hi. destruct Hi as [Hi|Hi].
      - pose proof (Hlt2 i k Hi Hik). lia.
      - apply Hff in Hi. rewrite <- Efront' in Hi.
        rewrite (nodup_concat_unique (fr_fronts r) i k (length done) NDc Hik Hi). lia. }
    assert (Hcn : forall j, ~ In j (concat done ++ firstn R srtd) -> ~ In j (concat done)).
    { intros j Hn Hj. apply Hn. apply in_or_app; auto. }
    split; [|split; [|split; [|split]]].
      * apply NoDup_app_intro.
        -- rewrite Efr, concat_app in NDc. eapply NoDup_app_l; exact NDc.
        -- eapply NoDup_app_l. rewrite (firstn_skipn R srtd). exact NDs.
        -- intros i H1 H2. apply Hff in H2. eauto.
      * intros i Hi. apply in_app_or in Hi. destruct Hi as [Hi|Hi]; [|auto].
        apply Hlt. rewrite Efr, concat_app. apply in_or_app; auto.
      * rewrite app_length, firstn_length. unfold R. lia.
      * intros fronts ki kj i j F Hi Hj Hn Hik Hjk.
        apply (front_unique pts _ _ F FD) in Hik. apply (front_unique pts _ _ F FD) in Hjk.
        pose proof (Hk0 i ki Hi Hik). pose proof (Hge j kj (Hcn j Hn) Hjk). lia.
      * intros fronts k i j F Hi Hj Hn Hik Hjk.
      pose proof (front_unique pts _ _ F FD _ _ Hik) as Hik'. pose proof (front_unique pts _ _ F FD _ _ Hjk) as Hjk'.
      pose proof (Hk0 i k Hi Hik'). pose proof (Hge j k (Hcn j Hn) Hjk').
      assert (k = length done) by lia. subst k. rewrite Efront' in Hik', Hjk'.
      assert (Hi2 : In i (firstn R srtd)).
      { apply in_app_or in Hi. destruct Hi as [Hi|Hi]; [exfalso; eauto|exact Hi]. }
      assert (Hj2 : In j (skipn R srtd)).
      { apply Hsf in Hjk'. rewrite <- (firstn_skipn R srtd) in Hjk'. apply in_app_or in Hjk'.
        destruct Hjk' as [K|K]; [|exact K]. exfalso. apply Hn. apply in_or_app; auto. }
      unfold srtd in Hi2, Hj2. rewrite firstn_map in Hi2. rewrite skipn_map in Hj2.
      apply in_map_iff in Hi2. destruct Hi2 as (a & Ea & Ha). apply in_map_iff in Hj2. destruct Hj2 as (b & Eb & Hb).
      assert (Ha' : a < length front).
      { apply Hil. rewrite <- (firstn_skipn R idxs). apply in_or_app; auto. }
      assert (Hb' : b < length front).
      { apply Hil. rewrite <- (firstn_skipn R idxs). apply in_or_app; auto. }
      exists front, cds, a, b, (cmpn cds a), (cmpn cds b).
      split; [|split; [exact CS|split; [|split; [|split; [|split]]]]].
      { apply NoDup_Permutation.
        -- rewrite Efr, concat_app in NDc. apply NoDup_app_r in NDc. simpl in NDc. eapply NoDup_app_l; exact NDc.
        -- assert (NoDup (concat fronts)) by (eapply Permutation_NoDup; [apply (fd_perm _ _ F)|apply seq_NoDup]).
           destruct (le_lt_dec (length fronts) (length done)); [rewrite nth_overflow by assumption; constructor|].
           apply (nth_split fronts []) in l. destruct l as (l1 & l2 & El & _). rewrite El in H1.
           rewrite concat_app in H1. apply NoDup_app_r in H1. simpl in H1. eapply NoDup_app_l; exact H1.
        -- intros x. rewrite <- Efront'. split; apply front_unique with (pts := pts); assumption. }
      { rewrite <- Ea. apply nth_error_nth'; exact Ha'. }
      { rewrite <- Eb. apply nth_error_nth'; exact Hb'. }
      { apply nth_error_nth'. lia. }
      { apply nth_error_nth'. lia. }
      { rewrite <- (firstn_skipn R idxs) in Srt.
        pose proof (sorted_by_app _ _ _ a b Srt Ha Hb) as Hs. cbn beta in Hs.
        rewrite greater_than_f_flip in Hs. apply ltf_false in Hs. exact Hs. }
Qed.
