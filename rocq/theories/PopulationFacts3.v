From Coq Require Import List Bool Arith ZArith Lia Permutation.
From Verif Require Import Dbl DblFacts Outcome BaseFacts StdSort Compare CompareFacts SpecOrder Constrained SpecConstrained ConstrainedFacts ConstrainedFacts2
  Problem SpecProblem ProblemFacts ProblemFacts2 ProblemFacts3 Bfe BfeFacts Rng Generic SpecGeneric GenericFacts GenericFacts2 GenericFacts3 Population SpecPopulation PopulationFacts PopulationFacts2.
Import ListNotations.

(** ** Which calls succeed *)
Section S.
Context {G : Type} (r : rng G) (RC : rng_contract r).
Lemma champ_sizes p s : prob_obj p -> po_prob s = p ->
  (po_cx s = [] /\ po_cf s = []) \/ (length (po_cx s) = get_nx p /\ length (po_cf s) = get_nf p) ->
  forall x f : list dbl, length x = get_nx p -> length f = get_nf p -> exists c, update_champion p (po_cx (G:=G) s) (po_cf s) x f = Ok c.
Proof.
  intros PO EP CH x f Lx Lf. destruct (prob_obj_facts p PO) as (NX & N1 & LT & NF). unfold update_champion.
  destruct (Nat.eqb_spec (p_nobj p) 1) as [NO|]; cbn [negb]; [|eauto]. destruct (Nat.eqb_spec (length (po_cx s)) 0); [eauto|].
  destruct CH as [[CH _]|[C1 C2]]; [rewrite CH in *; cbn in *; lia|].
  destruct (Nat.eqb_spec (get_nc p) 0) as [NC|NC].
  - rewrite (vget_nth f 0 NaN), (vget_nth (po_cf s) 0 NaN) by lia. cbn [bind]. eauto.
  - rewrite compare_fc_eq by (split; unfold get_nc in *; lia). cbn [bind]. eauto.
Qed.

Definition champ_ok (s : pop G) : Prop := (po_cx s = [] /\ po_cf s = []) \/ (length (po_cx s) = get_nx (po_prob s) /\ length (po_cf s) = get_nf (po_prob s)).
Lemma champ_ok_step s o s' res : stored s -> champ_ok s -> pop_step r s o = (s', res) -> champ_ok s'.
Proof.
  intros ST CH E. destruct (step_spec r RC _ _ _ _ ST E) as (_ & EP & [(-> & EF & PU)|(_ & SC)]).
  - assert (CASE : o = RandomDV \/ o <> RandomDV) by (destruct o; auto; right; discriminate). destruct CASE as [->|NR].
    + cbn in EF. destruct EF as (E0 & _ & _ & _ & E5 & E6). unfold champ_ok. rewrite E0, E5, E6. exact CH.
    + destruct (PU NR) as (x & f & _ & A1 & A2 & _ & A4). unfold champ_ok. rewrite EP. unfold update_champion in A4.
      assert (K : (po_cx s', po_cf s') = (x, f) \/ (po_cx s', po_cf s') = (po_cx s, po_cf s)).
      { destruct (negb _) in A4; [inversion A4; auto|]. destruct (Nat.eqb _ 0) in A4; [inversion A4; auto|]. destruct (Nat.eqb _ 0) in A4.
        - destruct (vget f 0) as [a| | |]; cbn [bind] in A4; try discriminate. destruct (vget (po_cf s) 0) as [b| | |]; cbn [bind] in A4; try discriminate. destruct (less_than_f a b); inversion A4; auto.
        - destruct (compare_fc _ _ _ _) as [b| | |]; cbn [bind] in A4; try discriminate. destruct b; inversion A4; auto. }
      destruct K as [K|K]; injection K as K1 K2; rewrite K1, K2; [right; auto|exact CH].
  - destruct SC as (E0 & _ & _ & _ & E5 & E6). unfold champ_ok. rewrite E0, E5, E6. exact CH.
Qed.

Lemma run_inv ops : forall s s' tr, stored s -> champ_ok s -> pop_run r s ops = (s', tr) -> stored s' /\ champ_ok s' /\ po_prob s' = po_prob s.
Proof.
  induction ops as [|o ops IH]; intros s s' tr ST CH E; cbn [pop_run] in E; [inversion E; subst; auto|].
  destruct (pop_step r s o) as [s1 res] eqn:E1. destruct (pop_run r s1 ops) as [s2 tr'] eqn:E2. inversion E; subst.
  destruct (step_spec r RC _ _ _ _ ST E1) as (ST1 & EP & _). destruct (IH _ _ _ ST1 (champ_ok_step _ _ _ _ ST CH E1) E2) as (A & B & C). split; [exact A|]. split; [exact B|congruence].
Qed.
Lemma empty_stored p g : stored (empty_pop p g : pop G).
Proof. repeat split; cbn; intros; contradiction. Qed.
Lemma reachable_inv p s : reachable r p s -> stored s /\ champ_ok s /\ po_prob s = p.
Proof. intros (g & ops & tr & E). apply (run_inv _ _ _ _ (empty_stored p g)) in E; [exact E|]. left. auto. Qed.

Lemma push_impl_ok (s : pop G) x f : prob_obj (po_prob s) -> champ_ok s -> stored s -> (Z.of_nat (length (po_id s)) < u64max)%Z ->
  (snd (push_back_impl r s x f) = Ok tt <-> length x = get_nx (po_prob s) /\ length f = get_nf (po_prob s)).
Proof.
  intros PO CH (L1 & L2 & _) FULL. unfold push_back_impl.
  destruct (Nat.eqb_spec (length x) (get_nx (po_prob s))) as [Lx|]; cbn [negb]; [|split; [discriminate|tauto]].
  destruct (Nat.eqb_spec (length f) (get_nf (po_prob s))) as [Lf|]; cbn [negb]; [|split; [discriminate|tauto]].
  destruct (Z.eqb_spec (Z.of_nat (length (po_id s))) u64max); [lia|]. destruct (Z.eqb_spec (Z.of_nat (length (po_x s))) u64max); [lia|]. cbn [orb].
  destruct (g_int r 0 u64max (po_rng s)) as [id g]. destruct (champ_sizes (po_prob s) s PO eq_refl CH x f Lx Lf) as ([cx cf] & ->). split; auto.
Qed.
Lemma set_xf_ok (s : pop G) i x f : prob_obj (po_prob s) -> champ_ok s -> stored s ->
  (snd (set_xf s i x f) = Ok tt <-> i < length (po_id s) /\ length x = get_nx (po_prob s) /\ length f = get_nf (po_prob s)).
Proof.
  intros PO CH (L1 & L2 & _). unfold set_xf.
  destruct (Nat.leb_spec (length (po_id s)) i); [split; [discriminate|lia]|].
  destruct (Nat.eqb_spec (length f) (get_nf (po_prob s))) as [Lf|]; cbn [negb]; [|split; [discriminate|tauto]].
  destruct (Nat.eqb_spec (length x) (get_nx (po_prob s))) as [Lx|]; cbn [negb]; [|split; [discriminate|tauto]].
  destruct (champ_sizes (po_prob s) s PO eq_refl CH x f Lx Lf) as ([cx cf] & ->). cbn [bind]. unfold vset.
  destruct (Nat.ltb_spec i (length (po_x s))); [|lia]. cbn [bind]. destruct (Nat.ltb_spec i (length (po_f s))); [|lia]. cbn [bind]. split; auto.
Qed.
Lemma call_ok_iff p s o : prob_obj p -> reachable r p s -> (Z.of_nat (length (po_id s)) < u64max)%Z ->
  (snd (pop_step r s o) = Ok tt <-> call_ok r s o).
Proof.
  intros PO R FULL. destruct (reachable_inv p s R) as (ST & CH & EP). subst p.
  destruct o as [x|x f|i x|i x f|]; cbn [pop_step call_ok].
  - unfold push_back, with_fitness. destruct (fitness_cases (po_prob s) (po_fevals s) x) as [(f & -> & U & Lx & Lf)|(o & E & No)].
    + rewrite push_impl_ok by assumption. cbn [with_fevals po_prob]. rewrite U. split; [intros _; eauto|auto].
    + rewrite E. assert (X : ~ (length x = get_nx (po_prob s) /\ (exists f, u_fitness (p_udp (po_prob s)) x = Ok f /\ length f = get_nf (po_prob s)))).
      { intros (Lx & f & U & Lf). unfold fitness, prob_check_dv, prob_check_fv, throw_if in E. rewrite Lx, Nat.eqb_refl in E. cbn [negb bind] in E. rewrite U in E. cbn [bind] in E.
        rewrite Lf, Nat.eqb_refl in E. cbn [negb bind] in E. inversion E. subst o. discriminate. }
      split; [|tauto]. destruct o; try discriminate No; discriminate.
  - apply push_impl_ok; assumption.
  - unfold set_x, with_fitness. destruct (fitness_cases (po_prob s) (po_fevals s) x) as [(f & -> & U & Lx & Lf)|(o & E & No)].
    + rewrite set_xf_ok by assumption. cbn [with_fevals po_prob po_id]. rewrite U. split; [intros (H & _); eauto 6|intros (H & _); auto].
    + rewrite E. assert (X : ~ (length x = get_nx (po_prob s) /\ (exists f, u_fitness (p_udp (po_prob s)) x = Ok f /\ length f = get_nf (po_prob s)))).
      { intros (Lx & f & U & Lf). unfold fitness, prob_check_dv, prob_check_fv, throw_if in E. rewrite Lx, Nat.eqb_refl in E. cbn [negb bind] in E. rewrite U in E. cbn [bind] in E.
        rewrite Lf, Nat.eqb_refl in E. cbn [negb bind] in E. inversion E. subst o. discriminate. }
      split; [|tauto]. destruct o; try discriminate No; discriminate.
  - apply set_xf_ok; assumption.
  - unfold pop_random_dv. destruct (random_decision_vector r (po_prob s) (po_rng s)) as [o g]. cbn. destruct o; cbn; split; congruence.
Qed.

(** The evaluation counter. *)
Lemma push_fevals s x f : po_fevals (fst (push_back_impl r s x f)) = po_fevals s.
Proof. destruct (push_back_impl r s x f) as [s' res] eqn:E. destruct (push_impl_spec r RC _ _ _ _ _ E) as [(_ & _ & H & _)|(_ & _ & H)]; exact H. Qed.
Lemma set_fevals (s : pop G) i x f : stored s -> po_fevals (fst (set_xf s i x f)) = po_fevals s.
Proof. intros ST. destruct (set_xf s i x f) as [s' res] eqn:E. destruct (set_xf_spec _ _ _ _ _ _ ST E) as [(_ & _ & _ & H & _)|(_ & _ & H)]; exact H. Qed.
Lemma fevals_step s o : stored s -> po_fevals (fst (pop_step r s o)) =
  match o with
  | PushBack x | SetX _ x => snd (fitness (po_prob s) (po_fevals s) x)
  | _ => po_fevals s
  end.
Proof.
  intros ST. destruct o as [x|x f|i x|i x f|]; cbn [pop_step].
  - unfold push_back, with_fitness. destruct (fitness (po_prob s) (po_fevals s) x) as [[f|e| |] c]; try reflexivity. rewrite push_fevals. reflexivity.
  - apply push_fevals.
  - unfold set_x, with_fitness. destruct (fitness (po_prob s) (po_fevals s) x) as [[f|e| |] c]; try reflexivity. rewrite set_fevals by exact ST. reflexivity.
  - apply set_fevals, ST.
  - unfold pop_random_dv. destruct (random_decision_vector r (po_prob s) (po_rng s)) as [o g]. reflexivity.
Qed.
End S.

(** ** best_idx and worst_idx *)
Lemma vec_lt1 a b : vec_lt [a] [b] = dlt a b.
Proof. cbn. destruct (dlt a b); [reflexivity|]. destruct (dlt b a); reflexivity. Qed.
Lemma min_elt_num (l : list (list dbl)) : forall b bi i k, (forall v, In v l -> length v = 1) -> length b = 1 -> hd NaN b <> NaN ->
  min_elt_from vec_lt b bi i l = k -> k = bi \/ (exists v, nth_error l (k - i) = Some v /\ i <= k /\ hd NaN v <> NaN).
Proof.
  induction l as [|x l IH]; intros b bi i k L1 Lb NB E; cbn [min_elt_from] in E; [auto|].
  assert (Lx : length x = 1) by (apply L1; left; reflexivity).
  destruct b as [|b0 [|]]; try discriminate. destruct x as [|x0 [|]]; try discriminate. rewrite vec_lt1 in E. destruct (dlt x0 b0) eqn:D.
  - assert (NX : hd NaN [x0] <> NaN) by (cbn; intros ->; destruct b0; discriminate).
    destruct (IH [x0] i (S i) k) as [->|(v & Hv & Hk & Nv)]; auto; [intros; apply L1; right; assumption| |].
    + right. exists [x0]. rewrite Nat.sub_diag. auto.
    + right. exists v. replace (k - i) with (S (k - S i)) by lia. cbn. split; [exact Hv|]. split; [lia|exact Nv].
  - destruct (IH [b0] bi (S i) k) as [->|(v & Hv & Hk & Nv)]; auto; [intros; apply L1; right; assumption|].
    right. exists v. replace (k - i) with (S (k - S i)) by lia. cbn. split; [exact Hv|]. split; [lia|exact Nv].
Qed.
Lemma dlt_trans a b c : dlt a b = true -> dlt b c = true -> dlt a c = true.
Proof. destruct a, b, c; cbn; intros A B; try discriminate; try reflexivity. apply Z.ltb_lt in A. apply Z.ltb_lt in B. apply Z.ltb_lt. lia. Qed.
Lemma vec_lt1_laws (l : list (list dbl)) : (forall v, In v l -> length v = 1) ->
  (forall a, In a l -> vec_lt a a = false) /\
  (forall a b c, In a l -> In b l -> In c l -> vec_lt a b = true -> vec_lt b c = true -> vec_lt a c = true).
Proof.
  intros L. split.
  - intros a Ha. specialize (L a Ha). destruct a as [|x [|]]; try discriminate. rewrite vec_lt1. apply dlt_irrefl.
  - intros a b c Ha Hb Hc. apply L in Ha. apply L in Hb. apply L in Hc. destruct a as [|x [|]]; try discriminate. destruct b as [|y [|]]; try discriminate. destruct c as [|z [|]]; try discriminate.
    rewrite !vec_lt1. apply dlt_trans.
Qed.
Lemma better_num a b : b <> NaN -> (better a b <-> dlt a b = true).
Proof. intros N. rewrite dlt_spec. unfold better. destruct a, b; cbn; try tauto; try congruence. Qed.

Section B.
Context {G : Type} (r : rng G) (RC : rng_contract r).
Lemma so_sizes p (s : pop G) : prob_obj p -> reachable r p s -> p_nobj p = 1 -> get_nc p = 0 ->
  length (po_f s) = length (po_id s) /\ (forall v, In v (po_f s) -> length v = 1).
Proof.
  intros PO R NO NC. destruct (reachable_inv r RC p s R) as ((L1 & L2 & _ & Ff & _) & _ & EP). destruct (prob_obj_facts p PO) as (_ & _ & _ & NF).
  split; [lia|]. intros v Hv. rewrite (Ff v Hv), EP. lia.
Qed.
Lemma best_idx_unconstrained srt p (s : pop G) : prob_obj p -> reachable r p s -> p_nobj p = 1 -> get_nc p = 0 ->
  po_id s <> [] -> nth 0 (nth 0 (po_f s) []) NaN <> NaN ->
  exists i f, best_idx srt s = Ok i /\ nth_error (po_f s) i = Some f /\ forall f', In f' (po_f s) -> not_worse (nth 0 f NaN) (nth 0 f' NaN).
Proof.
  intros PO R NO NC NE N0. destruct (so_sizes p s PO R NO NC) as [L1 L2]. destruct (reachable_inv r RC p s R) as (_ & _ & EP).
  unfold best_idx, best_idx_tol. rewrite EP, NO, NC. destruct (Nat.eqb_spec (length (po_id s)) 0) as [Z0|_]; [apply length_zero_iff_nil in Z0; contradiction|].
  cbn [Nat.ltb Nat.leb].
  destruct (po_f s) as [|f0 fs] eqn:EF; [destruct (po_id s); [contradiction|discriminate]|]. rewrite <- EF in *.
  destruct (vec_lt1_laws (po_f s) L2) as [I T]. destruct (min_element_spec vec_lt (po_f s) I T) as (i & m & E & Hm & MIN); [rewrite EF; discriminate|].
  rewrite E. exists i, m. split; [reflexivity|]. split; [exact Hm|].
  assert (Nm : nth 0 m NaN <> NaN).
  { rewrite EF in E, N0, Hm. cbn [min_element] in E. injection E as E. cbn [nth] in N0.
    assert (Lf0 : length f0 = 1) by (apply L2; rewrite EF; left; reflexivity).
    destruct (min_elt_num fs f0 0 1 i) as [->|(v & Hv & Hk & Nv)]; auto.
    - intros; apply L2; rewrite EF; right; assumption.
    - destruct f0 as [|? [|]]; try discriminate. exact N0.
    - cbn in Hm. congruence.
    - destruct i as [|i]; [lia|]. cbn in Hm. replace (S i - 1) with i in Hv by lia. assert (v = m) by congruence. subst v. destruct m; [contradiction|exact Nv]. }
  intros f' Hf'. unfold not_worse. rewrite better_num by exact Nm. specialize (MIN f' Hf').
  pose proof (L2 f' Hf') as La. pose proof (L2 m (nth_error_In _ _ Hm)) as Lb. destruct f' as [|x [|]]; try discriminate. destruct m as [|y [|]]; try discriminate.
  rewrite vec_lt1 in MIN. cbn. congruence.
Qed.
Lemma worst_idx_unconstrained srt p (s : pop G) : prob_obj p -> reachable r p s -> p_nobj p = 1 -> get_nc p = 0 ->
  po_id s <> [] -> (forall f, In f (po_f s) -> nth 0 f NaN <> NaN) ->
  exists i f, worst_idx srt s = Ok i /\ nth_error (po_f s) i = Some f /\ forall f', In f' (po_f s) -> not_worse (nth 0 f' NaN) (nth 0 f NaN).
Proof.
  intros PO R NO NC NE N0. destruct (so_sizes p s PO R NO NC) as [L1 L2]. destruct (reachable_inv r RC p s R) as (_ & _ & EP).
  unfold worst_idx, worst_idx_tol. rewrite EP, NO, NC. destruct (Nat.eqb_spec (length (po_id s)) 0) as [Z0|_]; [apply length_zero_iff_nil in Z0; contradiction|].
  cbn [Nat.ltb Nat.leb].
  destruct (vec_lt1_laws (po_f s) L2) as [I T]. destruct (max_element_spec vec_lt (po_f s) I T) as (i & m & E & Hm & MAX).
  { intros E. rewrite E in L1. destruct (po_id s); [contradiction|discriminate]. }
  rewrite E. exists i, m. split; [reflexivity|]. split; [exact Hm|].
  intros f' Hf'. unfold not_worse. rewrite better_num by (apply N0, Hf'). specialize (MAX f' Hf').
  pose proof (L2 f' Hf') as La. pose proof (L2 m (nth_error_In _ _ Hm)) as Lb. destruct f' as [|x [|]]; try discriminate. destruct m as [|y [|]]; try discriminate.
  rewrite vec_lt1 in MAX. cbn. congruence.
Qed.
Lemma idx_constrained srt p (s : pop G) tol : sort_contract srt -> prob_obj p -> reachable r p s -> p_nobj p = 1 -> 0 < get_nc p -> length tol = get_nc p ->
  po_id s <> [] -> strict_weak_on (fc_lt (p_nec p) tol) (po_f s) ->
  exists i j f f', best_idx_tol srt s tol = Ok i /\ nth_error (po_f s) i = Some f /\ worst_idx_tol srt s tol = Ok j /\ nth_error (po_f s) j = Some f' /\
   forall h, In h (po_f s) -> compare_fc h f (p_nec p) tol = Ok false /\ compare_fc f' h (p_nec p) tol = Ok false.
Proof.
  intros SC PO R NO NC LT NE SW. destruct (reachable_inv r RC p s R) as ((L1 & L2 & _ & Ff & _) & _ & EP). destruct (prob_obj_facts p PO) as (_ & _ & _ & NF).
  assert (OKA : forall f, In f (po_f s) -> fc_args_ok (p_nec p) tol f) by (intros f Hf; specialize (Ff f Hf); rewrite EP in Ff; split; unfold get_nc in *; lia).
  destruct (sort_con_ok srt (po_f s) (p_nec p) tol SC OKA SW) as (idx & E & P & ORD).
  unfold best_idx_tol, worst_idx_tol. rewrite EP, NO. destruct (Nat.eqb_spec (length (po_id s)) 0) as [Z0|NZ]; [apply length_zero_iff_nil in Z0; contradiction|].
  change (1 <? 1) with false. destruct (Nat.ltb_spec 0 (get_nc p)); [|lia]. rewrite E. cbn [bind].
  assert (LI : length idx = length (po_f s)) by (rewrite <- (Permutation_length P); unfold iota; apply seq_length).
  rewrite (vget_nth idx 0 0), (vget_nth idx (length idx - 1) 0) by lia.
  assert (IN : forall k, k < length idx -> nth k idx 0 < length (po_f s)).
  { intros k Hk. apply (Permutation_iota_in _ _ (nth k idx 0) P). apply nth_In, Hk. }
  pose proof (IN 0 ltac:(lia)) as I0. pose proof (IN (length idx - 1) ltac:(lia)) as I1.
  exists (nth 0 idx 0), (nth (length idx - 1) idx 0), (nth (nth 0 idx 0) (po_f s) []), (nth (nth (length idx - 1) idx 0) (po_f s) []).
  split; [reflexivity|]. split; [apply nth_error_nth', I0|]. split; [reflexivity|]. split; [apply nth_error_nth', I1|].
  intros h Hh. apply In_nth with (d := []) in Hh. destruct Hh as (a & Ha & <-).
  assert (Hk : exists k, k < length idx /\ nth k idx 0 = a) by (apply In_nth; apply (Permutation_iota_in _ _ a P), Ha). destruct Hk as (k & Hk & <-).
  assert (IRR : forall v, In v (po_f s) -> compare_fc v v (p_nec p) tol = Ok false).
  { intros v Hv. pose proof (swo_irrefl _ _ SW v Hv) as X. unfold fc_lt in X. rewrite compare_fc_eq in * by auto. congruence. }
  split.
  - destruct (Nat.eq_dec k 0) as [->|K]; [apply IRR, nth_In, I0|]. apply (ORD 0 k); [lia|apply nth_error_nth'; lia|apply nth_error_nth'; exact Hk].
  - destruct (Nat.eq_dec k (length idx - 1)) as [->|K]; [apply IRR, nth_In, I1|]. apply (ORD k (length idx - 1)); [lia|apply nth_error_nth'; exact Hk|apply nth_error_nth'; lia].
Qed.
Lemma idx_rejects srt p (s : pop G) tol : reachable r p s -> po_id s = [] \/ 1 < p_nobj p ->
  best_idx_tol srt s tol = Throw InvalidArgument /\ worst_idx_tol srt s tol = Throw InvalidArgument.
Proof.
  intros R H. destruct (reachable_inv r RC p s R) as (_ & _ & EP). unfold best_idx_tol, worst_idx_tol. rewrite EP.
  destruct (Nat.eqb_spec (length (po_id s)) 0) as [Z0|NZ]; [auto|]. destruct H as [H|H]; [rewrite H in NZ; contradiction NZ; reflexivity|]. destruct (Nat.ltb_spec 1 (p_nobj p)); [auto|lia].
Qed.
End B.

(** ** The two constructors *)
Lemma wrap_succ c k : (0 <= k)%Z -> wrap64 (wrap64 c + k) = wrap64 (c + k).
Proof. intros. unfold wrap64. rewrite Zplus_mod_idemp_l. reflexivity. Qed.
Lemma chunk_concat {A} (vs : list (list A)) w : (forall v, In v vs -> length v = w) -> forall i v, nth_error vs i = Some v -> chunk (concat vs) i w = v.
Proof.
  unfold chunk. induction vs as [|a vs IH]; intros H [|i] v E; try discriminate; cbn [concat].
  - cbn in E. injection E as ->. cbn [Nat.mul skipn]. rewrite <- (H v) by (left; reflexivity). rewrite firstn_app, firstn_all, Nat.sub_diag. cbn. apply app_nil_r.
  - cbn in E. assert (La : length a = w) by (apply H; left; reflexivity). replace (S i * w) with (length a + i * w) by (cbn; lia).
    rewrite skipn_app. rewrite skipn_all2 by lia. replace (length a + i * w - length a) with (i * w) by lia. cbn [app]. apply IH; [|exact E]. intros; apply H; right; assumption.
Qed.
Lemma concat_len {A} (vs : list (list A)) w : (forall v, In v vs -> length v = w) -> length (concat vs) = length vs * w.
Proof. induction vs as [|a vs IH]; intros H; [reflexivity|]. cbn. rewrite app_length, IH by (intros; apply H; right; assumption). rewrite (H a) by (left; reflexivity). reflexivity. Qed.

Section K.
Context {G : Type} (r : rng G) (RC : rng_contract r) (p : problem).
Context (BP : bounded_problem p) (US : usable p).
Context (FIT : forall x, in_box (p_lb p) (p_ub p) x -> exists f, u_fitness (p_udp p) x = Ok f /\ length f = get_nf p).

Lemma gen_loop : forall l c g, (0 <= c < 2 ^ 64)%Z -> exists vs fs g',
  rmap (fun _ : nat => random_decision_vector r p) l g = (Ok vs, g') /\ length vs = length l /\ Forall2 (fun x f => u_fitness (p_udp p) x = Ok f) vs fs /\
  (forall v, In v vs -> length v = get_nx p) /\ (forall f, In f fs -> length f = get_nf p) /\
  rmap (fun _ : nat => rbind (on_rng (random_decision_vector r p)) (fun x => rbind (on_fevals (fun c => fitness p c x)) (fun f => rret (x, f)))) l (c, g)
    = (Ok (combine vs fs), (wrap64 (c + Z.of_nat (length l)), g')).
Proof.
  induction l as [|a l IH]; intros c g Hc.
  - exists [], [], g. cbn. split; [reflexivity|]. split; [reflexivity|]. split; [constructor|]. split; [intros v []|]. split; [intros f []|]. unfold rret. rewrite Z.add_0_r. unfold wrap64. rewrite Z.mod_small by lia. reflexivity.
  - destruct (rdv_spec r RC p g BP) as [(x & X & IB & _)|[_ N]]; [|contradiction].
    destruct (random_decision_vector r p g) as [o g1] eqn:E1. cbn [fst] in X. subst o.
    destruct (FIT x IB) as (f & U & Lf). assert (Lx : length x = get_nx p) by apply IB.
    assert (Hc1 : (0 <= wrap64 (c + 1) < 2 ^ 64)%Z) by (apply Z.mod_pos_bound; lia).
    destruct (IH (wrap64 (c + 1)) g1 Hc1) as (vs & fs & g' & R1 & LV & F2 & Fv & Ff & R2).
    exists (x :: vs), (f :: fs), g'. cbn [rmap].
    split; [rewrite (rbind_okE _ _ _ _ _ E1), (rbind_okE _ _ _ _ _ R1); reflexivity|]. split; [cbn; congruence|]. split; [constructor; assumption|].
    split; [intros v [<-|Hv]; auto|]. split; [intros v [<-|Hv]; auto|].
    assert (ONE : rbind (on_rng (random_decision_vector r p)) (fun x => rbind (on_fevals (fun c => fitness p c x)) (fun f => rret (x, f))) (c, g) = (Ok (x, f), (wrap64 (c + 1), g1))).
    { assert (E3 : on_rng (random_decision_vector r p) (c, g) = (Ok x, (c, g1))) by (unfold on_rng; cbn [fst snd]; rewrite E1; reflexivity).
      rewrite (rbind_okE _ _ _ _ _ E3). unfold rbind, on_fevals. cbn [fst snd].
      assert (E4 : fitness p c x = (Ok f, wrap64 (c + 1))).
      { unfold fitness, prob_check_dv, prob_check_fv, throw_if. rewrite Lx, Nat.eqb_refl. cbn [negb bind]. rewrite U. cbn [bind]. rewrite Lf, Nat.eqb_refl. reflexivity. }
      rewrite E4. reflexivity. }
    rewrite (rbind_okE _ _ _ _ _ ONE), (rbind_okE _ _ _ _ _ R2). unfold rret. cbn [combine length]. replace (wrap64 (wrap64 (c + 1) + Z.of_nat (length l))) with (wrap64 (c + Z.of_nat (S (length l)))) by (rewrite wrap_succ by lia; f_equal; lia). reflexivity.
Qed.
Lemma ctor_same (ud : problem -> list dbl -> outcome (list dbl)) c0 n g : prob_obj p -> (0 <= c0 < 2 ^ 64)%Z -> (Z.of_nat n * Z.of_nat (get_nx p) < 2 ^ 64)%Z ->
  (forall vs fs, Forall2 (fun x f => u_fitness (p_udp p) x = Ok f) vs fs -> ud p (concat vs) = Ok (concat fs)) ->
  exists s, prob_ctor r p c0 n g = Ok s /\ bfe_ctor r ud p c0 n g = Ok s /\ length (po_id s) = n /\ po_fevals s = wrap64 (c0 + Z.of_nat n).
Proof.
  intros PO Hc OV UD. destruct (prob_obj_facts p PO) as (NX & NO & LT & NF).
  destruct (gen_loop (seq 0 n) c0 g Hc) as (vs & fs & g' & R1 & LV & F2 & Fv & Ff & R2). rewrite seq_length in *.
  unfold prob_ctor. rewrite R2. unfold bfe_ctor. destruct (batch_spec r p n g BP OV) as [B _]. rewrite (B US), (rbind_okE _ _ _ _ _ R1). unfold rret.
  assert (LF : length fs = n) by (apply Forall2_nth in F2; destruct F2; congruence).
  assert (DV : is_batch (get_nx p) n (concat vs)) by (unfold is_batch; rewrite (concat_len vs (get_nx p) Fv); congruence).
  assert (FV : is_batch (get_nf p) n (concat fs)) by (unfold is_batch; rewrite (concat_len fs (get_nf p) Ff); congruence).
  destruct (bfe_call ud p c0 (concat vs)) as [o c] eqn:BC.
  destruct (bfe_call_spec ud p c0 (concat vs) o c NX ltac:(lia) BC) as (OKI & CNT & _).
  assert (EO : o = Ok (concat fs)) by (apply OKI; exists n; auto). subst o. specialize (CNT n DV). cbn in CNT. subst c.
  assert (CH : map (fun i => (chunk (concat vs) i (get_nx p), chunk (concat fs) i (get_nf p))) (seq 0 n) = combine vs fs).
  { apply list_ext_error. intros i. rewrite nth_error_map. destruct (Nat.lt_ge_cases i n) as [Hi|Hi].
    - rewrite (nth_error_seq 0 n i Hi). cbn [option_map Nat.add].
      destruct (nth_error vs i) as [v|] eqn:Ev; [|apply nth_error_None in Ev; lia]. destruct (nth_error fs i) as [f|] eqn:Ef; [|apply nth_error_None in Ef; lia].
      rewrite (chunk_concat vs (get_nx p) Fv i v Ev), (chunk_concat fs (get_nf p) Ff i f Ef).
      revert Ev Ef. clear. revert vs fs. induction i as [|i IH]; intros [|? vs] [|? fs] Ev Ef; try discriminate; cbn in *; [congruence|]. apply IH; assumption.
    - assert (X : nth_error (seq 0 n) i = None) by (apply nth_error_None; rewrite seq_length; exact Hi). rewrite X. cbn. symmetry. apply nth_error_None. rewrite combine_length. lia. }
  rewrite CH.
  assert (PUSH : forall l (s : pop G), po_prob s = p -> stored s -> champ_ok s -> (Z.of_nat (length (po_id s)) + Z.of_nat (length l) <= u64max)%Z ->
     (forall q, In q l -> length (fst q) = get_nx p /\ length (snd q) = get_nf p) ->
     exists s', push_all r s l = Ok s' /\ length (po_id s') = length (po_id s) + length l /\ po_fevals s' = po_fevals s).
  { induction l as [|[x f] l IH]; intros s EP ST CO FULL SZ; [exists s; cbn; split; [reflexivity|split; [lia|reflexivity]]|].
    cbn [push_all]. destruct (push_back_impl r s x f) as [s1 res] eqn:E1.
    destruct (SZ (x, f) (or_introl eq_refl)) as [Lx Lf]. cbn [fst snd] in Lx, Lf. cbn [length] in FULL.
    assert (RES : res = Ok tt).
    { pose proof (push_impl_ok r s x f) as K. rewrite E1 in K. cbn [snd] in K. rewrite EP in K. apply K; auto. lia. }
    subst res. destruct (step_spec r RC s (PushBackXF x f) s1 (Ok tt) ST E1) as (ST1 & EP1 & _).
    assert (CO1 : champ_ok s1) by (eapply (champ_ok_step r RC s (PushBackXF x f)); eauto).
    destruct (push_impl_spec r RC _ _ _ _ _ E1) as [(_ & _ & FE & id & _ & EI & _)|(N & _)]; [|congruence].
    destruct (IH s1) as (s' & E' & L' & F'); try assumption; [congruence| |intros q Hq; apply SZ; right; exact Hq|].
    - rewrite EI, app_length. cbn [length]. lia.
    - exists s'. split; [exact E'|]. rewrite L', F', EI, app_length. cbn. split; [lia|exact FE]. }
  destruct (PUSH (combine vs fs) (with_fevals (empty_pop p g') (wrap64 (c0 + Z.of_nat n)))) as (s & E & L & F).
  - reflexivity.
  - apply (empty_stored p g').
  - left. auto.
  - cbn. rewrite combine_length. unfold u64max. nia.
  - intros [x f] Hq. split; [apply Fv; eapply in_combine_l; exact Hq|apply Ff; eapply in_combine_r; exact Hq].
  - exists s. split; [exact E|]. split; [exact E|]. split; [rewrite L, combine_length; cbn; lia|exact F].
Qed.
End K.
