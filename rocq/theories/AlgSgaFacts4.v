From Coq Require Import List Bool Arith ZArith Lia Permutation.
From Verif Require Import Dbl DblFacts IntDbl Outcome BaseFacts StdSort Compare SpecOrder CompareFacts Problem SpecProblem Rng Generic SpecGeneric GenericFacts GenericFacts2 GenericFacts3 SpecGenetic RmFacts
  GeneticOps GeneticFacts GeneticFacts3 Population SpecPopulation PopulationFacts ProblemFacts Algo SpecAlgo AlgoFacts AlgoFacts2 AlgDeFacts AlgSea AlgSeaFacts AlgSga SpecSga AlgSgaFacts AlgSgaFacts2 AlgSgaFacts3.
Import ListNotations.

(** ** Lists *)
Lemma map_nth_seq {A} (d : A) (l : list A) : map (fun i => nth i l d) (seq 0 (length l)) = l.
Proof.
  apply list_ext_error. intros i. destruct (Nat.lt_ge_cases i (length l)) as [C|C].
  - rewrite nth_error_map, (nth_error_nth' _ 0) by (rewrite seq_length; exact C). rewrite seq_nth by exact C. cbn. symmetry. now apply nth_error_nth'.
  - rewrite !(proj2 (nth_error_None _ _)); [reflexivity|exact C|rewrite map_length, seq_length; exact C].
Qed.
Lemma combine_app {A B} (a c : list A) (b d : list B) : length a = length b -> combine (a ++ c) (b ++ d) = combine a b ++ combine c d.
Proof. revert b. induction a as [|x a IH]; intros [|y b] L; try discriminate; [reflexivity|]. cbn. now rewrite IH by (cbn in L; lia). Qed.
Lemma combine_nth_error {A B} (a : list A) (b : list B) i x y : nth_error a i = Some x -> nth_error b i = Some y -> nth_error (combine a b) i = Some (x, y).
Proof. revert a b. induction i as [|i IH]; intros [|u a] [|v b] H1 H2; try discriminate; cbn in *; [congruence|eauto]. Qed.
Lemma combine_in_nth {A B} (a : list A) (b : list B) q : In q (combine a b) -> exists i, nth_error a i = Some (fst q) /\ nth_error b i = Some (snd q).
Proof. revert b. induction a as [|x a IH]; intros [|y b] H; try contradiction. destruct H as [<-|H]; [exists 0; auto|]. destruct (IH b H) as (i & H1 & H2). exists (S i). auto. Qed.
Lemma perm_filter {A} (f : A -> bool) l l' : Permutation l l' -> length (filter f l) = length (filter f l').
Proof. induction 1 as [|x l l' _ IH|x y l|l1 l2 l3 _ IH1 _ IH2]; cbn; [reflexivity|destruct (f x); cbn; lia|destruct (f x), (f y); reflexivity|lia]. Qed.
Lemma filter_le {A} (f : A -> bool) l : length (filter f l) <= length l.
Proof. induction l as [|x l IH]; cbn; [lia|destruct (f x); cbn; lia]. Qed.
Lemma filter_none {A} (f : A -> bool) l : (forall x, In x l -> f x = false) -> filter f l = [].
Proof. induction l as [|x l IH]; intros H; [reflexivity|]. cbn. rewrite (H x (or_introl eq_refl)). apply IH. intros y Hy. apply H. now right. Qed.
Lemma filter_all {A} (f : A -> bool) l : (forall x, In x l -> f x = true) -> filter f l = l.
Proof. induction l as [|x l IH]; intros H; [reflexivity|]. cbn. rewrite (H x (or_introl eq_refl)). f_equal. apply IH. intros y Hy. apply H. now right. Qed.

(** ** Counting the good individuals *)
Definition goodb (v : dbl) (i : list dbl * list dbl) : bool := negb (less_than_f v (fit i)).
Lemma goodb_spec v i : goodb v i = true <-> not_worse (fit i) v.
Proof. unfold goodb, not_worse. rewrite negb_true_iff. apply ltf_false. Qed.
Lemma has_good_count {P} (s : pop P) v k : has_good s v k <-> k <= length (filter (goodb v) (individuals s)).
Proof.
  set (d := (@nil dbl, @nil dbl)).
  assert (EF : length (filter (goodb v) (individuals s)) = length (filter (fun i => goodb v (nth i (individuals s) d)) (seq 0 (length (individuals s))))).
  { rewrite <- (map_nth_seq d (individuals s)) at 1. generalize (seq 0 (length (individuals s))). induction l as [|i l IH]; [reflexivity|]. cbn. destruct (goodb v (nth i (individuals s) d)); cbn; lia. }
  rewrite EF. split.
  - intros (T & ND & LT & HT). rewrite <- LT. apply NoDup_incl_length; [exact ND|]. intros i Hi. destruct (HT i Hi) as (q & Nq & NW). assert (Hl : i < length (individuals s)) by (apply nth_error_Some; congruence).
    apply filter_In. split; [apply in_seq; lia|]. apply goodb_spec. now rewrite (nth_error_nth _ _ d Nq).
  - set (S := filter _ _). intros Hk. exists (firstn k S). split; [apply nodup_firstn, NoDup_filter, seq_NoDup|]. split; [apply firstn_length_le; exact Hk|]. intros i Hi. apply incl_firstn, filter_In in Hi. destruct Hi as [H1 H2]. apply in_seq in H1. apply goodb_spec in H2.
    assert (Hl : i < length (individuals s)) by lia. exists (nth i (individuals s) d). split; [exact (nth_error_nth' (individuals s) d Hl)|exact H2].
Qed.
Lemma elitist_good {P} p Box (s s' : pop P) v k : elitist p Box s s' -> has_good s v k -> has_good s' v k.
Proof.
  intros (_ & _ & LI & born & dead & LB & _ & PM & HD & _) H. apply has_good_count in H. apply has_good_count. pose proof (perm_filter (goodb v) _ _ PM) as PF. rewrite !filter_app, !app_length in PF.
  destruct (filter (goodb v) dead) as [|j l] eqn:ED; [cbn in PF; lia|]. assert (Hj : In j (filter (goodb v) dead)) by (rewrite ED; now left). apply filter_In in Hj. destruct Hj as [J1 J2]. apply goodb_spec in J2.
  rewrite (filter_all (goodb v) (individuals s')); [pose proof (filter_le (goodb v) (individuals s)); lia|]. intros i Hi. apply goodb_spec. eapply not_worse_trans; [apply (HD i j Hi J1)|exact J2].
Qed.

Lemma Forall2_len {A B} (R : A -> B -> Prop) l l' : Forall2 R l l' -> length l = length l'.
Proof. induction 1; cbn; lia. Qed.
Lemma Forall2_at {A B} (R : A -> B -> Prop) l l' : Forall2 R l l' -> forall i x y, nth_error l i = Some x -> nth_error l' i = Some y -> R x y.
Proof. induction 1 as [|u v l l' H _ IH]; intros [|i] x y H1 H2; try discriminate; cbn in *; [congruence|eauto]. Qed.

Section E.
Context {G P : Type} (r : rng G) (RC : rng_contract r) (srt : sorter) (HS : sort_contract srt) (pw : dbl -> dbl -> dbl) (reseed : problem -> Z -> problem)
  (shuf : forall A, list A -> G -> list A * G) (HSh : shuffle_contract shuf) (binom : nat -> dbl -> G -> nat * G) (HB : binomial_contract binom) (a : sga_params).

(** ** Insertion *)
Lemma insert_ok W (Box : list dbl -> Prop) X F (s : G * pop P) p (E : exn -> Prop) : po_prob (snd s) = p -> valid_pop (snd s) -> get_nf p = 1 -> length X = length (po_id (snd s)) -> Forall2 (evaluated p) X F -> (forall x, In x X -> Box x) ->
  ends_w W (sga_insert srt X F) s (fun _ s' => valid_pop (snd s') /\ elitist p Box (snd s) (snd s') /\ po_fevals (snd s') = po_fevals (snd s)) E.
Proof.
  intros EP V NF LX EV BX. set (s0 := snd s) in *. set (NP := length (po_id s0)) in *. pose proof V as (PO & (S1 & S2 & Fx & Ff & _) & _). fold NP in S1.
  pose proof (Forall2_len _ _ _ EV) as LXF. set (XN := X ++ po_x s0). set (FN := F ++ po_f s0). assert (LXN : length XN = NP + NP) by (unfold XN; rewrite app_length; lia). assert (LFN : length FN = NP + NP) by (unfold FN; rewrite app_length; lia).
  assert (GX : forall x, In x XN -> length x = get_nx p). { intros x Hx. apply in_app_or in Hx. destruct Hx as [Hx|Hx]; [|rewrite <- EP; now apply Fx]. apply In_nth_error in Hx. destruct Hx as (i & Hi). destruct (nth_ex F i) as (f & Nf); [rewrite <- LXF; apply nth_error_Some; congruence|]. pose proof (Forall2_at _ _ _ EV i x f Hi Nf) as (H & _). exact H. }
  assert (GF : forall f, In f FN -> length f = get_nf p). { intros f Hf. apply in_app_or in Hf. destruct Hf as [Hf|Hf]; [|rewrite <- EP; now apply Ff]. apply In_nth_error in Hf. destruct Hf as (i & Hi). destruct (nth_ex X i) as (x & Nx); [rewrite LXF; apply nth_error_Some; congruence|]. pose proof (Forall2_at _ _ _ EV i x f Nx Hi) as (_ & H & _). exact H. }
  unfold sga_insert. apply ends_bind, ends_getp. cbv zeta. fold s0 XN FN. destruct (sorted_ok srt HS FN) as (best & Eb & Pb & Sb). rewrite Eb. apply ends_bind. eapply ends_lift_ok; [reflexivity|].
  assert (LB : length best = NP + NP) by (rewrite <- (Permutation_length Pb), seq_length; exact LFN). assert (RB : forall b, In b best -> b < NP + NP) by (intros b Hb; apply (Permutation_in _ (Permutation_sym Pb)), in_seq in Hb; lia). fold NP.
  eapply ends_weak; [apply (ends_seq _ (fun j _ (t : G * pop P) => valid_pop (snd t) /\ po_prob (snd t) = p /\ po_id (snd t) = po_id s0 /\ po_fevals (snd t) = po_fevals s0 /\ forall k b, k < j -> nth_error best k = Some b -> nth_error (po_x (snd t)) k = nth_error XN b /\ nth_error (po_f (snd t)) k = nth_error FN b) E NP 0)| |auto].
  - split; [exact V|]. split; [exact EP|]. split; [reflexivity|]. split; [reflexivity|]. intros; lia.
  - intros j u t Hj (Vt & Et & It & Ft & Ht). destruct (vget_in_range best j ltac:(lia)) as (b & Eb' & Nb). pose proof (RB b ltac:(eapply nth_error_In; eauto)) as Hb.
    destruct (vget_in_range XN b ltac:(lia)) as (x & Ex & Nx). destruct (vget_in_range FN b ltac:(lia)) as (f & Ef & Nf).
    apply ends_bind. eapply ends_lift_ok; [exact Eb'|]. apply ends_bind. eapply ends_lift_ok; [exact Ex|]. apply ends_bind. eapply ends_lift_ok; [exact Ef|].
    pose proof Vt as (_ & (T1 & T2 & _) & _). rewrite It in T1. fold NP in T1.
    apply ends_pset; [exact Vt|rewrite It; fold NP; lia|rewrite Et; apply GX; eapply nth_error_In; eauto|rewrite Et; apply GF; eapply nth_error_In; eauto|]. intros c _ V'. cbn [snd]. split; [exact V'|]. split; [exact Et|]. split; [exact It|]. split; [exact Ft|].
    intros k b' Hk Nb'. cbn [setp po_x po_f]. destruct (Nat.eq_dec k j) as [->|N].
    + rewrite !upd_same by lia. replace b' with b by congruence. now rewrite Nx, Nf.
    + rewrite !upd_other by exact N. apply Ht; [lia|exact Nb'].
  - intros u t (Vt & Et & It & Ft & Ht). cbn [Nat.add] in Ht. split; [exact Vt|]. split; [|exact Ft]. pose proof Vt as (_ & (T1 & T2 & _) & _). rewrite It in T1. fold NP in T1.
    set (C := combine XN FN). set (d := (@nil dbl, @nil dbl)). assert (LC : length C = NP + NP) by (unfold C; rewrite combine_length; lia). set (at_ := fun b => nth b C d).
    assert (EC : C = combine X F ++ individuals s0) by (unfold C, XN, FN; apply combine_app; exact LXF).
    assert (EI : individuals (snd t) = map at_ (firstn NP best)).
    { apply list_ext_error. intros k. destruct (Nat.lt_ge_cases k NP) as [C1|C1].
      - destruct (nth_ex best k ltac:(lia)) as (b & Nb). pose proof (RB b ltac:(eapply nth_error_In; eauto)) as Hb. destruct (nth_ex XN b ltac:(lia)) as (x & Nx). destruct (nth_ex FN b ltac:(lia)) as (f & Nf). destruct (Ht k b C1 Nb) as [H1 H2].
        rewrite nth_error_map, nth_error_firstn, Nb by exact C1. cbn. unfold individuals. rewrite (combine_nth_error _ _ k x f) by congruence. unfold at_. f_equal. symmetry. apply nth_error_nth. now apply combine_nth_error.
      - rewrite !(proj2 (nth_error_None _ _)); [reflexivity|rewrite map_length, firstn_length; lia|unfold individuals; rewrite combine_length; lia]. }
    assert (VB : forall b, b < NP + NP -> fit (at_ b) = value FN b). { intros b Hb. unfold fit, at_, value. destruct (nth_ex XN b ltac:(lia)) as (x & Nx). destruct (nth_ex FN b ltac:(lia)) as (f & Nf). rewrite (nth_error_nth C b d (combine_nth_error _ _ b x f Nx Nf)), (nth_error_nth FN b [] Nf). reflexivity. }
    assert (CMP : forall b c, In b best -> In c best -> less_than_f (value FN c) (value FN b) = false -> not_worse (fit (at_ b)) (fit (at_ c))) by (intros b c Hb Hc H; rewrite !VB by (apply RB; assumption); unfold not_worse; now apply ltf_false).
    split; [rewrite Et; symmetry; exact EP|]. split; [exact It|]. split; [rewrite EI, map_length, firstn_length; unfold individuals; rewrite combine_length; lia|].
    exists (combine X F), (map at_ (skipn NP best)). split; [unfold individuals; rewrite !combine_length; lia|]. split; [|split; [|split]].
    + intros q Hq. apply combine_in_nth in Hq. destruct Hq as (i & H1 & H2). split; [exact (Forall2_at _ _ _ EV i _ _ H1 H2)|apply BX; eapply nth_error_In; eauto].
    + rewrite <- EC, EI, <- map_app, firstn_skipn. rewrite <- (map_nth_seq d C) at 1. rewrite LC, <- LFN. apply Permutation_map. exact Pb.
    + intros i j Hi Hj. rewrite EI in Hi. apply in_map_iff in Hi, Hj. destruct Hi as (b & <- & Hb), Hj as (c & <- & Hc). apply CMP; [eapply incl_firstn; eauto|rewrite <- (firstn_skipn NP best); apply in_or_app; now right|].
      rewrite <- (firstn_skipn NP best) in Sb. exact (sorted_by_app _ _ _ b c Sb Hb Hc).
    + intros k l i j Hkl Ni Nj. rewrite EI, nth_error_map in Ni, Nj. destruct (nth_error (firstn NP best) k) as [b|] eqn:Nb; [|discriminate]. destruct (nth_error (firstn NP best) l) as [c|] eqn:Nc; [|discriminate]. cbn in Ni, Nj. injection Ni as <-. injection Nj as <-.
      assert (Kl : l < NP) by (assert (l < length (firstn NP best)) by (apply nth_error_Some; congruence); rewrite firstn_length in *; lia). rewrite nth_error_firstn in Nb, Nc by lia. apply CMP; [eapply nth_error_In; eauto..|]. exact (sorted_by_nth _ _ k l b c Sb Hkl Nb Nc).
Qed.
(** ** Evaluation of the offspring *)
Lemma evaluate_ok W X (p : problem) (E : exn -> Prop) : fitness_defined p -> (forall e, fitness_throws p e -> E e) -> (forall x, In x X -> length x = get_nx p) -> forall (s : G * pop P), po_prob (snd s) = p -> valid_pop (snd s) ->
  ends_w W (rmap peval X) s (fun F s' => Forall2 (evaluated p) X F /\ valid_pop (snd s') /\ evals (length X) (snd s) (snd s') /\ exists n, s' = (fst s, with_fevals (snd s) n)) E.
Proof.
  intros FD HE. induction X as [|x X IH]; intros HX s EP V; cbn [rmap].
  - apply ends_ret. split; [constructor|]. split; [exact V|]. split; [apply evals_0|]. exists (po_fevals (snd s)). destruct s as [g []]. reflexivity.
  - apply ends_bind. apply (ends_peval p); auto; [apply HX; now left|]. intros f EVf. apply ends_bind. set (s1 := (fst s, with_fevals (snd s) _)).
    eapply ends_weak; [apply (IH (fun y Hy => HX y (or_intror Hy)) s1); [exact EP|apply valid_fevals; exact V]| |auto]. intros F s' (H1 & H2 & H3 & n & H4). apply ends_ret. split; [now constructor|]. split; [exact H2|]. split; [|exists n; rewrite H4; destruct s as [g []]; reflexivity].
    cbn [length]. change (S (length X)) with (1 + length X). eapply (evals_trans 1 (length X)); [|exact H3]. apply (evals_S 0), evals_0.
Qed.
(** ** A generation *)
Lemma sel_pick (xs : list (list dbl)) sel : (forall k, In k sel -> k < length xs) -> exists Y, mmap (vget xs) sel = Ok Y /\ length Y = length sel /\ forall y, In y Y -> In y xs.
Proof.
  induction sel as [|k sel IH]; intros H; [exists []; repeat split; auto; intros y []|]. destruct (vget_in_range xs k (H k (or_introl eq_refl))) as (x & Ex & Nx). destruct IH as (Y & E1 & E2 & E3); [intros j Hj; apply H; now right|].
  cbn [mmap]. rewrite Ex. cbn [bind]. rewrite E1. cbn [bind]. exists (x :: Y). split; [reflexivity|]. split; [cbn; lia|]. intros y [<-|Hy]; [eapply nth_error_In; eauto|auto].
Qed.
(** Conditions under which individuals with Pre give offspring with Post *)
Record breeding (p : problem) (Pre Post : list dbl -> Prop) : Prop := {
  br_mix : forall c x y, Pre x -> Pre y -> length x = get_nx p -> length y = get_nx p -> genes_of c x y -> Pre c;
  br_sbx : forall x y, Pre x -> Pre y -> length x = get_nx p -> length y = get_nx p -> always (sbx_crossover_impl r pw x y (p_lb p) (p_ub p) (p_nix p) (sg_cr a) (sg_eta a)) (fun cs => (length (fst cs) = get_nx p /\ Pre (fst cs)) /\ (length (snd cs) = get_nx p /\ Pre (snd cs))) (cannot_draw p);
  br_mut : forall x order N, length x = get_nx p -> Pre x -> NoDup order -> (forall g, In g order -> g < length x) -> N <= length order -> always (mutate_genes r pw a (get_nx p - p_nix p) (p_lb p) (p_ub p) order N x) Post (cannot_draw p);
  br_len : forall x, Post x -> length x = get_nx p;
  br_next : forall x, Post x -> Pre x
}.
Lemma offspring_ok p Pre Post (s : G * pop P) : breeding p Pre Post -> po_prob (snd s) = p -> valid_pop (snd s) -> get_nf p = 1 -> ready a (length (po_id (snd s))) -> (forall x, In x (po_x (snd s)) -> Pre x) ->
  ends (sga_offspring r srt pw shuf binom a) s (fun X s' => snd s' = snd s /\ length X = length (po_id (snd s)) /\ forall x, In x X -> Post x) (cannot_draw p).
Proof.
  intros BR EP V NF (H2 & Hps & HEV & M1 & M2) HP. pose proof V as (PO & (S1 & S2 & Fx & Ff & _) & _). rewrite EP in *. destruct (prob_obj_lens p PO) as [L1 L2]. pose proof (prob_obj_facts p PO) as (NX & _).
  unfold sga_offspring. apply ends_bind, ends_getp. cbv zeta. rewrite EP. apply ends_bind. eapply ends_eng; [apply (select_ok r RC srt HS a (po_f (snd s)) (cannot_draw p)); [intros f Hf; rewrite <- NF; now apply Ff|rewrite <- S2, <- S1; exact Hps]|].
  intros sel g (LS & RS & _). cbv beta. destruct (sel_pick (po_x (snd s)) sel) as (X1 & E1 & LX1 & IX1); [intros k Hk; specialize (RS k Hk); lia|]. apply ends_bind. eapply ends_lift_ok; [exact E1|].
  assert (LX : length X1 = length (po_id (snd s))) by lia. apply ends_bind. eapply ends_eng.
  - apply (cross_keeps r RC pw shuf HSh a X1 (p_lb p) (p_ub p) (p_nix p) (get_nx p) Pre (cannot_draw p)); [lia|intros x Hx; apply IX1 in Hx; split; [now apply Fx|now apply HP]|lia|rewrite LX; exact HEV|apply (br_mix p Pre Post BR)|apply (br_sbx p Pre Post BR)].
  - intros X2 g2 (LX2 & HX2). eapply ends_eng.
    + apply (mutate_keeps r pw shuf HSh binom HB a X2 (p_lb p) (p_ub p) (p_nix p) Pre Post (cannot_draw p)); [intros ->; cbn in LX2; lia|intros x Hx; rewrite L1; now apply HX2|exact M1|exact M2|]. intros x order N. rewrite L1. apply (br_mut p Pre Post BR).
    + intros Y g3 (LY & HY). cbn [snd]. split; [reflexivity|]. split; [lia|exact HY].
Qed.
(** Without a seed the first step does nothing. *)
Lemma reseed_none W (s : G * pop P) (Q : unit -> G * pop P -> Prop) (E : exn -> Prop) : u_set_seed (p_udp (po_prob (snd s))) = false -> Q tt s -> ends_w W (sea_reseed r reseed) s Q E.
Proof. intros H K. unfold sea_reseed. apply ends_bind, ends_getp. rewrite H. now apply ends_ret. Qed.
Lemma elitist_pre p (Pre Post : list dbl -> Prop) (s s' : pop P) : valid_pop s -> valid_pop s' -> (forall x, Post x -> Pre x) -> elitist p Post s s' -> (forall x, In x (po_x s) -> Pre x) -> forall x, In x (po_x s') -> Pre x.
Proof.
  intros V V' PP (_ & _ & _ & born & dead & _ & HB' & PM & _) H x Hx. pose proof V' as (_ & (S1' & S2' & _) & _). apply In_nth_error in Hx. destruct Hx as (i & Ni). destruct (nth_ex (po_f s') i) as (f & Nf); [rewrite <- S2'; apply nth_error_Some; congruence|].
  assert (I : In (x, f) (individuals s')) by (apply (nth_error_In _ i); now apply combine_nth_error). assert (I' : In (x, f) (born ++ individuals s)) by (eapply Permutation_in; [apply Permutation_sym; exact PM|apply in_or_app; now left]).
  apply in_app_or in I'. destruct I' as [I'|I']; [apply PP; apply (HB' _ I')|]. apply H. unfold individuals in I'. apply in_combine_l in I'. exact I'.
Qed.
Lemma generation_ok p Pre Post (s : G * pop P) : breeding p Pre Post -> po_prob (snd s) = p -> valid_pop (snd s) -> plain_single p -> fitness_defined p -> ready a (length (po_id (snd s))) -> (forall x, In x (po_x (snd s)) -> Pre x) ->
  ends (sga_generation r srt pw reseed shuf binom a) s (fun _ s' => valid_pop (snd s') /\ elitist p Post (snd s) (snd s') /\ evals (length (po_id (snd s))) (snd s) (snd s')) (fails p).
Proof.
  intros BR EP V (NC & NF & NS) FD RD HP. unfold sga_generation. apply ends_bind, reseed_none; [rewrite EP; exact NS|]. apply ends_bind.
  eapply ends_weak; [apply (offspring_ok p Pre Post s BR EP V NF RD HP)| |intros e He; right; exact He]. intros X s1 (E1 & LX & HX). apply ends_bind.
  eapply ends_weak; [apply (evaluate_ok False X p (fails p) FD); [intros e He; now left|intros x Hx; apply (br_len p Pre Post BR), HX, Hx|rewrite E1; exact EP|rewrite E1; exact V]| |auto].
  intros F s2 (EV & V2 & CE & n & E2). assert (S2 : snd s2 = with_fevals (snd s) n) by (rewrite E2; cbn [snd]; now rewrite E1).
  eapply ends_weak; [apply (insert_ok False Post X F s2 p (fails p)); [rewrite S2; exact EP|exact V2|exact NF|rewrite S2; exact LX|exact EV|exact HX]| |auto].
  intros u s3 (V3 & EL & FE). split; [exact V3|]. split; [rewrite S2 in EL; exact EL|]. rewrite E1, LX in CE. unfold evals in *. rewrite FE. exact CE.
Qed.
Lemma evolve_ok p Pre Post (s : G * pop P) : breeding p Pre Post -> po_prob (snd s) = p -> valid_pop (snd s) -> plain_single p -> fitness_defined p -> ready a (length (po_id (snd s))) -> (forall x, In x (po_x (snd s)) -> Pre x) ->
  ends (sga_evolve r srt pw reseed shuf binom a) s (fun _ s' => valid_pop (snd s') /\ generations p Post (sg_gen a) (snd s) (snd s') /\ evals (sg_gen a * length (po_id (snd s))) (snd s) (snd s')) (fails p).
Proof.
  intros BR EP V PS FD RD HP. pose proof PS as (NC & NF & NS). pose proof RD as (H2 & Hps & HEV & _). unfold sga_evolve. apply ends_bind, ends_getp. cbv zeta. rewrite EP, NC, NF. cbn [Nat.eqb negb].
  destruct (Nat.ltb_spec (length (po_id (snd s))) 2); [lia|]. destruct (Nat.ltb_spec (length (po_id (snd s))) (sg_ps a)); [lia|].
  assert (EB : (match sg_cross a with SBX => true | _ => false end) && negb (length (po_id (snd s)) mod 2 =? 0) = false).
  { destruct (sg_cross a); try reflexivity. specialize (HEV eq_refl). apply Nat.even_spec in HEV. destruct HEV as [h ->]. rewrite Nat.mul_comm, Nat.mod_mul by lia. reflexivity. }
  rewrite EB. eapply ends_weak; [apply (ends_seq _ (fun n _ (t : G * pop P) => po_prob (snd t) = p /\ po_id (snd t) = po_id (snd s) /\ valid_pop (snd t) /\ (forall x, In x (po_x (snd t)) -> Pre x) /\ generations p Post n (snd s) (snd t) /\ evals (n * length (po_id (snd s))) (snd s) (snd t)) (fails p) (sg_gen a) 0)| |auto].
  - split; [exact EP|]. split; [reflexivity|]. split; [exact V|]. split; [exact HP|]. split; [constructor|]. apply evals_0.
  - intros n u t Hn (Et & It & Vt & Pt & Gt & Ct). eapply ends_weak; [apply (generation_ok p Pre Post t BR Et Vt PS FD); [rewrite It; exact RD|exact Pt]| |auto]. intros u' t' (V' & EL & CE). pose proof EL as (Q1 & Q2 & _).
    split; [congruence|]. split; [congruence|]. split; [exact V'|]. split; [eapply elitist_pre; [exact Vt|exact V'|apply (br_next p Pre Post BR)|exact EL|exact Pt]|]. rewrite Nat.add_1_r. split; [econstructor; eauto|].
    replace (S n * length (po_id (snd s))) with (n * length (po_id (snd s)) + length (po_id (snd s))) by lia. eapply evals_trans; [exact Ct|]. rewrite <- It. exact CE.
  - intros u t (_ & _ & Vt & _ & Gt & Ct). auto.
Qed.
Lemma generations_good p Box n (s s' : pop P) v k : generations p Box n s s' -> has_good s v k -> has_good s' v k.
Proof. induction 1; auto. intros. eapply elitist_good; eauto. Qed.

(** ** The two instances *)
Lemma breeding_any p : prob_obj p -> draws_ok a p -> breeding p (fun _ => True) (in_box_or_nan (p_lb p) (p_ub p)).
Proof.
  intros PO DO. destruct (prob_obj_lens p PO) as [L1 L2]. split; auto.
  - intros x y _ _ Lx Ly. eapply always_weak; [apply (sbx_exchange r RC pw x y (p_lb p) (p_ub p) (p_nix p) (sg_cr a) (sg_eta a)); [lia|lia|lia|apply (prob_obj_bounds p PO)]| |contradiction]. intros cs (H1 & H2 & _). split; (split; [lia|exact I]).
  - intros x order N Lx _ ND RO HN. apply (mutate_any r RC pw a p x order N PO DO); auto.
  - intros x (H & _). lia.
Qed.
Lemma breeding_tame p : pow_contract pw -> finite_normals r -> prob_obj p -> draws_ok a p -> moderate_bounds p -> sane_mutation a -> within done dhundred (sg_eta a) -> breeding p (tame p) (tame p).
Proof.
  intros PC FN PO DO MB SM EB. destruct (prob_obj_lens p PO) as [L1 L2]. split; auto.
  - intros c x y Tx Ty _ _ Gc. exact (genes_tame p c x y Tx Ty Gc).
  - intros x y Tx Ty Lx Ly. eapply always_weak; [apply (sbx_tame r RC pw a PC p x y PO MB EB Tx Ty)| |contradiction]. intros cs (T1 & T2). pose proof T1 as ((K1 & _) & _). pose proof T2 as ((K2 & _) & _). split; (split; [lia|assumption]).
  - intros x order N Lx Tx ND RO HN. apply (mutate_tame r RC pw a PC FN p x order N PO DO MB SM Tx ND RO HN).
  - intros x ((H & _) & _). lia.
Qed.
End E.
