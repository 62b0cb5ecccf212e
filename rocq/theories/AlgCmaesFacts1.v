From Coq Require Import List Bool Arith ZArith Lia Permutation.
From Verif Require Import Dbl DblFacts IntDbl Outcome StdSort BaseFacts Compare CompareFacts Problem SpecProblem ProblemFacts2 Rng SpecGeneric SpecGenetic Generic GeneticOps GeneticFacts RmFacts Population SpecPopulation PopulationFacts PopulationFacts3
  Algo SpecAlgo SpecNsga2 AlgNsga2 AlgoFacts AlgoFacts2 AlgGaco AlgGacoFacts AlgGacoFacts2 AlgGacoFacts4 AlgSgaFacts AlgEigen AlgEigenFacts AlgMem AlgMemFacts AlgCmaes SpecCmaes AlgCmaesFacts.
Import ListNotations.

Lemma okp_and {A} (o : outcome A) (Q Q' : A -> Prop) : okp o Q -> okp o Q' -> okp o (fun a => Q a /\ Q' a).
Proof. intros (a & E & H) (b & E' & H'). assert (a = b) by congruence. subst b. exists a. auto. Qed.
Lemma map2_nth {A B C} (f : A -> B -> C) l l' j a b : nth_error l j = Some a -> nth_error l' j = Some b -> nth_error (map2 f l l') j = Some (f a b).
Proof.
  unfold map2. revert l l'. induction j as [|j IH]; intros [|x l] [|y l'] H1 H2; try discriminate; cbn in *; [injection H1 as ->; injection H2 as ->; reflexivity|]. now apply IH.
Qed.
Lemma map_nth_some {A B} (f : A -> B) l j a : nth_error l j = Some a -> nth_error (map f l) j = Some (f a).
Proof. intros H. now apply map_nth_error. Qed.
Lemma nth_some {A} (l : list A) j d : j < length l -> nth_error l j = Some (nth j l d).
Proof. intros H. now apply nth_error_nth'. Qed.
Lemma firstn_S {A} (l : list A) i x : nth_error l i = Some x -> firstn (S i) l = firstn i l ++ [x].
Proof. revert l. induction i as [|i IH]; intros [|y l] H; try discriminate; cbn in *; [now injection H as ->|]. now rewrite (IH l H). Qed.
Lemma combine_nth_some {A B} (l : list A) (l' : list B) i a b : nth_error l i = Some a -> nth_error l' i = Some b -> nth_error (combine l l') i = Some (a, b).
Proof. revert l l'. induction i as [|i IH]; intros [|x l] [|y l'] H1 H2; try discriminate; cbn in *; [congruence|]. now apply IH. Qed.

Lemma weighted_sum_ok dim vs w : 0 < length vs -> length w = length vs -> (forall v, In v vs -> length v = dim) -> okp (weighted dim vs w) (fun m => weighted_sum vs w dim m).
Proof.
  intros H0 Lw L. unfold weighted. unfold vec in *. destruct vs as [|v0 vs]; [cbn in H0; lia|]. destruct w as [|w0 w]; [discriminate|]. cbn [length] in *. cbn [vget nth_error bind]. unfold vget at 1. cbn [nth_error bind].
  unfold weighted_sum. cbn [hd tl]. replace (S (length vs) - 1) with (length vs) by lia. set (F := fun j q => dmul (nth j (fst q) NaN) (snd q)).
  set (J := fun i (m : vec) => length m = dim /\ forall j, j < dim -> nth_error m j = Some (fold_left dadd (map (F j) (firstn (i - 1) (combine vs w))) (dmul (nth j v0 NaN) w0))).
  assert (L0 : length v0 = dim) by (apply L; now left).
  eapply okp_weak; [apply (okp_seq _ J)|].
  - split; [now rewrite vtimes_len|]. intros j Hj. cbn [Nat.sub firstn map fold_left]. unfold vtimes. rewrite (map_nth_some _ v0 j (nth j v0 NaN)); [reflexivity|]. apply nth_some. vlia.
  - intros i m Hi (Hm & Hj). destruct i as [|i]; [lia|]. assert (Hi' : i < length vs) by vlia.
    unfold vget. cbn [nth_error]. rewrite (nth_some vs i [] Hi'). cbn [bind]. rewrite (nth_some w i NaN) by vlia. cbn [bind].
    assert (Lv : length (nth i vs []) = dim) by (apply L; right; now apply nth_In).
    destruct (vplus_ok dim m (vtimes (nth i vs []) (nth i w NaN)) Hm) as (m' & E & Lm'); [now rewrite vtimes_len|]. rewrite E. apply okp_ret. split; [exact Lm'|]. intros j Hjd.
    unfold vplus in E. destruct (vsz dim m && vsz dim _); [|discriminate]. injection E as <-.
    erewrite map2_nth; [|apply (Hj j Hjd)|unfold vtimes; apply map_nth_some; apply (nth_some _ j NaN); vlia]. f_equal.
    replace (S (S i) - 1) with (S i) by lia. replace (S i - 1) with i by lia.
    rewrite (firstn_S (combine vs w) i (nth i vs [], nth i w NaN)); [|apply combine_nth_some; apply nth_some; vlia]. rewrite map_app, fold_left_app. reflexivity.
  - intros m (Hm & Hj). split; [exact Hm|]. intros j Hjd. rewrite (Hj j Hjd). do 3 f_equal. rewrite firstn_all2; [reflexivity|]. rewrite combine_length. vlia.
Qed.

Section S.
Context {P : Type} (srt : sorter) (SC : sort_contract srt) (K : eigen) (KC : eigen_contract K).
Lemma cm_elite_best (s : pop P) : valid_pop s -> fine (po_prob s) -> okp (cm_elite srt (get_nx (po_prob s)) (length (po_id s) / 2) s) (better_half s).
Proof.
  intros V F. destruct (stored_lens s V) as (L1 & L2 & L3 & L4). destruct F as (_ & _ & NF). unfold cm_elite.
  eapply okp_bind; [apply (okp_mmap _ (fun f v => v = obj f)); intros f Hf; apply okp_vget; [rewrite (L4 f Hf); lia|]; intros v Hv; unfold obj; symmetry; now apply nth_error_nth|]. intros fs Ffs.
  destruct (std_sort_ok srt (fun i j => less_than_f (nth i fs NaN) (nth j fs NaN)) (seq 0 (length (po_id s))) SC) as (idx & Ei & Pm & So); [apply (ltf_key_swo (fun i => nth i fs NaN))|].
  rewrite Ei. cbn [bind]. pose proof (Permutation_length Pm) as Lp. rewrite seq_length in Lp. pose proof (F2_len _ _ _ Ffs) as Lf.
  assert (Hfs : forall i f, nth_error (po_f s) i = Some f -> nth i fs NaN = obj f).
  { intros i f Hf. assert (Hi : i < length fs) by (rewrite <- Lf; apply nth_error_Some; congruence). destruct (F2_nth _ _ _ Ffs i (nth i fs NaN)) as (f' & A & B); [now apply nth_some|]. congruence. }
  assert (Hb : forall i b, nth_error idx i = Some b -> b < length (po_id s)) by (intros i b Hb; apply nth_error_In in Hb; apply (Permutation_in _ (Permutation_sym Pm)) in Hb; apply in_seq in Hb; lia).
  set (mu := length (po_id s) / 2). assert (Hmu : mu <= length (po_id s)) by (unfold mu; apply Nat.div_le_upper_bound; lia).
  eapply okp_weak; [apply (okp_mmap _ (fun i v => exists b, nth_error idx i = Some b /\ v = nth b (po_x s) []))|].
  - intros i Hi. apply in_seq in Hi. eapply okp_bind with (Q1 := fun b => nth_error idx i = Some b); [apply okp_vget; [lia|auto]|]. intros b Eb. pose proof (Hb i b Eb) as Hbl.
    eapply okp_bind with (Q1 := fun x => nth_error (po_x s) b = Some x); [apply okp_vget; [lia|auto]|]. intros x Hx.
    eapply okp_weak; [apply copy_ok; apply L3; eapply nth_error_In; exact Hx|]. intros v ->. exists b. split; [exact Eb|]. symmetry. now apply nth_error_nth.
  - intros e Fe. exists idx. split; [now apply Permutation_sym|]. split.
    + intros i j a b fa fb Hij Ha Hb' Hfa Hfb. rewrite <- (Hfs _ _ Hfa), <- (Hfs _ _ Hfb). exact (sorted_by_nth _ idx i j a b So Hij Ha Hb').
    + pose proof (F2_len _ _ _ Fe) as Le. rewrite seq_length in Le. fold mu. apply vec_ext.
      intros i. unfold vec in *. destruct (nth_error e i) as [v|] eqn:E.
      * destruct (F2_seq _ _ _ Fe i v E) as (Hi & b & Eb & ->). symmetry. apply (map_nth_some (fun i => nth i (po_x s) []) _ i b). rewrite nth_error_firstn by lia. exact Eb.
      * symmetry. apply nth_error_None. apply nth_error_None in E. rewrite map_length, firstn_length. vlia.
Qed.
Lemma okm (x y : cmem) : Ok x = Ok y -> ce_mean x = ce_mean y.
Proof. congruence. Qed.
Lemma cm_adapt_mean c dim lam k elite : 0 < length elite -> length (ra_w c) = length elite -> (forall v, In v elite -> length v = dim) -> forall k', cm_adapt K c dim lam k elite = Ok k' -> weighted_sum elite (ra_w c) dim (ce_mean k').
Proof.
  intros H0 Lw L k' E. destruct (weighted_sum_ok dim elite (ra_w c) H0 Lw L) as (m & Em & Hm). unfold cm_adapt in E. rewrite Em in E. cbn [bind] in E.
  replace (ce_mean k') with m; [exact Hm|]. revert E.
  repeat match goal with |- bind ?o _ = Ok _ -> _ => destruct o as [?|?| |]; cbn [bind]; [|intros D; discriminate D|intros D; discriminate D|intros D; discriminate D] end.
  destruct (dgt _ _); [|intros E; apply okm in E; cbn [ce_mean] in E; exact E].
  repeat match goal with |- bind ?o _ = Ok _ -> _ => destruct o as [?|?| |]; cbn [bind]; [|intros D; discriminate D|intros D; discriminate D|intros D; discriminate D] end.
  destruct (e_eigh _ _) as [[V l]|]; [|intros E; apply okm in E; cbn [ce_mean] in E; exact E].
  repeat match goal with |- bind ?o _ = Ok _ -> _ => destruct o as [?|?| |]; cbn [bind]; [|intros D; discriminate D|intros D; discriminate D|intros D; discriminate D] end.
  intros E; apply okm in E; cbn [ce_mean] in E; exact E.
Qed.
End S.
Lemma force_one_made p x : prob_obj p -> length x = get_nx p -> okp (force_one p x) (fun y => made_of true p x y).
Proof.
  intros PO L. destruct (prob_obj_lens p PO) as [LB UB]. unfold force_one.
  eapply okp_weak; [apply (okp_mmap _ (fun j y => exists l u v, nth_error x j = Some v /\ nth_error (p_lb p) j = Some l /\ nth_error (p_ub p) j = Some u /\ y = clamp l u v))|].
  - intros j Hj. apply in_seq in Hj. eapply okp_bind with (Q1 := fun v => nth_error x j = Some v); [apply okp_vget; [lia|auto]|]. intros v Hv.
    eapply okp_bind with (Q1 := fun l => nth_error (p_lb p) j = Some l); [apply okp_vget; [lia|auto]|]. intros l Hl.
    eapply okp_bind with (Q1 := fun l => nth_error (p_ub p) j = Some l); [apply okp_vget; [lia|auto]|]. intros u Hu. apply okp_ret. exists l, u, v. auto.
  - intros y Fy. pose proof (F2_len _ _ _ Fy) as Ly. rewrite seq_length in Ly. split; [lia|]. intros j l u v w Hl Hu Hv Hw.
    destruct (F2_seq _ _ _ Fy j w Hw) as (_ & l' & u' & v' & A & B & C & ->). rewrite Hl in B. rewrite Hu in C. rewrite Hv in A. injection A as <-. injection B as <-. injection C as <-. reflexivity.
Qed.
Lemma force_all_made p l : prob_obj p -> (forall x, In x l -> length x = get_nx p) -> okp (mmap (force_one p) l) (fun l' => Forall2 (made_of true p) l l').
Proof. intros PO L. apply okp_mmap. intros x Hx. apply force_one_made; auto. Qed.
Lemma made_same p l : Forall2 (made_of false p) l l.
Proof. induction l; constructor; [|assumption]. split; [reflexivity|]. intros. congruence. Qed.
Lemma F2_impl {A B} (R R' : A -> B -> Prop) l l' : (forall a b, R a b -> R' a b) -> Forall2 R l l' -> Forall2 R' l l'.
Proof. intros H. induction 1; constructor; auto. Qed.
