From Coq Require Import List Bool Arith ZArith Lia.
From Verif Require Import Dbl DblFacts IntDbl Outcome BaseFacts StdSort SpecOrder Compare CompareFacts Problem SpecProblem ProblemFacts Rng Generic SpecGeneric GenericFacts GenericFacts2 GenericFacts3 SpecGenetic RmFacts
  GeneticOps GeneticFacts Constrained SpecConstrained ConstrainedFacts ConstrainedFacts2 Population SpecPopulation PopulationFacts Algo SpecAlgo AlgoFacts AlgoFacts2 NotPop SpecLocal AlgCompass AlgCompassFacts AlgSaFacts AlgMbh.
Import ListNotations.

Lemma improves_len p f n f' : length f = get_nf p -> improves p f n f' -> length f' = get_nf p.
Proof. intros L H. destruct H; auto. Qed.
Lemma improves_means p f n f' : prob_obj p -> p_nobj p = 1 -> length f = get_nf p -> finite_all (p_ctol p) -> improves p f n f' ->
  (feasible (p_nec p) (p_ctol p) f -> feasible (p_nec p) (p_ctol p) f' /\ (n = 0 /\ f' = f \/ better (obj f') (obj f))) /\
  (forall k k', exactly k (satisfied (p_nec p) (p_ctol p) f) -> exactly k' (satisfied (p_nec p) (p_ctol p) f') -> k <= k').
Proof.
  intros PO NO Lf FT D. induction D as [|n g f' D IH LH PR].
  - split; [auto|]. intros k k' A B. rewrite (exactly_unique _ _ _ A B). lia.
  - pose proof (improves_len _ _ _ _ Lf D) as Lg. destruct IH as [I1 I2]. pose proof (fc_ok p g PO NO Lg) as Ag. pose proof (fc_ok p f' PO NO LH) as Af'.
    destruct (compare_fc_spec f' g _ _ Af' Ag FT) as (b & E & C1 & C2 & C3 & C4). unfold preferred in PR. rewrite PR in E. injection E as <-.
    split.
    + intros Fe. destruct (I1 Fe) as [Fg Og]. assert (Ff' : feasible (p_nec p) (p_ctol p) f').
      { destruct (fc_feasible _ _ f' Af' FT) as [_ K]. destruct (Nat.eq_dec (fc_count (p_nec p) (p_ctol p) f') (length (p_ctol p))) as [Y|N]; [apply K; exact Y|]. exfalso. assert (true = false) by (apply C4; [intros X; apply N, K, X|exact Fg]). discriminate. }
      split; [exact Ff'|]. right. assert (B : better (obj f') (obj g)) by (apply (C2 Ff' Fg); reflexivity). destruct Og as [[_ ->]|B']; [exact B|exact (CompareFacts.better_trans _ _ _ B B')].
    + intros k k' A B. pose proof (fc_count_exact _ _ g Ag FT) as Cg. specialize (I2 _ _ A Cg). destruct (le_lt_dec (fc_count (p_nec p) (p_ctol p) g) k'); [lia|].
      exfalso. destruct (C1 k' _ B Cg) as [_ X]. specialize (X l). discriminate.
Qed.

Lemma nth_ext_error {A} (l l' : list A) : length l = length l' -> (forall i, i < length l -> nth_error l i = nth_error l' i) -> l = l'.
Proof.
  revert l'. induction l as [|a l IH]; intros [|b l'] L H; try discriminate; [reflexivity|]. pose proof (H 0 ltac:(cbn; lia)) as H0. cbn in H0. injection H0 as ->. f_equal. apply IH; [now injection L|]. intros i Hi. apply (H (S i)). cbn. lia.
Qed.
Lemma Forall2_len {A B} (R : A -> B -> Prop) l l' : Forall2 R l l' -> length l = length l'.
Proof. induction 1; cbn; auto. Qed.

Lemma forall2_seq {B} (R : nat -> B -> Prop) n : forall a l, Forall2 R (seq a n) l -> forall i v, nth_error l i = Some v -> i < n /\ R (a + i) v.
Proof.
  induction n as [|n IH]; intros a l H i v E; inversion H; subst; [destruct i; discriminate|]. destruct i as [|i]; cbn in E.
  - injection E as <-. rewrite Nat.add_0_r. split; [lia|assumption].
  - destruct (IH _ _ H4 i v E) as [A C]. split; [lia|]. replace (a + S i) with (S a + i) by lia. exact C.
Qed.
Section M.
Context {G P : Type} (r : rng G) (RC : rng_contract r) (srt : sorter) (inner : AM (G := G) (P := P) unit) (m_stop : nat).
Lemma psetx_eq j x (s : G * pop P) : psetx j x s = rbind (peval x) (fun f => pset j x f) s.
Proof. unfold psetx, set_x, with_fitness, rbind, peval, pset. destruct (fitness _ _ x) as [[f|e| |] c]; reflexivity. Qed.
Lemma best_f_iff (s : pop P) f : best_f srt s = Ok f <-> best_fitness srt s f.
Proof.
  unfold best_f, best_fitness. destruct (best_idx srt s) as [b|e| |]; cbn [bind]; [|split; [discriminate|intros (b & X & _); discriminate]..].
  unfold vget. split.
  - destruct (nth_error (po_f s) b) eqn:E; [|discriminate]. intros X. injection X as ->. eauto.
  - intros (b' & X & Y). injection X as <-. rewrite Y. reflexivity.
Qed.
Lemma best_f_ext (s t : pop P) : po_f s = po_f t -> po_prob s = po_prob t -> length (po_id s) = length (po_id t) -> best_f srt s = best_f srt t.
Proof. intros A B C. unfold best_f, best_idx, best_idx_tol. rewrite A, B, C. reflexivity. Qed.
Lemma ranked_ext (s t : pop P) : po_f s = po_f t -> po_prob s = po_prob t -> ranked srt s -> ranked srt t.
Proof. unfold ranked. intros -> ->. auto. Qed.

Context (p : problem) (PO : prob_obj p) (NO : p_nobj p = 1) (FD : fitness_defined p) (DL : Forall is_double (p_lb p)) (DU : Forall is_double (p_ub p)).
Context (perturb : list dbl) (LP : length perturb = get_nx p) (PP : Forall (fun v => dlt dzero v = true /\ dle v done = true) perturb).
Context (NP : nat) (NP0 : 0 < NP) (Ei : exn -> Prop) (KI : keeps srt p NP Ei inner).
Local Notation Box := (in_box (p_lb p) (p_ub p)).
Local Notation E := (fun e => fails p e \/ Ei e).

Lemma best_f_ok (s : pop P) : pop_of p NP s -> ranked srt s -> exists f, best_f srt s = Ok f /\ length f = get_nf p.
Proof.
  intros (V & EP & LI & _) RK. destruct (idx_valid srt s V) as (b & _ & Eb & Hb & _); auto; [congruence|intros X; rewrite X in LI; cbn in LI; lia|].
  pose proof V as (_ & (S1 & S2 & _ & Ff & _) & _). destruct (vget_in_range (po_f s) b ltac:(lia)) as (f & Ef & Nf). exists f. unfold best_f. rewrite Eb. cbn [bind]. split; [exact Ef|]. rewrite <- EP. apply Ff. eapply nth_error_In; eauto.
Qed.
Lemma mbh_component_ok x k : Box x -> k < get_nx p -> always (mbh_component r perturb (p_lb p) (p_ub p) x k) (fun v => forall l u, nth_error (p_lb p) k = Some l -> nth_error (p_ub p) k = Some u -> SpecGeneric.within l u v) (fails p).
Proof.
  intros (X1 & X2 & X3) Hk. destruct (prob_obj_lens p PO) as [L1 L2]. unfold mbh_component.
  destruct (vget_in_range x k ltac:(lia)) as (c & Ec & Nc). destruct (vget_in_range perturb k ltac:(lia)) as (w & Ew & Nw). destruct (vget_in_range (p_lb p) k ltac:(lia)) as (l & El & Nl). destruct (vget_in_range (p_ub p) k ltac:(lia)) as (u & Eu & Nu).
  intros g. unfold rbind, rlift. rewrite Ec, Ew, El, Eu. revert g. assert (Wc : SpecGeneric.within l u c) by (eapply X3; eauto). assert (NN : l <> NaN /\ u <> NaN) by (destruct Wc as [X Y]; apply dle_not_nan in X, Y; tauto).
  eapply always_weak; [apply (urr_any r RC)| |].
  - intros v Hv l' u' Hl Hu. apply (cut_within l u) in Hv; try tauto. congruence.
  - intros e [-> N]. right. split; [reflexivity|]. intros DR. apply N. specialize (DR k l u Nl Nu). rewrite Forall_forall in DL, DU, PP. destruct (PP w (nth_error_In _ _ Nw)) as [W1 W2].
    apply cut_range; auto; [apply DL; eapply nth_error_In; eauto|apply DU; eapply nth_error_In; eauto|].
    destruct DR as (F1 & F2 & F3). destruct l as [| |zl|]; try discriminate F1. destruct u as [| |zu|]; try discriminate F2. assert (zl <= zu)%Z by (destruct Wc as [X Y]; apply dle_fin; eapply dle_trans; eauto).
    pose proof (dsub_nonneg zl zu H) as N1. destruct w as [| |z|]; [discriminate W1|discriminate W1| |rewrite done_fin in W2; discriminate W2]. apply dmul_nonneg_pos; [unfold dzero in W1; now apply dlt_fin in W1|exact N1].
Qed.
Lemma mbh_perturb_one_ok j (s : G * pop P) : valid_pop (snd s) -> po_prob (snd s) = p -> length (po_id (snd s)) = NP -> boxed (snd s) -> j < NP ->
  ends (mbh_perturb_one r perturb j) s (fun _ s' => valid_pop (snd s') /\ po_prob (snd s') = p /\ length (po_id (snd s')) = NP /\ boxed (snd s')) (fails p).
Proof.
  intros V EP LI BX Hj. unfold mbh_perturb_one. apply ends_bind, ends_getp. pose proof V as (_ & (S1 & S2 & Fx & _) & _). destruct (vget_in_range (po_x (snd s)) j ltac:(lia)) as (x & Ex & Nx). destruct (prob_obj_lens p PO) as [L1 L2].
  apply ends_bind. eapply ends_lift_ok; [exact Ex|]. rewrite EP. assert (Bx : Box x) by (rewrite <- EP; apply BX; eapply nth_error_In; eauto).
  apply ends_bind. eapply ends_eng; [apply always_map; intros k Hk; apply in_seq in Hk; apply mbh_component_ok; [exact Bx|lia]|]. intros y g FY. cbv beta in FY.
  assert (Ly : length y = get_nx p) by (rewrite <- (Forall2_len _ _ _ FY), seq_length; reflexivity).
  assert (By : Box y).
  { split; [lia|]. split; [lia|]. intros i l u v A B C. destruct (forall2_seq _ _ _ _ FY i v C) as [_ K]. exact (K l u A B). }
  unfold ends_w. rewrite psetx_eq. apply (ends_bind (peval y) (fun f => pset j y f)). apply (ends_peval p); auto; [intros e H; now left|]. intros f EV. apply ends_pset; cbn [snd fst].
  - now apply valid_fevals.
  - cbn. lia.
  - cbn. rewrite EP. exact Ly.
  - cbn. rewrite EP. exact (proj1 (proj2 EV)).
  - intros c _ V'. split; [exact V'|]. cbn. split; [exact EP|]. split; [exact LI|]. intros z Hz. cbn in Hz |- *. rewrite EP. apply in_upd in Hz. destruct Hz as [->|Hz]; [exact By|]. rewrite <- EP. apply BX. exact Hz.
Qed.
Lemma mbh_restore_ok (old : pop P) (s : G * pop P) : pop_of p NP old -> ranked srt old -> pop_of p NP (snd s) ->
  ends (rfold (fun (_ : unit) j => mbh_restore old j) tt (seq 0 NP)) s (fun _ s' => pop_of p NP (snd s') /\ ranked srt (snd s') /\ po_x (snd s') = po_x old /\ po_f (snd s') = po_f old) E.
Proof.
  intros (V & EP & LI & BX) RK (V1 & EP1 & LI1 & BX1). pose proof V as (_ & (S1 & S2 & Fx & Ff & _) & _).
  eapply ends_weak; [apply (ends_seq _ (fun j (_ : unit) s' => valid_pop (snd s') /\ po_prob (snd s') = p /\ length (po_id (snd s')) = NP /\ boxed (snd s') /\
     (forall i, i < j -> nth_error (po_x (snd s')) i = nth_error (po_x old) i /\ nth_error (po_f (snd s')) i = nth_error (po_f old) i)) E NP 0)| |auto].
  - repeat (split; [assumption|]). intros i Hi. lia.
  - intros j _ s1 Hj (W & EPW & LW & BW & SW). unfold mbh_restore. destruct (vget_in_range (po_x old) j ltac:(lia)) as (x & Ex & Nx). destruct (vget_in_range (po_f old) j ltac:(lia)) as (f & Ef & Nf).
    apply ends_bind. eapply ends_lift_ok; [exact Ex|]. apply ends_bind. eapply ends_lift_ok; [exact Ef|]. pose proof W as (_ & (T1 & T2 & _) & _).
    apply ends_pset; auto; try lia; [rewrite EPW, <- EP; apply Fx; eapply nth_error_In; eauto|rewrite EPW, <- EP; apply Ff; eapply nth_error_In; eauto|].
    intros c _ V'. split; [exact V'|]. cbn. split; [exact EPW|]. split; [exact LW|]. split.
    + intros z Hz. cbn in Hz |- *. rewrite EPW. apply in_upd in Hz. destruct Hz as [->|Hz]; [rewrite <- EP; apply BX; eapply nth_error_In; eauto|]. rewrite <- EPW. now apply BW.
    + intros i Hi. destruct (Nat.eq_dec i j) as [->|N].
      * rewrite !nth_error_upd_eq by lia. auto.
      * rewrite !nth_error_upd_neq by auto. apply SW. lia.
  - intros _ s1 (W & EPW & LW & BW & SW). pose proof W as (_ & (T1 & T2 & _) & _). cbn [Nat.add] in SW.
    assert (X1 : po_x (snd s1) = po_x old) by (apply nth_ext_error; [lia|]; intros i Hi; apply SW; lia).
    assert (X2 : po_f (snd s1) = po_f old) by (apply nth_ext_error; [lia|]; intros i Hi; apply SW; lia).
    split; [repeat (split; [assumption|]); assumption|]. split; [|auto]. eapply ranked_ext; [symmetry; exact X2|congruence|exact RK].
Qed.
Lemma mbh_step_ok i (s : G * pop P) fo : pop_of p NP (snd s) -> ranked srt (snd s) -> best_f srt (snd s) = Ok fo -> length fo = get_nf p ->
  ends (mbh_step r srt inner perturb NP i) s (fun i' s' => pop_of p NP (snd s') /\ ranked srt (snd s') /\
     ((i' = 0 /\ exists fn, best_f srt (snd s') = Ok fn /\ length fn = get_nf p /\ preferred p fn fo) \/ (i' = i + 1 /\ best_f srt (snd s') = Ok fo /\ po_x (snd s') = po_x (snd s) /\ po_f (snd s') = po_f (snd s)))) E.
Proof.
  intros PS RK BF LF. unfold mbh_step. apply ends_bind, ends_getp. pose proof PS as (V & EP & LI & BX). set (old := snd s) in *.
  apply ends_bind. eapply ends_weak; [apply (ends_seq _ (fun j (_ : unit) s' => valid_pop (snd s') /\ po_prob (snd s') = p /\ length (po_id (snd s')) = NP /\ boxed (snd s')) E NP 0)| |auto].
  - auto.
  - intros j _ s1 Hj (A & B & C & D). eapply ends_weak; [apply mbh_perturb_one_ok; auto; lia|auto|auto].
  - intros ? s1 PS1. apply ends_bind. eapply ends_weak; [apply (KI s1 PS1)| |auto]. intros ? s2 [PS2 RK2]. cbv beta. apply ends_bind, ends_getp.
    destruct (best_f_ok _ PS2 RK2) as (fn & En & Ln). apply ends_bind. eapply ends_lift_ok; [exact En|]. apply ends_bind. eapply ends_lift_ok; [exact BF|]. pose proof PS2 as (V2 & EP2 & LI2 & BX2). rewrite EP2.
    pose proof (compare_fc_eq _ _ fn fo (fc_ok p fn PO NO Ln) (fc_ok p fo PO NO LF)) as CE. apply ends_bind. eapply ends_lift_ok; [exact CE|]. destruct (fc_cmp _ _ fn fo).
    + apply ends_ret. split; [exact PS2|]. split; [exact RK2|]. left. split; [reflexivity|]. exists fn. auto.
    + apply ends_bind. eapply ends_weak; [apply (mbh_restore_ok old s2 PS RK PS2)| |auto]. intros ? s3 (PS3 & RK3 & X & F). apply ends_ret. split; [exact PS3|]. split; [exact RK3|]. right. split; [reflexivity|].
      split; [|auto]. rewrite <- BF. apply best_f_ext; [exact F| |]; destruct PS3 as (_ & A & B & _); congruence.
Qed.

Context (s0 : G * pop P) (f0 : list dbl) (LF0 : length f0 = get_nf p) (F : nat).
Definition mbh_end (fo : list dbl) (k : nat) (s : G * pop P) : Prop :=
  pop_of p NP (snd s) /\ ranked srt (snd s) /\ best_f srt (snd s) = Ok fo /\ improves p f0 k fo /\ (k = 0 -> po_x (snd s) = po_x (snd s0) /\ po_f (snd s) = po_f (snd s0)).
Lemma mbh_loop_ok : forall fuel i k fo (s : G * pop P), mbh_end fo k s -> F <= fuel + k * m_stop + i -> 
  ends_w (exists k f, improves p f0 k f /\ F < (k + 1) * m_stop) (mbh_loop r srt inner m_stop perturb NP fuel i) s (fun _ s' => exists fo k, mbh_end fo k s') E.
Proof.
  induction fuel as [|fuel IH]; intros i k fo s H HF; cbn [mbh_loop]; destruct (Nat.ltb_spec i m_stop).
  - apply ends_lift. exists k, fo. split; [apply H|]. nia.
  - apply ends_ret. eauto.
  - pose proof H as (PS & RK & BF & IM & K0). apply ends_bind. pose proof (mbh_step_ok i s fo PS RK BF (improves_len _ _ _ _ LF0 IM)) as ST.
    unfold ends_w at 1. unfold ends_w in ST. destruct (mbh_step _ _ _ _ _ _ s) as [[i'|e| |] s']; try contradiction; [|exact ST].
    destruct ST as (PS' & RK' & [(-> & fn & B & L & PR)|(-> & B & X & Y)]).
    + apply (IH 0 (S k) fn s'); [|nia]. split; [exact PS'|]. split; [exact RK'|]. split; [exact B|]. split; [econstructor; eauto|discriminate].
    + apply (IH (i + 1) k fo s'); [|nia]. split; [exact PS'|]. split; [exact RK'|]. split; [exact B|]. split; [exact IM|]. intros Z0. rewrite X, Y. auto.
  - apply ends_ret. eauto.
Qed.
End M.
