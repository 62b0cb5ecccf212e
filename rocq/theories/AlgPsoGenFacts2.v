From Coq Require Import List Bool Arith ZArith Lia.
From Verif Require Import Dbl DblFacts Outcome BaseFacts StdSort Compare SpecOrder CompareFacts Problem SpecProblem ProblemFacts Rng Generic SpecGeneric GenericFacts SpecGenetic RmFacts GeneticOps Population SpecPopulation PopulationFacts PopulationFacts3 Algo SpecAlgo AlgoFacts AlgoFacts2
  GeneticFacts ProblemFacts2 AlgSaFacts AlgSgaFacts4 AlgGwoFacts AlgNsga2 SpecNsga2 SpecCmaes AlgCmaesFacts2 AlgMoeadFacts3 AlgMoeadGen AlgPso SpecPso AlgPsoFacts AlgPsoFacts2 AlgPsoGen SpecPsoGen AlgPsoGenFacts.
Import ListNotations.

Lemma nth_firstn {A} (l : list A) k d : d < k -> nth_error (firstn k l) d = nth_error l d.
Proof. revert k d. induction l as [|x l IH]; intros [|k] [|d] H; try lia; try reflexivity. cbn. apply IH. lia. Qed.
Lemma upd_nth {A} (l : list A) i j a b : i < length l -> nth_error (upd l i a) j = Some b -> (j = i /\ b = a) \/ (j <> i /\ nth_error l j = Some b).
Proof. intros Hi H. destruct (Nat.eq_dec j i) as [->|N]; [rewrite upd_same in H by exact Hi; injection H as <-; auto|]. rewrite upd_other in H by exact N. auto. Qed.

Section E.
Context {G P : Type} (srt : sorter) (r : rng G) (RC : rng_contract r) (reseed : problem -> Z -> problem) (bfe : option (problem -> list dbl -> outcome (list dbl))).
Context (a : pso_params) (p : problem) (n most : nat) (EP : es_problem reseed bfe p) (Hn : 0 < n).
Context (BoxC : dbl -> dbl -> dbl -> Prop) (Good GV Res Sum : dbl -> Prop).
Let dim := get_nx p.
Let pt := point p Good.
Let box := boxc p BoxC.
Context (Hgood0 : Good dzero) (Hsum0 : Sum dzero).
Context (Hpull : forall v l x b r1 r2, ps_variant a <> 6 -> GV v -> Good l -> Good x -> Good b -> within dzero done r1 -> within dzero done r2 -> Res (pso_pull a v l x b r1 r2)).
Context (Hsum : forall s u l x, Sum s -> within dzero done u -> Good l -> Good x -> Sum (dadd s (dmul (dmul u (dadd (ps_eta1 a) (ps_eta2 a))) (dsub l x)))).
Context (Hfips : forall v s k, ps_variant a = 6 -> GV v -> Sum s -> 1 <= k <= most -> Res (dmul (ps_omega a) (dadd v (ddiv s (d_of_Z (Z.of_nat k)))))).
Context (Hmove : forall i l u v x, nth_error (p_lb p) i = Some l -> nth_error (p_ub p) i = Some u -> Good x -> Res v ->
  GV (fst (pso_move1 a l u v x)) /\ Good (snd (pso_move1 a l u v x)) /\ BoxC l u (snd (pso_move1 a l u v x))).
Context (Hspeed : forall i l u v, nth_error (p_lb p) i = Some l -> nth_error (p_ub p) i = Some u -> within (dneg (pso_width a l u)) (pso_width a l u) v -> GV v).
Context (Hwide : forall i l u, nth_error (p_lb p) i = Some l -> nth_error (p_ub p) i = Some u -> ok_real (dneg (pso_width a l u)) (pso_width a l u) -> dle (dneg (pso_width a l u)) (pso_width a l u) = true).
Notation fails := (pgen_fails reseed a p).
Notation sto := (u_set_seed (p_udp p)).

Lemma at_seeds ks : seeds_for p ks -> let q := fold_left reseed ks p in prob_obj q /\ get_nx q = dim /\ get_nc q = 0 /\ get_nf q = 1 /\ u_set_seed (p_udp q) = sto /\ evaluates bfe q.
Proof. intros S. destruct (EP ks S) as (A & B & C & D & E & F & H). cbv zeta. unfold dim, get_nx. rewrite B. repeat (split; [assumption|]). split; [reflexivity|]. auto. Qed.
Lemma seeds_nil : seeds_for p [].
Proof. intros _. reflexivity. Qed.
Lemma at_0 : prob_obj p /\ get_nc p = 0 /\ get_nf p = 1.
Proof. destruct (at_seeds [] seeds_nil) as (A & _ & B & C & _). auto. Qed.
Lemma fails_pso e : pso_fails a p e -> fails e.
Proof. intros [H|H]; [left; exists []; split; [exact seeds_nil|exact H]|right; exact H]. Qed.

(** ** The swarm *)
Definition shape (sw : swarm) : Prop := length (sw_X sw) = n /\ Forall pt (sw_X sw) /\ length (sw_lbX sw) = n /\ Forall pt (sw_lbX sw) /\ length (sw_lbf sw) = n /\ Forall (fun f => length f = 1) (sw_lbf sw) /\
  pt (sw_bn sw) /\ (ps_ntype a = 1 \/ ps_ntype a = 4 -> length (sw_bf sw) = 1) /\ length (sw_nb sw) = n /\ (uses_nb a -> nb_ok n most (sw_nb sw)).
Definition speeds (V : list (list dbl)) : Prop := length V = n /\ forall v, In v V -> dim <= length v /\ Forall GV v.

Lemma speed_loop sw : shape sw -> speeds (sw_V sw) ->
  always (rfold (pgen_speed r a p) sw (seq 0 n)) (fun sw' => shape sw' /\ sw_X sw' = sw_X sw /\ sw_lbX sw' = sw_lbX sw /\ sw_lbf sw' = sw_lbf sw /\
     length (sw_V sw') = n /\ forall v, In v (sw_V sw') -> dim <= length v /\ Forall Res (firstn dim v) /\ Forall GV (skipn dim v)) fails.
Proof.
  intros SH (LV & FV). eapply always_weak; [apply (always_seq _ (fun i sw' => shape sw' /\ sw_X sw' = sw_X sw /\ sw_lbX sw' = sw_lbX sw /\ sw_lbf sw' = sw_lbf sw /\
     length (sw_V sw') = n /\ forall j v, nth_error (sw_V sw') j = Some v -> dim <= length v /\ Forall GV (skipn dim v) /\ (j < i -> Forall Res (firstn dim v)) /\ (i <= j -> Forall GV v)) fails n 0)| |auto].
  - split; [exact SH|]. do 3 (split; [reflexivity|]). split; [exact LV|]. intros j v Hv. destruct (FV v (nth_error_In _ _ Hv)) as [L F]. split; [exact L|]. split; [|split; [lia|auto]].
    rewrite Forall_forall in F |- *. intros w Hw. apply F. rewrite <- (firstn_skipn dim v). apply in_app_iff. now right.
  - intros i t Hi (SHt & EX & EL & EF & LVt & HV). pose proof SHt as (LX & FX & LL & FL & Lf & FF & BN & BF & LN & NB). unfold pgen_speed.
    destruct (nth_ex (sw_V t) i ltac:(lia)) as (V & NV). apply (always_bind _ _ (fun w => w = V)); [apply (always_vget _ _ V); [exact NV|reflexivity]|]. intros ? ->.
    destruct (nth_ex (sw_X t) i ltac:(lia)) as (X & NX). apply (always_bind _ _ (fun w => w = X)); [apply (always_vget _ _ X); [exact NX|reflexivity]|]. intros ? ->.
    destruct (nth_ex (sw_lbX t) i ltac:(lia)) as (lx & Nlx). apply (always_bind _ _ (fun w => w = lx)); [apply (always_vget _ _ lx); [exact Nlx|reflexivity]|]. intros ? ->.
    destruct (nth_ex (sw_nb t) i ltac:(lia)) as (nb & Nnb). apply (always_bind _ _ (fun w => w = nb)); [apply (always_vget _ _ nb); [exact Nnb|reflexivity]|]. intros ? ->.
    assert (NBI : uses_nb a -> nb <> [] /\ length nb <= most /\ forall j, In j nb -> (0 <= j < Z.of_nat n)%Z) by (intros U; destruct (NB U) as [_ H]; apply H; eapply nth_error_In; eauto).
    rewrite Forall_forall in FX. pose proof FL as FL'. rewrite Forall_forall in FL', FF.
    apply (always_bind _ _ pt).
    { destruct (negb (Nat.eqb (ps_ntype a) 1) && negb (Nat.eqb (ps_variant a) 6)) eqn:C; [|apply always_ret; exact BN]. apply andb_true_iff in C. destruct C as [C1 _]. apply negb_true_iff, Nat.eqb_neq in C1.
      destruct (NBI (or_introl C1)) as (NE & _ & HR). destruct (pgen_neighbor_ok nb (sw_lbX t) (sw_lbf t) n 0 NE LL Lf FF HR) as (kk & x & f & -> & _ & Nx & _). apply always_lift. apply FL'. eapply nth_error_In; eauto. }
    intros bn PB. destruct (HV i V NV) as (LVi & GS & _ & GVi). specialize (GVi (le_n i)).
    eapply always_bind; [apply (velocity_ok r RC a p n most Hn Good GV Res Sum Hsum0 Hpull Hsum Hfips nb (sw_lbX t) V X lx bn fails LVi GVi); [apply FX; eapply nth_error_In; eauto|apply FL'; eapply nth_error_In; eauto|exact PB|exact FL|exact LL|intros E6; apply NBI; now right]|].
    intros V1 (LV1 & FV1). apply always_ret. unfold shape. cbn [sw_V sw_X sw_lbX sw_lbf sw_bn sw_bf sw_nb]. split.
    { do 2 (split; [first [exact LX|now apply Forall_forall]|]). split; [exact LL|]. split; [exact FL|]. split; [exact Lf|]. split; [now apply Forall_forall|]. split; [exact PB|]. split; [exact BF|]. split; [exact LN|exact NB]. }
    do 3 (split; [assumption|]). split; [rewrite upd_len; exact LVt|]. intros j v Hv. apply upd_nth in Hv; [|lia]. destruct Hv as [(-> & ->)|(NJ & Hv)].
    + fold dim in LV1. assert (F1 : firstn dim (V1 ++ skipn (get_nx p) V) = V1) by (rewrite <- LV1 at 1; rewrite firstn_app, Nat.sub_diag, firstn_all, firstn_O, app_nil_r; reflexivity).
      assert (F2 : skipn dim (V1 ++ skipn (get_nx p) V) = skipn dim V) by (rewrite <- LV1 at 1; rewrite skipn_app, Nat.sub_diag, skipn_all, skipn_O; reflexivity).
      rewrite F1, F2. split; [rewrite app_length; lia|]. split; [exact GS|]. split; [intros _; exact FV1|lia].
    + destruct (HV j v Hv) as (A & B & C & D). split; [exact A|]. split; [exact B|]. split; [intros H; apply C; lia|intros H; apply D; lia].
  - intros t (SHt & EX & EL & EF & LVt & HV). repeat (split; [assumption|]). intros v Hv. apply In_nth_error in Hv. destruct Hv as (j & Hj). destruct (HV j v Hj) as (A & B & C & _). split; [exact A|]. split; [|exact B]. apply C. cbn [plus]. assert (j < length (sw_V t)) by (apply nth_error_Some; congruence). lia.
Qed.
Lemma move_loop sw : shape sw -> length (sw_V sw) = n -> (forall v, In v (sw_V sw) -> dim <= length v /\ Forall Res (firstn dim v) /\ Forall GV (skipn dim v)) ->
  exists sw', mfold (pgen_move a p) sw (seq 0 n) = Ok sw' /\ shape sw' /\ speeds (sw_V sw') /\ Forall box (sw_X sw') /\ sw_lbX sw' = sw_lbX sw /\ sw_lbf sw' = sw_lbf sw.
Proof.
  intros SH LV FV. destruct at_0 as (PO & _).
  destruct (mfold_seq (pgen_move a p) (fun i t => shape t /\ length (sw_V t) = n /\ (forall j v, nth_error (sw_V t) j = Some v -> dim <= length v /\ (j < i -> Forall GV v) /\ (i <= j -> Forall Res (firstn dim v) /\ Forall GV (skipn dim v))) /\
     (forall j x, j < i -> nth_error (sw_X t) j = Some x -> box x) /\ sw_lbX t = sw_lbX sw /\ sw_lbf t = sw_lbf sw) n 0 sw) as (t & E & SHt & LVt & HV & HB & EL & EF).
  - split; [exact SH|]. split; [exact LV|]. split; [intros j v Hv; destruct (FV v (nth_error_In _ _ Hv)) as (A & B); split; [exact A|]; split; [lia|auto]|]. split; [lia|]. auto.
  - intros i t Hi (SHt & LVt & HV & HB & EL & EF). pose proof SHt as (LX & FX & LL & FL & Lf & FF & BN & BF & LN & NB). unfold pgen_move.
    destruct (vget_in_range (sw_V t) i ltac:(lia)) as (V & -> & NV). destruct (vget_in_range (sw_X t) i ltac:(lia)) as (X & -> & NX). cbn [bind]. destruct (HV i V NV) as (LVi & _ & GR). destruct (GR (le_n i)) as [GR1 GR2].
    rewrite Forall_forall in FX. assert (L1 : length (firstn dim V) = dim) by (apply firstn_length_le; exact LVi).
    destruct (moved_ok a p n PO Hn BoxC Good GV Res Hmove (firstn dim V) X L1 GR1 (FX X (nth_error_In _ _ NX))) as (mv & Em & Lm & FG & PM & BM).
    rewrite (mmap_ext_in _ (fun d => bind (vget (p_lb p) d) (fun l => bind (vget (p_ub p) d) (fun u => bind (vget (firstn dim V) d) (fun v => bind (vget X d) (fun x => Ok (pso_move1 a l u v x))))))).
    2:{ intros d Hd. apply in_seq in Hd. destruct (vget (p_lb p) d); try reflexivity. cbn [bind]. destruct (vget (p_ub p) d); try reflexivity. cbn [bind]. unfold vget at 1 3. rewrite nth_firstn by (unfold dim; lia). reflexivity. }
    rewrite Em. cbn [bind]. eexists. split; [reflexivity|]. unfold shape. cbn [sw_V sw_X sw_lbX sw_lbf sw_bn sw_bf sw_nb]. rewrite !upd_len. split.
    { split; [exact LX|]. split; [apply Forall_forall; intros x Hx; apply upd_in in Hx; destruct Hx as [->|Hx]; [exact PM|now apply FX]|]. exact (conj LL (conj FL (conj Lf (conj FF (conj BN (conj BF (conj LN NB))))))). }
    split; [exact LVt|]. split; [|split; [|split; [exact EL|exact EF]]].
    + intros j v Hv. apply upd_nth in Hv; [|lia]. destruct Hv as [(-> & ->)|(NJ & Hv)]; [|destruct (HV j v Hv) as (A & B & C); split; [exact A|]; split; intros H; [apply B|apply C]; lia].
      split; [rewrite app_length, map_length; fold dim; fold dim in Lm; lia|]. split; [|lia]. intros _. apply Forall_app. split; [exact FG|exact GR2].
    + intros j x Hj Hx. apply upd_nth in Hx; [|lia]. destruct Hx as [(-> & ->)|(NJ & Hx)]; [exact BM|]. apply (HB j); [lia|exact Hx].
  - cbn [plus] in *. exists t. split; [exact E|]. split; [exact SHt|]. pose proof SHt as (LX & _). split; [split; [exact LVt|]|split; [|auto]].
    + intros v Hv. apply In_nth_error in Hv. destruct Hv as (j & Hj). destruct (HV j v Hj) as (A & B & _). split; [exact A|]. apply B. rewrite <- LVt. apply nth_error_Some. congruence.
    + apply Forall_forall. intros x Hx. apply In_nth_error in Hx. destruct Hx as (j & Hj). apply (HB j); [rewrite <- LX; apply nth_error_Some; congruence|exact Hj].
Qed.

(** ** The population: only the problem's seed and the counter change before the end *)
Definition state (s0 : pop P) (ks : list Z) (k : nat) (s : G * pop P) : Prop := valid_pop (snd s) /\ po_prob (snd s) = fold_left reseed ks p /\ seeds_for p ks /\
  po_id (snd s) = po_id s0 /\ po_x (snd s) = po_x s0 /\ po_f (snd s) = po_f s0 /\ evals k s0 (snd s).
Lemma state_only s0 ks k j s s' : state s0 ks k s -> only_evals j s s' -> state s0 ks (k + j) s'.
Proof. intros (V & A & B & C & D & E & F) (O & c & Es). assert (T : evals (k + j) s0 (snd s')) by (eapply evals_trans; eauto). unfold state. rewrite Es in T |- *. exact (conj V (conj A (conj B (conj C (conj D (conj E T)))))). Qed.
Definition per_gen : nat := if sto then 2 * n else n.
Lemma evaluate_ok s0 ks k sw s : shape sw -> state s0 ks k s ->
  ends (pgen_evaluate r reseed bfe sw) s (fun e s' => exists ks', length ks' = (if sto then 1 else 0) /\ state s0 (ks ++ ks') (k + per_gen) s' /\ shape (snd e) /\
     sw_V (snd e) = sw_V sw /\ sw_X (snd e) = sw_X sw /\ sw_lbX (snd e) = sw_lbX sw /\
     Forall2 (evaluated (po_prob (snd s'))) (sw_X sw) (fst e) /\ (sto = false -> snd e = sw) /\ (sto = true -> Forall2 (evaluated (po_prob (snd s'))) (sw_lbX sw) (sw_lbf (snd e)))) fails.
Proof.
  intros SH ST. pose proof SH as (LX & FX & LL & FL & Lf & FF & BN & BF & LN & NB). pose proof ST as (V & EQ & SF & E1 & E2 & E3 & EV). rewrite Forall_forall in FX, FL.
  destruct (at_seeds ks SF) as (PO & NX & NC & NF & NS & EVL). unfold pgen_evaluate, per_gen. apply ends_bind, ends_getp. rewrite EQ, NS. destruct sto eqn:ES.
  - apply ends_bind. eapply ends_eng; [apply (draw_int_ok r RC 0 (2 ^ 32 - 1)); lia|]. intros sd g _. cbv beta. apply ends_bind. unfold pset_problem at 1, ends_w at 1. cbn [fst snd].
    assert (SF' : seeds_for p (ks ++ [sd])) by (intros D; congruence). destruct (at_seeds (ks ++ [sd]) SF') as (PO' & NX' & NC' & NF' & NS' & EVL').
    assert (EQ' : reseed (fold_left reseed ks p) sd = fold_left reseed (ks ++ [sd]) p) by (rewrite fold_left_app; reflexivity). rewrite EQ'. set (q := fold_left reseed (ks ++ [sd]) p) in *.
    assert (ST1 : state s0 (ks ++ [sd]) k (g, reprob (snd s) q)). { split; [apply reprob_valid; [exact V|exact PO'|congruence|congruence]|]. split; [reflexivity|]. split; [exact SF'|]. cbn [snd reprob po_id po_x po_f]. repeat (split; [assumption|]). exact EV. }
    change (ends (rbind (pgen_eval_both bfe (sw_X sw) (sw_lbX sw)) (fun e => rbind (rlift (pgen_best (sw_X sw) (fst e))) (fun b => rret (fst e, mkswarm (sw_V sw) (sw_X sw) (sw_lbX sw) (snd e) (fst b) (snd b) (sw_improved sw) (sw_nb sw))))) (g, reprob (snd s) q)
      (fun e s' => exists ks', length ks' = 1 /\ state s0 (ks ++ ks') (k + 2 * n) s' /\ shape (snd e) /\ sw_V (snd e) = sw_V sw /\ sw_X (snd e) = sw_X sw /\ sw_lbX (snd e) = sw_lbX sw /\
     Forall2 (evaluated (po_prob (snd s'))) (sw_X sw) (fst e) /\ (true = false -> snd e = sw) /\ (true = true -> Forall2 (evaluated (po_prob (snd s'))) (sw_lbX sw) (sw_lbf (snd e)))) fails).
    apply ends_bind. eapply ends_weak; [apply (eval_both_only bfe q PO' NC' NF' (sw_X sw) (sw_lbX sw) (g, reprob (snd s) q) EVL' eq_refl); [intros x Hx; rewrite NX'; apply (FX x Hx)|intros x Hx; rewrite NX'; apply (FL x Hx)|lia]| |intros e He; left; exists (ks ++ [sd]); split; assumption].
    intros [fs gs] s1 (O & F1 & F2). cbn [fst snd] in *. pose proof (state_only s0 _ _ _ _ _ ST1 O) as ST2. rewrite LX in ST2. pose proof ST2 as (V2 & EQ2 & _).
    assert (LF1 : forall xs ys, Forall2 (evaluated q) xs ys -> forall f, In f ys -> length f = 1). { intros xs ys H f Hf. apply In_nth_error in Hf. destruct Hf as (i & Hi). destruct (nth_ex xs i) as (x & Nx); [rewrite (Forall2_len _ _ _ H); apply nth_error_Some; congruence|]. destruct (Forall2_at _ _ _ H i x f Nx Hi) as (_ & Q & _). congruence. }
    destruct (pgen_best_ok (sw_X sw) fs 0) as (i & x & f & EB & Nx & Nf & _); [now rewrite <- (Forall2_len _ _ _ F1)|intros Q; rewrite Q in LX; cbn in LX; lia|exact (LF1 _ _ F1)|].
    apply ends_bind. eapply ends_lift_ok; [exact EB|]. apply ends_ret. cbn [fst snd sw_V sw_X sw_lbX sw_lbf]. exists [sd]. split; [reflexivity|]. split; [exact ST2|]. split.
    { unfold shape. cbn [sw_V sw_X sw_lbX sw_lbf sw_bn sw_bf sw_nb]. split; [exact LX|]. split; [now apply Forall_forall|]. split; [exact LL|]. split; [now apply Forall_forall|]. split; [rewrite <- (Forall2_len _ _ _ F2); exact LL|]. split; [apply Forall_forall; exact (LF1 _ _ F2)|].
      split; [apply FX; eapply nth_error_In; eauto|]. split; [intros _; apply (LF1 _ _ F1); eapply nth_error_In; eauto|]. split; [exact LN|exact NB]. }
    do 3 (split; [reflexivity|]). rewrite EQ2. split; [exact F1|]. split; [discriminate|]. intros _. exact F2.
  - apply ends_bind. eapply ends_weak; [apply (mgen_eval_only bfe _ PO NC NF (sw_X sw) s EVL EQ); intros x Hx; rewrite NX; apply (FX x Hx)| |intros e He; left; exists ks; split; assumption].
    intros fs s1 (O & F1). apply ends_ret. cbn [fst snd]. exists []. split; [reflexivity|]. rewrite app_nil_r. pose proof (state_only s0 _ _ _ _ _ ST O) as ST2. rewrite LX in ST2. pose proof ST2 as (_ & EQ2 & _). split; [exact ST2|]. split; [exact SH|]. do 3 (split; [reflexivity|]). rewrite EQ2. split; [exact F1|]. split; [reflexivity|discriminate].
Qed.
Lemma update_loop fs sw : shape sw -> length fs = n -> Forall (fun f => length f = 1) fs ->
  exists sw', mfold (pgen_update a fs) sw (seq 0 n) = Ok sw' /\ shape sw' /\ sw_V sw' = sw_V sw /\ sw_X sw' = sw_X sw /\
    forall j x f g lx, nth_error (sw_X sw) j = Some x -> nth_error fs j = Some f -> nth_error (sw_lbX sw) j = Some lx -> nth_error (sw_lbf sw) j = Some g ->
      (~ better (obj g) (obj f) /\ nth_error (sw_lbX sw') j = Some x /\ nth_error (sw_lbf sw') j = Some f) \/ (better (obj g) (obj f) /\ nth_error (sw_lbX sw') j = Some lx /\ nth_error (sw_lbf sw') j = Some g).
Proof.
  intros SH LF F1. rewrite Forall_forall in F1.
  destruct (mfold_seq (pgen_update a fs) (fun i t => shape t /\ sw_V t = sw_V sw /\ sw_X t = sw_X sw /\
     (forall j, i <= j -> nth_error (sw_lbX t) j = nth_error (sw_lbX sw) j /\ nth_error (sw_lbf t) j = nth_error (sw_lbf sw) j) /\
     forall j x f g lx, j < i -> nth_error (sw_X sw) j = Some x -> nth_error fs j = Some f -> nth_error (sw_lbX sw) j = Some lx -> nth_error (sw_lbf sw) j = Some g ->
      (~ better (obj g) (obj f) /\ nth_error (sw_lbX t) j = Some x /\ nth_error (sw_lbf t) j = Some f) \/ (better (obj g) (obj f) /\ nth_error (sw_lbX t) j = Some lx /\ nth_error (sw_lbf t) j = Some g)) n 0 sw) as (t & E & SHt & EV & EX & _ & H).
  - split; [exact SH|]. do 2 (split; [reflexivity|]). split; [auto|lia].
  - intros i t Hi (SHt & EV & EX & K1 & K2). pose proof SHt as (LX & FX & LL & FL & Lf & FF & BN & BF & LN & NB). rewrite Forall_forall in FX, FL, FF.
    assert (O : forall f, length f = 1 -> vget f 0 = Ok (obj f)) by (intros f Hf; destruct f; [discriminate|reflexivity]). unfold pgen_update.
    destruct (vget_in_range fs i ltac:(lia)) as (f & -> & Nf). cbn [bind]. rewrite (O f) by (apply F1; eapply nth_error_In; eauto). cbn [bind]. destruct (vget_in_range (sw_lbf t) i ltac:(lia)) as (g & -> & Ng). cbn [bind]. rewrite (O g) by (apply FF; eapply nth_error_In; eauto). cbn [bind].
    destruct (vget_in_range (sw_X t) i ltac:(lia)) as (x & -> & Nx). cbn [bind]. destruct (K1 i (le_n i)) as [K1x K1f]. destruct (not_above (obj f) (obj g)) eqn:D.
    + apply not_above_iff in D.
      assert (TR : exists tr, (if Nat.eqb (ps_ntype a) 1 || Nat.eqb (ps_ntype a) 4 then bind (vget (sw_bf t) 0) (fun b => Ok (not_above (obj f) b)) else Ok false) = Ok tr /\ (tr = true -> ps_ntype a = 1 \/ ps_ntype a = 4)).
      { destruct (Nat.eqb_spec (ps_ntype a) 1) as [Q1|Q1]; [|destruct (Nat.eqb_spec (ps_ntype a) 4) as [Q4|Q4]]; cbn [orb]; [| |exists false; split; [reflexivity|discriminate]]; rewrite O by (apply BF; auto); cbn [bind]; eexists; (split; [reflexivity|auto]). }
      destruct TR as (tr & -> & HT). cbn [bind]. eexists. split; [reflexivity|]. unfold shape. cbn [sw_V sw_X sw_lbX sw_lbf sw_bn sw_bf sw_nb]. rewrite !upd_len. split.
      { split; [exact LX|]. split; [now apply Forall_forall|]. split; [exact LL|]. split; [apply Forall_forall; intros y Hy; apply upd_in in Hy; destruct Hy as [->|Hy]; [apply FX; eapply nth_error_In; eauto|now apply FL]|]. split; [exact Lf|].
        split; [apply Forall_forall; intros y Hy; apply upd_in in Hy; destruct Hy as [->|Hy]; [apply F1; eapply nth_error_In; eauto|now apply FF]|]. split; [destruct tr; [apply FX; eapply nth_error_In; eauto|exact BN]|].
        split; [intros Q; destruct tr; [apply F1; eapply nth_error_In; eauto|now apply BF]|]. split; [exact LN|exact NB]. }
      do 2 (split; [assumption|]). split; [intros j Hj; rewrite !upd_other by lia; apply K1; lia|]. intros j x' f' g' lx' Hj A B C D'. destruct (Nat.eq_dec j i) as [->|N]; [|rewrite !upd_other by exact N; apply (K2 j); auto; lia].
      rewrite !upd_same by lia. left. split; [|split; congruence]. congruence.
    + eexists. split; [reflexivity|]. split; [exact SHt|]. do 2 (split; [assumption|]). split; [intros j Hj; apply K1; lia|]. intros j x' f' g' lx' Hj A B C D'. destruct (Nat.eq_dec j i) as [->|N]; [|apply (K2 j); auto; lia].
      right. split; [|split; congruence]. assert (f' = f) by congruence. assert (g' = g) by congruence. subst f' g'. destruct (better_dec (obj g) (obj f)) as [Q|Q]; [exact Q|]. apply not_above_iff in Q. congruence.
  - cbn [plus] in *. exists t. split; [exact E|]. split; [exact SHt|]. do 2 (split; [assumption|]). intros j x f g lx A B C D. apply (H j); auto. rewrite <- LF. apply nth_error_Some. congruence.
Qed.

(** ** What the particles remember *)
Definition mem (s0 : pop P) (ks : list Z) (sw : swarm) : Prop := let q := fold_left reseed ks p in
  forall i x f x' f', nth_error (po_x s0) i = Some x -> nth_error (po_f s0) i = Some f -> nth_error (sw_lbX sw) i = Some x' -> nth_error (sw_lbf sw) i = Some f' ->
   (sto = false -> (x' = x /\ f' = f) \/ kept_best p box x f x' f') /\
   (sto = true -> (x' = x \/ box x') /\ (ks = [] -> x' = x /\ f' = f) /\ (ks <> [] -> evaluated q x' f') /\ (length ks = 1 -> forall g, evaluated q x g -> ~ better (obj g) (obj f'))).
Definition inv (s0 : pop P) (m : nat) (sw : swarm) (s : G * pop P) : Prop := exists ks, length ks = (if sto then m else 0) /\ state s0 ks (m * per_gen) s /\ shape sw /\ speeds (sw_V sw) /\ mem s0 ks sw.
Context (Hmost4 : ps_ntype a = 4 -> n * ps_nparam a <= most) (Hparam : ps_ntype a = 4 -> 1 <= ps_nparam a).
Lemma generation_ok s0 m sw g s : length (po_id s0) = n -> length (po_x s0) = n -> length (po_f s0) = n -> inv s0 m sw s -> ends (pgen_generation r reseed bfe a p n sw g) s (inv s0 (m + 1)) fails.
Proof.
  intros EN EX0 EF0 (ks & LK & ST & SH & SP & MM). unfold pgen_generation. apply ends_bind. eapply ends_eng; [apply (speed_loop sw SH SP)|]. intros sw1 g1 (SH1 & X1 & L1 & F1 & LV1 & HV1). cbv beta.
  destruct (move_loop sw1 SH1 LV1 HV1) as (sw2 & E2 & SH2 & SP2 & B2 & L2 & F2). apply ends_bind. eapply ends_lift_ok; [exact E2|].
  assert (ST1 : state s0 ks (m * per_gen) (g1, snd s)) by exact ST.
  apply ends_bind. eapply ends_weak; [apply (evaluate_ok s0 ks _ sw2 _ SH2 ST1)| |auto]. intros [fs sw3] s3 (ks' & LK' & ST3 & SH3 & V3 & X3 & L3 & FE & KD & KS). cbn [fst snd] in *.
  pose proof ST3 as (_ & EQ3 & SF3 & _). destruct (at_seeds _ SF3) as (_ & _ & _ & NF3 & _). rewrite EQ3 in FE, KS.
  set (sw4 := mkswarm (sw_V sw3) (sw_X sw3) (sw_lbX sw3) (sw_lbf sw3) (sw_bn sw3) (sw_bf sw3) false (sw_nb sw3)).
  assert (SH4 : shape sw4) by exact SH3. pose proof SH2 as (LX2 & _). pose proof SH3 as (LX3 & FX3 & LL3 & FL3 & Lf3 & _).
  assert (LF : length fs = n) by (rewrite <- (Forall2_len _ _ _ FE); exact LX2).
  assert (LF1 : Forall (fun f => length f = 1) fs). { apply Forall_forall. intros f Hf. apply In_nth_error in Hf. destruct Hf as (i & Hi). destruct (nth_ex (sw_X sw2) i) as (x & Nx); [rewrite (Forall2_len _ _ _ FE); apply nth_error_Some; congruence|]. destruct (Forall2_at _ _ _ FE i x f Nx Hi) as (_ & Q & _). congruence. }
  destruct (update_loop fs sw4 SH4 LF LF1) as (sw5 & E5 & SH5 & V5 & X5 & U5). apply ends_bind. eapply ends_lift_ok; [exact E5|].
  assert (MM5 : mem s0 (ks ++ ks') sw5).
  { cbv delta [mem] beta zeta. set (q := fold_left reseed (ks ++ ks') p) in *. intros i x f x' f' A B C D. assert (Hi : i < n) by (rewrite <- EX0; apply nth_error_Some; congruence).
    destruct (nth_ex (sw_X sw3) i ltac:(lia)) as (y & Ny). destruct (nth_ex fs i ltac:(lia)) as (fy & Nfy). destruct (nth_ex (sw_lbX sw3) i ltac:(lia)) as (lx & Nlx). destruct (nth_ex (sw_lbf sw3) i ltac:(lia)) as (lf & Nlf).
    assert (Ny2 : nth_error (sw_X sw2) i = Some y) by (rewrite <- X3; exact Ny). assert (EY : evaluated q y fy) by exact (Forall2_at _ _ _ FE i y fy Ny2 Nfy). assert (BY : box y) by (rewrite Forall_forall in B2; apply B2; eapply nth_error_In; eauto).
    assert (Nlx0 : nth_error (sw_lbX sw) i = Some lx) by (rewrite <- L1, <- L2, <- L3; exact Nlx).
    destruct (nth_ex (sw_lbf sw) i) as (lf0 & Nlf0); [destruct SH as (_ & _ & _ & _ & Q & _); lia|]. destruct (MM i x f lx lf0 A B Nlx0 Nlf0) as [MD MS].
    specialize (U5 i y fy lf lx Ny Nfy Nlx Nlf). split; intros SB.
    - assert (KN : ks ++ ks' = []) by (apply SF3; exact SB). assert (Eq : q = p) by (unfold q; rewrite KN; reflexivity). assert (lf = lf0) by (rewrite (KD SB), F2, F1 in Nlf; congruence). subst lf0.
      destruct U5 as [(NBt & Ux & Uf)|(_ & Ux & Uf)]; rewrite Ux in C; rewrite Uf in D; injection C as <-; injection D as <-; [|exact (MD SB)]. right. rewrite Eq in EY. split; [exact EY|]. split; [exact BY|].
      destruct (MD SB) as [(-> & ->)|(_ & _ & NB0)]; [exact NBt|]. eapply nb_trans; eauto.
    - destruct (MS SB) as (MX & M0 & _ & _). rewrite SB in LK'. assert (ELX : evaluated q lx lf) by (apply (Forall2_at _ _ _ (KS SB) i); [rewrite <- L3; exact Nlx|exact Nlf]).
      assert (K1 : length (ks ++ ks') = 1 -> ks = []) by (rewrite app_length; destruct ks; [reflexivity|cbn; lia]). assert (KN : ks ++ ks' <> []) by (intros Q; apply app_eq_nil in Q; destruct Q as [_ ->]; discriminate).
      assert (SAME : forall g1 g2 z, evaluated q z g1 -> evaluated q z g2 -> g1 = g2) by (intros a1 a2 z (_ & _ & Q1) (_ & _ & Q2); congruence).
      destruct U5 as [(NBt & Ux & Uf)|(_ & Ux & Uf)]; rewrite Ux in C; rewrite Uf in D; injection C as <-; injection D as <-.
      + split; [right; exact BY|]. split; [congruence|]. split; [intros _; exact EY|]. intros LO gg Eg. destruct (M0 (K1 LO)) as [-> _]. rewrite (SAME gg lf x Eg ELX). exact NBt.
      + split; [exact MX|]. split; [congruence|]. split; [intros _; exact ELX|]. intros LO gg Eg. destruct (M0 (K1 LO)) as [-> _]. rewrite (SAME gg lf x Eg ELX). apply better_irrefl. }
  assert (FIN : forall nb, length nb = n -> (uses_nb a -> nb_ok n most nb) -> inv s0 (m + 1) (mkswarm (sw_V sw5) (sw_X sw5) (sw_lbX sw5) (sw_lbf sw5) (sw_bn sw5) (sw_bf sw5) (sw_improved sw5) nb) s3).
  { intros nb LN NB. exists (ks ++ ks'). split; [rewrite app_length, LK, LK'; destruct sto; lia|]. split; [replace ((m + 1) * per_gen) with (m * per_gen + per_gen) by lia; exact ST3|]. split; [destruct SH5 as (Q1 & Q2 & Q3 & Q4 & Q5 & Q6 & Q7 & Q8 & _); exact (conj Q1 (conj Q2 (conj Q3 (conj Q4 (conj Q5 (conj Q6 (conj Q7 (conj Q8 (conj LN NB)))))))))|].
    split; [cbn [sw_V]; rewrite V5; cbn [sw4 sw_V]; rewrite V3; exact SP2|exact MM5]. }
  destruct (Nat.eqb_spec (ps_ntype a) 4) as [E4|N4]; [destruct (negb (sw_improved sw5))|]; cbn [andb].
  - apply ends_bind. eapply ends_eng; [apply (adaptive_nb r RC n (ps_nparam a)); [exact Hn|now apply Hparam]|]. intros nb g' (LN & HN). apply ends_ret. change (inv s0 (m + 1) (mkswarm (sw_V sw5) (sw_X sw5) (sw_lbX sw5) (sw_lbf sw5) (sw_bn sw5) (sw_bf sw5) (sw_improved sw5) nb) s3). apply FIN; [exact LN|]. intros _. split; [exact LN|].
    intros l Hl. destruct (HN l Hl) as (B1 & B2' & B3). specialize (Hmost4 E4). split; [exact B1|]. split; [lia|exact B3].
  - apply ends_ret. destruct SH5 as (_ & _ & _ & _ & _ & _ & _ & _ & LN & NB). specialize (FIN (sw_nb sw5) LN NB). destruct sw5; exact FIN.
  - apply ends_ret. destruct SH5 as (_ & _ & _ & _ & _ & _ & _ & _ & LN & NB). specialize (FIN (sw_nb sw5) LN NB). destruct sw5; exact FIN.
Qed.
Context (Hring : ring_fits a n) (Hsize : (Z.of_nat n < 2 ^ 64)%Z) (Hmost : n <= most /\ 4 <= most /\ (ps_ntype a = 2 -> ps_nparam a <= most)) (Htype : 1 <= ps_ntype a <= 4).
Lemma topology_ok (s : G * pop P) : valid_pop (snd s) -> po_prob (snd s) = p -> length (po_id (snd s)) = n -> Forall pt (po_x (snd s)) ->
  ends (pso_topology srt r a n) s (fun t s' => snd s' = snd s /\ let '(nb, bn, bf) := t in length nb = n /\ (uses_nb a -> nb_ok n most nb) /\ pt bn /\ (ps_ntype a = 1 \/ ps_ntype a = 4 -> length bf = 1)) fails.
Proof.
  intros V EPs EN FX. pose proof V as (_ & ST & _). pose proof ST as (S1 & S2 & _ & SF & _). destruct at_0 as (PO & NC & NF). destruct (prob_obj_facts p PO) as (NOB & _).
  assert (NO : p_nobj p = 1) by (unfold get_nf, get_nc in *; lia).
  destruct (best_idx_lt srt (snd s)) as (b & EB & HB); [now rewrite EPs|now rewrite EPs|exact ST|intros Q; rewrite Q in EN; cbn in EN; lia|].
  assert (PZ : pt (repeat dzero (get_nx p))) by (split; [apply repeat_length|apply Forall_forall; intros v Hv; apply repeat_spec in Hv; subst v; exact Hgood0]).
  unfold pso_topology. apply ends_bind, ends_getp. rewrite EPs. destruct (vget_in_range (po_f (snd s)) b ltac:(lia)) as (f & Ef & Nf). assert (Lf : length f = 1) by (rewrite <- NF, <- EPs; apply SF; eapply nth_error_In; eauto). destruct (Nat.eqb_spec (ps_ntype a) 1) as [E1|N1].
  { apply ends_bind. eapply ends_lift_ok; [exact EB|]. destruct (vget_in_range (po_x (snd s)) b ltac:(lia)) as (x & Ex & Nx). apply ends_bind. eapply ends_lift_ok; [exact Ex|].
    apply ends_bind. eapply ends_lift_ok; [exact Ef|]. apply ends_ret. split; [reflexivity|].
    assert (PX : pt x) by (rewrite Forall_forall in FX; apply FX; eapply nth_error_In; eauto).
    destruct (Nat.eqb_spec (ps_variant a) 6) as [E6|N6]; (split; [now rewrite repeat_length|]); (split; [|split; [exact PX|auto]]); [|intros [Q|Q]; congruence]. intros _. split; [now rewrite repeat_length|].
    intros l Hl. apply repeat_spec in Hl. subst l. rewrite map_length, seq_length. split; [intros Q; apply map_eq_nil in Q; destruct n; [lia|discriminate]|]. split; [lia|]. intros j Hj. apply in_map_iff in Hj. destruct Hj as (q & <- & Hq). apply in_seq in Hq. lia. }
  destruct (Nat.eqb_spec (ps_ntype a) 3) as [E3|N3].
  { destruct (von_nb n Hn) as (nb & -> & LN & HN). apply ends_bind. eapply ends_lift_ok; [reflexivity|]. apply ends_ret. split; [reflexivity|]. split; [exact LN|]. split; [|split; [exact PZ|intros [Q|Q]; lia]]. intros _. split; [exact LN|]. intros l Hl. destruct (HN l Hl) as (A & B & C). split; [exact A|]. split; [lia|exact C]. }
  destruct (Nat.eqb_spec (ps_ntype a) 4) as [E4|N4].
  { apply ends_bind. eapply ends_eng; [apply (adaptive_nb r RC n (ps_nparam a)); [exact Hn|now apply Hparam]|]. intros nb g' (LN & HN). apply ends_bind. eapply ends_lift_ok; [exact EB|].
    apply ends_bind. eapply ends_lift_ok; [exact Ef|]. apply ends_ret. split; [reflexivity|]. split; [exact LN|]. split; [|split; [exact PZ|auto]]. intros _. split; [exact LN|].
    intros l Hl. destruct (HN l Hl) as (B1 & B2 & B3). specialize (Hmost4 E4). split; [exact B1|]. split; [lia|exact B3]. }
  assert (E2 : ps_ntype a = 2) by lia. specialize (Hring E2). destruct Hmost as (_ & _ & M2). specialize (M2 E2). destruct (lbest_nb n (ps_nparam a) Hring Hsize) as [LN HN].
  apply ends_ret. split; [reflexivity|]. split; [exact LN|]. split; [|split; [exact PZ|intros [Q|Q]; lia]]. intros _. split; [exact LN|]. intros l Hl. destruct (HN l Hl) as (B1 & B2 & B3). split; [exact B1|]. split; [|exact B3].
  pose proof (Nat.div_mod (ps_nparam a) 2 ltac:(lia)). lia.
Qed.
Lemma evolve_ok (V0 : list (list dbl)) (s : G * pop P) : valid_pop (snd s) -> po_prob (snd s) = p -> length (po_id (snd s)) = n -> (forall x v, In x (po_x (snd s)) -> In v x -> Good v) ->
  (ps_memory a = true -> length V0 = n -> forall v, In v V0 -> dim <= length v /\ Forall GV v) ->
  ends (pgen_evolve srt r reseed bfe a V0) s (fun V s' => pgen_run reseed box (ps_gen a) (snd s) (snd s') /\ length V = n /\ forall v, In v V -> dim <= length v /\ Forall GV v) fails.
Proof.
  intros V EPs EN GX GV0. destruct at_0 as (PO & NC & NF). pose proof V as (_ & ST & _). pose proof ST as (S1 & S2 & SX & SF & _). rewrite EPs in SX, SF.
  assert (FX : Forall pt (po_x (snd s))) by (apply Forall_forall; intros x Hx; split; [now apply SX|apply Forall_forall; intros v Hv; now apply (GX x)]).
  unfold pgen_evolve. apply ends_bind, ends_getp. cbv zeta. rewrite EPs, EN, NC, NF. destruct (Nat.eqb_spec n 0) as [Q|_]; [lia|]. cbn [Nat.eqb negb].
  apply ends_bind. eapply ends_eng; [eapply always_weak; [apply (speeds_ok r RC a p n most PO Hn GV Hspeed Hwide Hmost4 Hparam V0 GV0)|intros v Hv; exact Hv|exact fails_pso]|]. intros V1 g (LV & FV). cbv beta.
  apply ends_bind. eapply ends_weak; [apply (topology_ok (g, snd s) V EPs EN FX)| |auto]. intros [[nb bn] bf] s1 (E1 & LN & HN & PB & HBF). cbn [snd] in E1.
  apply ends_bind. eapply ends_weak; [apply (ends_seq _ (fun i sw s' => inv (snd s) (i - 1) sw s') fails (ps_gen a) 1)| |auto].
  - exists []. split; [destruct sto; reflexivity|]. split; [rewrite <- E1; split; [rewrite E1; exact V|]; split; [rewrite E1; exact EPs|]; split; [exact seeds_nil|]; do 3 (split; [reflexivity|]); cbn [Nat.sub Nat.mul]; apply evals_0|].
    split; [unfold shape; cbn [sw_V sw_X sw_lbX sw_lbf sw_bn sw_bf sw_nb]; split; [lia|]; split; [exact FX|]; split; [lia|]; split; [exact FX|]; split; [lia|]; split; [apply Forall_forall; intros f Hf; rewrite <- NF; now apply SF|]; auto|].
    split; [split; [exact LV|exact FV]|]. cbv delta [mem] beta zeta. cbn [sw_lbX sw_lbf]. intros i x f x' f' A B C D. assert (x' = x) by congruence. assert (f' = f) by congruence. subst x' f'. split; intros _; [auto|]. split; [auto|]. split; [auto|]. split; [congruence|discriminate].
  - intros i sw s' Hi I'. replace (i + 1 - 1) with (i - 1 + 1) by lia. apply generation_ok; auto; lia.
  - intros sw s2 (ks & LK & ST2 & SH2 & (LV2 & FV2) & MM). replace (1 + ps_gen a - 1) with (ps_gen a) in * by lia. pose proof SH2 as (_ & _ & LL & FL & Lf & FF & _). rewrite Forall_forall in FL, FF. destruct ST2 as (V2 & EQ2 & SF2 & I2 & X2 & F2 & EV2). destruct (at_seeds ks SF2) as (_ & NX2 & _ & NF2 & _).
    apply ends_bind. eapply ends_weak; [apply (ends_seq _ (fun i _ s' => valid_pop (snd s') /\ po_prob (snd s') = po_prob (snd s2) /\ po_id (snd s') = po_id (snd s) /\ po_fevals (snd s') = po_fevals (snd s2) /\ length (po_x (snd s')) = n /\ length (po_f (snd s')) = n /\
      forall j, j < i -> nth_error (po_x (snd s')) j = nth_error (sw_lbX sw) j /\ nth_error (po_f (snd s')) j = nth_error (sw_lbf sw) j) fails n 0)| |auto].
    + split; [exact V2|]. do 3 (split; [auto|]). rewrite X2, F2. split; [lia|]. split; [lia|]. lia.
    + intros i [] s3 Hi (V3 & P3 & I3 & C3 & LX3 & LF3 & H3). destruct (vget_in_range (sw_lbX sw) i ltac:(lia)) as (x & Ex & Nx). apply ends_bind. eapply ends_lift_ok; [exact Ex|]. destruct (vget_in_range (sw_lbf sw) i ltac:(lia)) as (f & Ef & Nf). apply ends_bind. eapply ends_lift_ok; [exact Ef|].
      apply ends_pset; [exact V3|rewrite I3; lia|rewrite P3, EQ2, NX2; apply (FL x); eapply nth_error_In; eauto|rewrite P3, EQ2, NF2; apply FF; eapply nth_error_In; eauto|].
      intros cc _ V4. cbn [snd]. split; [exact V4|]. cbn [setp po_prob po_id po_x po_f po_fevals]. rewrite !upd_len. do 5 (split; [assumption|]). intros j Hj. destruct (Nat.eq_dec j i) as [->|N]; [rewrite !upd_same by lia; auto|]. rewrite !upd_other by exact N. apply H3. lia.
    + intros [] s3 (V3 & P3 & I3 & C3 & LX3 & LF3 & H3). cbn [plus] in H3. apply ends_ret. split; [|split; [exact LV2|exact FV2]]. cbv delta [pgen_run] beta zeta. rewrite EPs. split; [exact V3|]. split; [exact I3|].
      assert (EVT : evals (ps_gen a * per_gen) (snd s) (snd s3)) by (unfold evals in *; rewrite C3; exact EV2). unfold per_gen in EVT.
      assert (AT : forall i x' f', nth_error (po_x (snd s3)) i = Some x' -> nth_error (po_f (snd s3)) i = Some f' -> nth_error (sw_lbX sw) i = Some x' /\ nth_error (sw_lbf sw) i = Some f').
      { intros i x' f' A B. assert (Hi : i < n) by (rewrite <- LX3; apply nth_error_Some; congruence). destruct (H3 i Hi) as [Q1 Q2]. split; congruence. }
      split; intros SB; rewrite SB in EVT, LK.
      * assert (KN : ks = []) by (now apply SF2). subst ks. cbn [fold_left] in EQ2. rewrite P3, EQ2, EN. split; [reflexivity|]. split; [exact EVT|]. split; [rewrite P3, EQ2; auto|]. split; [exact I3|]. split; [lia|]. split; [lia|].
        intros i x f x' f' A B C D. destruct (AT i x' f' C D) as [C' D']. destruct (MM i x f x' f' A B C' D') as [H _]. exact (H SB).
      * exists ks. split; [exact LK|]. split; [rewrite P3; exact EQ2|]. split; [rewrite EN; replace (2 * ps_gen a * n) with (ps_gen a * (2 * n)) by lia; exact EVT|]. intros i x f x' f' A B C D. destruct (AT i x' f' C D) as [C' D']. destruct (MM i x f x' f' A B C' D') as [_ H]. destruct (H SB) as (H1 & H2 & H5 & H4).
        rewrite P3, EQ2. split; [exact H1|]. split; [intros Q; apply H2; destruct ks; [reflexivity|cbn in LK; lia]|]. split; [intros Q; apply H5; intros ->; cbn in LK; lia|]. intros Q. apply H4. lia.
Qed.
End E.
