From Coq Require Import List Bool Arith ZArith Lia Permutation.
From Verif Require Import AlgDeFacts Dbl DblFacts IntDbl Outcome BaseFacts Compare SpecOrder CompareFacts StdSort Problem SpecProblem ProblemFacts Rng Generic SpecGeneric GenericFacts GenericFacts2 GenericFacts3 SpecGenetic RmFacts
  GeneticOps GeneticFacts Population SpecPopulation PopulationFacts Algo SpecAlgo AlgoFacts AlgoFacts2 AlgSaFacts AlgSaFacts2 AlgBee AlgBeeFacts SpecSwarm AlgGwo.
Import ListNotations.

(** ** Leaders *)
Lemma update_alpha l w : w_score (l_alpha (gwo_update l w)) = if dlt (w_score w) (w_score (l_alpha l)) then w_score w else w_score (l_alpha l).
Proof.
  unfold gwo_update. cbv zeta. destruct (dlt (w_score w) (w_score (l_alpha l))) eqn:D; cbn [l_alpha l_beta l_delta].
  all: repeat match goal with |- context [if ?b then _ else _] => destruct b end; reflexivity.
Qed.
Lemma update_in l w (Q : wolf -> Prop) : Q (l_alpha l) -> Q (l_beta l) -> Q (l_delta l) -> Q w ->
  Q (l_alpha (gwo_update l w)) /\ Q (l_beta (gwo_update l w)) /\ Q (l_delta (gwo_update l w)).
Proof.
  intros A B C D. unfold gwo_update. cbv zeta. repeat match goal with |- context [if ?b then _ else _] => destruct b; cbn [l_alpha l_beta l_delta] end; auto.
Qed.
(** The initial leaders are three different individuals and no other one is worse than they are. *)
Lemma gwo_init_ok srt xs fs : sort_contract srt -> length xs = length fs -> Forall (fun f => length f = 1) fs -> 3 <= length fs ->
  exists i0 i1 i2 x0 x1 x2, gwo_init srt xs fs = Ok (mkleaders (mkwolf (obj (nth i0 fs [])) x0) (mkwolf (obj (nth i1 fs [])) x1) (mkwolf (obj (nth i2 fs [])) x2)) /\
    NoDup [i0; i1; i2] /\ i0 < length fs /\ i1 < length fs /\ i2 < length fs /\ nth_error xs i0 = Some x0 /\ nth_error xs i1 = Some x1 /\ nth_error xs i2 = Some x2 /\
    not_worse (obj (nth i1 fs [])) (obj (nth i0 fs [])) /\ not_worse (obj (nth i2 fs [])) (obj (nth i1 fs [])) /\
    forall j, j < length fs -> ~ In j [i0; i1; i2] -> not_worse (obj (nth j fs [])) (obj (nth i2 fs [])).
Proof.
  intros SC L F1 H3. rewrite Forall_forall in F1. unfold gwo_init. rewrite (mmap_pure _ obj) by (intros f Hf; apply obj_vget; auto). cbn [bind].
  set (keys := map obj fs). assert (K : forall j, j < length fs -> nth j keys NaN = obj (nth j fs [])).
  { intros j Hj. unfold keys. rewrite (nth_indep _ NaN (obj [])) by (rewrite map_length; exact Hj). apply map_nth. }
  destruct (std_sort_ok srt (fun j k => greater_than_f (nth j keys NaN) (nth k keys NaN)) (iota (length fs)) SC (gtf_key_swo (fun a => nth a keys NaN) _)) as (idx & E & Pm & S).
  rewrite E. cbn [bind]. pose proof (Permutation_length Pm) as PL. unfold iota in PL. rewrite seq_length in PL.
  destruct idx as [|i0 [|i1 [|i2 t]]]; cbn [length] in PL; try lia.
  assert (R : forall j, In j (i0 :: i1 :: i2 :: t) <-> j < length fs) by (intros j; apply Permutation_iota_in; exact Pm).
  assert (ND : NoDup (i0 :: i1 :: i2 :: t)) by (eapply Permutation_NoDup; [exact Pm|apply iota_NoDup]).
  pose proof (proj1 (R i0) ltac:(cbn; auto)) as H0. pose proof (proj1 (R i1) ltac:(cbn; auto)) as H1. pose proof (proj1 (R i2) ltac:(cbn; auto)) as H2.
  assert (G : forall i, i < length fs -> exists x, nth_error xs i = Some x /\ bind (vget fs i) (fun f => bind (vget f 0) (fun s => bind (vget xs i) (fun x => Ok (mkwolf s x)))) = Ok (mkwolf (obj (nth i fs [])) x)).
  { intros i Hi. destruct (vget_in_range xs i ltac:(lia)) as (x & Ex & Nx). exists x. split; [exact Nx|]. destruct (vget_in_range fs i Hi) as (f & Ef & Nf). rewrite Ef. cbn [bind].
    rewrite (obj_vget f) by (apply F1; eapply nth_error_In; eauto). cbn [bind]. rewrite Ex. cbn [bind]. now rewrite (nth_error_nth _ _ _ Nf). }
  destruct (G i0 H0) as (x0 & N0 & E0). destruct (G i1 H1) as (x1 & N1 & E1). destruct (G i2 H2) as (x2 & N2 & E2).
  exists i0, i1, i2, x0, x1, x2. split.
  { cbn [vget nth_error bind]. rewrite E0. cbn [bind]. rewrite E1. cbn [bind]. rewrite E2. reflexivity. }
  assert (W : forall m n a b, m < n -> nth_error (i0 :: i1 :: i2 :: t) m = Some a -> nth_error (i0 :: i1 :: i2 :: t) n = Some b -> not_worse (obj (nth b fs [])) (obj (nth a fs []))).
  { intros m n a b Hmn Ha Hb. pose proof (sorted_by_nth _ _ m n a b S Hmn Ha Hb) as C. cbv beta in C. rewrite greater_than_f_flip in C. apply ltf_false in C.
    apply nth_error_In, R in Ha. apply nth_error_In, R in Hb. rewrite !K in C by assumption. exact C. }
  split; [|repeat (split; [assumption|]); split; [apply (W 0 1); auto|]; split; [apply (W 1 2); auto|]].
  - rewrite !NoDup_cons_iff in ND. rewrite !NoDup_cons_iff. cbn [In] in *. repeat split; try tauto. constructor.
  - intros j Hj Nj. apply R in Hj. cbn [In] in Hj, Nj. assert (Hjt : In j t) by tauto. apply In_nth_error in Hjt. destruct Hjt as (n & Hn). apply (W 2 (3 + n)); [lia|reflexivity|exact Hn].
Qed.

Lemma some_inj {A} (a b : A) : Some a = Some b -> a = b. Proof. congruence. Qed.
Section W.
Context {G P : Type} (r : rng G) (RC : rng_contract r) (srt : sorter) (SC : sort_contract srt) (p : problem) (Box : list dbl -> Prop) (Good GoodL Res : dbl -> Prop) (m_gen : nat).
Context (PO : prob_obj p) (NF : get_nf p = 1) (FD : fitness_defined p).
Context (Hpull : forall g, 1 <= g -> g <= m_gen -> forall a b d x r1 r2 r3 r4 r5 r6, GoodL a -> GoodL b -> GoodL d -> Good x -> within dzero done r1 -> within dzero done r2 -> within dzero done r3 -> within dzero done r4 -> within dzero done r5 -> within dzero done r6 ->
   let pull l u v := dsub l (dmul (dsub (dmul (dmul dtwo (gwo_a m_gen g)) u) (gwo_a m_gen g)) (dabs (dsub (dmul (dmul dtwo v) l) x))) in
   Res (ddiv (dadd (dadd (pull a r1 r2) (pull b r3 r4)) (pull d r5 r6)) dthree)).
Context (Hstick : forall y z, length y = get_nx p -> Forall Res y -> force_bounds_stick y (p_lb p) (p_ub p) = Ok z -> Box z /\ Forall Good z /\ Forall GoodL z).

Definition goodv (x : list dbl) : Prop := length x = get_nx p /\ Forall Good x.
Definition goodw (x : list dbl) : Prop := length x = get_nx p /\ Forall GoodL x.
Definition goodl (l : leaders) : Prop := goodw (w_pos (l_alpha l)) /\ goodw (w_pos (l_beta l)) /\ goodw (w_pos (l_delta l)).
Lemma goodw_get x k : goodw x -> k < get_nx p -> exists v, vget x k = Ok v /\ nth_error x k = Some v /\ GoodL v.
Proof. intros [L F] H. apply Forall_nth_ok; [exact F|lia]. Qed.
Lemma goodv_get x k : goodv x -> k < get_nx p -> exists v, vget x k = Ok v /\ nth_error x k = Some v /\ Good v.
Proof. intros [L F] H. apply Forall_nth_ok; [exact F|lia]. Qed.
Lemma draw01_in E : always (draw01 r) (within dzero done) E.
Proof.
  intros g. destruct (draw_real_ok r RC dzero done g) as (v & H & W); [exact (AlgBeeFacts.done_pos)|repeat split; vm_compute; reflexivity|]. unfold draw01. rewrite H. exact W.
Qed.
Lemma component_ok g l x0 x k E : 1 <= g -> g <= m_gen -> goodl l -> goodv x0 -> k < get_nx p -> length x = get_nx p -> (forall j, k <= j -> nth_error x j = nth_error x0 j) -> (forall j v, j < k -> nth_error x j = Some v -> Res v) ->
  always (gwo_component r (gwo_a m_gen g) l x k) (fun x' => length x' = get_nx p /\ (forall j, k + 1 <= j -> nth_error x' j = nth_error x0 j) /\ (forall j v, j < k + 1 -> nth_error x' j = Some v -> Res v)) E.
Proof.
  intros G1 G2 (La & Lb & Ld) G0 Hk Lx Hx HR. unfold gwo_component.
  destruct (goodv_get x0 k G0 Hk) as (v & _ & Nv & Gv).
  apply (always_bind _ _ (fun w => w = v)); [apply (always_vget _ _ v); [rewrite Hx by lia; exact Nv|reflexivity]|]. intros ? ->.
  destruct (goodw_get _ k La Hk) as (a & _ & Ea & Ga). destruct (goodw_get _ k Lb Hk) as (b & _ & Eb & Gb). destruct (goodw_get _ k Ld Hk) as (d & _ & Ed & Gd).
  assert (PU : forall l, always (gwo_pull r (gwo_a m_gen g) l v) (fun y => exists u w, within dzero done u /\ within dzero done w /\ y = dsub l (dmul (dsub (dmul (dmul dtwo (gwo_a m_gen g)) u) (gwo_a m_gen g)) (dabs (dsub (dmul (dmul dtwo w) l) v)))) E).
  { intros l0. unfold gwo_pull. eapply always_bind; [apply draw01_in|]. intros u Hu. eapply always_bind; [apply draw01_in|]. intros w Hw. apply always_ret. exists u, w. auto. }
  apply (always_bind _ _ (fun w => w = a)); [apply (always_vget _ _ a); [exact Ea|reflexivity]|]. intros ? ->. eapply always_bind; [apply PU|]. intros y0 (u0 & w0 & U0 & W0 & ->).
  apply (always_bind _ _ (fun w => w = b)); [apply (always_vget _ _ b); [exact Eb|reflexivity]|]. intros ? ->. eapply always_bind; [apply PU|]. intros y1 (u1 & w1 & U1 & W1 & ->).
  apply (always_bind _ _ (fun w => w = d)); [apply (always_vget _ _ d); [exact Ed|reflexivity]|]. intros ? ->. eapply always_bind; [apply PU|]. intros y2 (u2 & w2 & U2 & W2 & ->).
  apply always_vset; [lia|]. split; [now rewrite upd_len|]. split.
  - intros j Hj. rewrite upd_other by lia. apply Hx. lia.
  - intros j w Hj Hw. destruct (Nat.eq_dec j k) as [->|N].
    + rewrite upd_same in Hw by lia. apply some_inj in Hw. rewrite <- Hw. apply (Hpull g G1 G2); assumption.
    + rewrite upd_other in Hw by exact N. apply (HR j); [lia|exact Hw].
Qed.
Lemma move_ok g l x E : 1 <= g -> g <= m_gen -> goodl l -> goodv x -> always (rfold (gwo_component r (gwo_a m_gen g) l) x (seq 0 (get_nx p))) (fun y => length y = get_nx p /\ Forall Res y) E.
Proof.
  intros G1 G2 Gl Gx.
  eapply always_weak with (Q := fun y => length y = get_nx p /\ (forall j, 0 + get_nx p <= j -> nth_error y j = nth_error x j) /\ (forall j v, j < 0 + get_nx p -> nth_error y j = Some v -> Res v)) (E := E).
  - apply (always_seq _ (fun k y => length y = get_nx p /\ (forall j, k <= j -> nth_error y j = nth_error x j) /\ (forall j v, j < k -> nth_error y j = Some v -> Res v))).
    + split; [apply Gx|]. split; [auto|intros; lia].
    + intros k y Hk (A & B & C). apply component_ok; auto; lia.
  - intros y (A & _ & C). split; [exact A|]. apply Forall_forall. intros v Hv. apply In_nth_error in Hv. destruct Hv as (j & Hj). apply (C j); [|exact Hj]. rewrite <- A. apply nth_error_Some. congruence.
  - auto.
Qed.

(** c evaluations after the start s0 *)
Definition ginv (s0 : pop P) (c : nat) (l : leaders) (s : pop P) : Prop :=
  valid_pop s /\ po_prob s = p /\ po_id s = po_id s0 /\ Forall goodv (po_x s) /\ evals c s0 s /\ goodl l /\ found p Box s0 (w_score (l_alpha l)) /\
  forall j x f, j < c -> nth_error (po_x s) j = Some x -> nth_error (po_f s) j = Some f -> evaluated p x f /\ Box x /\ not_above (w_score (l_alpha l)) (obj f).
Definition lower (a b : dbl) : Prop := b = a \/ dlt b a = true.
Lemma lower_trans a b c : lower a b -> lower b c -> lower a c.
Proof. intros [->|H1] [->|H2]; [left|right|right|right]; auto. eapply AlgBeeFacts.dlt_trans'; eauto. Qed.
Lemma agent_ok g s0 c l i (s : G * pop P) : 1 <= g -> g <= m_gen -> ginv s0 c l (snd s) -> i < length (po_id s0) -> c = i \/ length (po_id s0) <= c ->
  ends (gwo_agent r (gwo_a m_gen g) l i) s (fun l' s' => ginv s0 (c + 1) l' (snd s') /\ lower (w_score (l_alpha l)) (w_score (l_alpha l'))) (fails p).
Proof.
  intros G1 G2 (V & EP & EI & FG & EV & Gl & FO & CO) Hi Hc. pose proof V as (_ & ST & _). pose proof ST as (S1 & S2 & Fx & Ff & _). rewrite EP in Fx, Ff. rewrite EI in S1. assert (S2i : length (po_f (snd s)) = length (po_id s0)) by congruence.
  destruct (prob_obj_lens p PO) as [Ll Lu].
  unfold gwo_agent. apply ends_bind, ends_getp. cbv zeta. rewrite EP.
  destruct (vget_in_range (po_x (snd s)) i ltac:(lia)) as (x & E1 & N1). apply ends_bind. eapply ends_lift_ok; [exact E1|].
  assert (Gx : goodv x) by (rewrite Forall_forall in FG; apply FG; eapply nth_error_In; eauto).
  apply ends_bind. eapply ends_eng; [apply (move_ok g l x _ G1 G2 Gl Gx)|]. intros y g1 (Ly & Fy). cbn [snd fst].
  destruct (stick_spec y (p_lb p) (p_ub p) ltac:(lia) ltac:(lia)) as (z & Ez & Lz & _). apply ends_bind. eapply ends_lift_ok; [exact Ez|].
  destruct (Hstick y z Ly Fy Ez) as (Bz & Gz & Lz').
  apply ends_bind. eapply (ends_peval p); [exact EP|exact FD|lia|intros e He; left; exact He|]. intros f EVf. cbn [fst snd].
  pose proof EVf as (_ & LEF & _). rewrite NF in LEF.
  apply ends_bind. apply ends_pset; cbn [fst snd]; [now apply valid_fevals|cbn [with_fevals po_id]; rewrite EI; exact Hi|cbn [with_fevals po_prob]; rewrite EP; lia|cbn [with_fevals po_prob]; rewrite EP, NF; exact LEF|].
  intros ch _ V'. cbn [fst snd]. apply ends_bind. eapply ends_lift_ok; [apply obj_vget; exact LEF|]. apply ends_ret. cbn [snd].
  set (l' := gwo_update l (mkwolf (obj f) z)).
  assert (UA : w_score (l_alpha l') = if dlt (obj f) (w_score (l_alpha l)) then obj f else w_score (l_alpha l)) by (unfold l'; now rewrite update_alpha).
  assert (LO : lower (w_score (l_alpha l)) (w_score (l_alpha l'))).
  { rewrite UA. destruct (dlt (obj f) (w_score (l_alpha l))) eqn:D; [right; exact D|left; reflexivity]. }
  assert (GV : goodv z) by (split; [lia|exact Gz]). assert (GW : goodw z) by (split; [lia|exact Lz']).
  split; [|exact LO]. split; [exact V'|]. split; [exact EP|]. split; [exact EI|]. cbn [setp po_x po_f with_fevals]. split; [apply forall_upd; auto|].
  split. { pose proof (evals_S c s0 (snd s) EV) as K. unfold evals in *. cbn [setp po_fevals with_fevals] in *. exact K. }
  destruct Gl as (Ga & Gb & Gd). split; [apply (update_in l (mkwolf (obj f) z) (fun w => goodw (w_pos w))); assumption|].
  split. { rewrite UA. destruct (dlt (obj f) (w_score (l_alpha l))); [right; exists z, f; auto|exact FO]. }
  intros j x' f' Hj Hx' Hf'. destruct (Nat.eq_dec j i) as [->|Nj].
  - rewrite upd_same in Hx' by lia. rewrite upd_same in Hf' by lia. injection Hx' as <-. injection Hf' as <-. split; [exact EVf|]. split; [exact Bz|].
    rewrite UA. unfold not_above. destruct (dlt (obj f) (w_score (l_alpha l))) eqn:D.
    + destruct (obj f) eqn:Q; auto; right; right; apply dle_refl; discriminate.
    + destruct (w_score (l_alpha l)) eqn:Q1; auto; destruct (obj f) eqn:Q2; auto; right; right; apply dlt_false_dle; auto; discriminate.
  - rewrite upd_other in Hx', Hf' by exact Nj. assert (j < length (po_id s0)) by (rewrite S1; apply nth_error_Some; congruence). destruct (CO j x' f' ltac:(lia) Hx' Hf') as (A & B & C). split; [exact A|]. split; [exact B|].
    destruct LO as [->|LO]; [exact C|]. destruct C as [C|[C|C]].
    + rewrite C in LO. destruct (w_score (l_alpha l')); discriminate LO.
    + right; left; exact C.
    + right; right. eapply dle_trans; [apply dlt_dle; exact LO|exact C].
Qed.
Lemma gen_agents_ok g s0 n l (s : G * pop P) : 1 <= g -> g <= m_gen -> n = 0 \/ length (po_id s0) <= n -> ginv s0 n l (snd s) ->
  ends (rfold (gwo_agent r (gwo_a m_gen g)) l (seq 0 (length (po_id s0)))) s (fun l' s' => ginv s0 (n + length (po_id s0)) l' (snd s') /\ lower (w_score (l_alpha l)) (w_score (l_alpha l'))) (fails p).
Proof.
  intros G1 G2 Hn I. change (length (po_id s0)) with (0 + length (po_id s0)) at 2.
  apply (ends_seq _ (fun i l' s' => ginv s0 (n + i) l' (snd s') /\ lower (w_score (l_alpha l)) (w_score (l_alpha l')))).
  - rewrite Nat.add_0_r. split; [exact I|left; reflexivity].
  - intros i l1 s1 Hi (I1 & L1). eapply ends_weak; [apply (agent_ok g s0 (n + i) l1 i s1 G1 G2 I1); lia| |auto]. intros l2 s2 (I2 & L2). rewrite <- Nat.add_assoc in I2. split; [exact I2|]. eapply lower_trans; eauto.
Qed.
Definition alphas (log : list (dbl * dbl * dbl)) : list dbl := map (fun e => fst (fst e)) log.
Definition linv (s0 : pop P) (a0 : dbl) (g : nat) (st : leaders * list (dbl * dbl * dbl)) (s : pop P) : Prop :=
  ginv s0 ((g - 1) * length (po_id s0)) (fst st) s /\ length (snd st) = g - 1 /\ descending (alphas (snd st)) /\
  (forall a, In a (alphas (snd st)) -> lower a (w_score (l_alpha (fst st))) /\ lower a0 a) /\
  (1 < g -> exists pre, snd st = pre ++ [scores (fst st)]) /\ lower a0 (w_score (l_alpha (fst st))).
Lemma gwo_gens_ok s0 l (s : G * pop P) : m_gen <> 0 -> ginv s0 0 l (snd s) ->
  ends (rfold (gwo_gen r m_gen (length (po_id s0))) (l, []) (seq 1 m_gen)) s (fun st s' => linv s0 (w_score (l_alpha l)) (1 + m_gen) st (snd s')) (fails p).
Proof.
  intros _ I. set (a0 := w_score (l_alpha l)).
  apply (ends_seq _ (fun g st s' => linv s0 a0 g st (snd s'))).
  - split; [exact I|]. split; [reflexivity|]. split; [intros i j a b _ H; destruct i; discriminate H|]. split; [intros a []|]. split; [intros; lia|left; reflexivity].
  - intros g [l1 log] s1 Hg (I1 & LL & DD & LA & TL & L0). cbn [fst snd] in *. unfold gwo_gen. cbn [fst snd].
    apply ends_bind. eapply ends_weak; [apply (gen_agents_ok g s0 ((g - 1) * length (po_id s0)) l1 s1); [lia|lia| |exact I1]| |auto].
    { destruct (Nat.eq_dec g 1) as [->|Ng]; [left; reflexivity|right]. replace (g - 1) with (1 + (g - 2)) by lia. cbn [Nat.add Nat.mul]. apply Nat.le_add_r. }
    intros l2 s2 (I2 & L2). apply ends_ret. unfold linv. cbn [fst snd].
    replace ((g + 1 - 1) * length (po_id s0)) with ((g - 1) * length (po_id s0) + length (po_id s0)) by (replace (g + 1 - 1) with (1 + (g - 1)) by lia; cbn [Nat.add Nat.mul]; apply Nat.add_comm).
    split; [exact I2|]. split; [rewrite app_length; cbn [length]; lia|].
    assert (AL : forall a, In a (alphas log) -> lower a (w_score (l_alpha l2))) by (intros a Ha; eapply lower_trans; [apply LA; exact Ha|exact L2]).
    assert (L02 : lower a0 (w_score (l_alpha l2))) by (eapply lower_trans; eauto).
    unfold alphas in *. rewrite map_app. cbn [map scores fst]. split; [|split; [|split; [|exact L02]]].
    + intros i j a b Hij Ha Hb. destruct (Nat.lt_ge_cases j (length log)) as [Hj|Hj].
      * rewrite nth_error_app1 in Ha by (rewrite map_length; lia). rewrite nth_error_app1 in Hb by (rewrite map_length; lia). apply (DD i j); auto.
      * rewrite nth_error_app2 in Hb by (rewrite map_length; lia). rewrite map_length in Hb. destruct (j - length log) as [|k] eqn:Ej; [|destruct k; discriminate Hb]. injection Hb as <-.
        rewrite nth_error_app1 in Ha by (rewrite map_length; lia). apply AL. eapply nth_error_In; eauto.
    + intros a Ha. apply in_app_or in Ha. destruct Ha as [Ha|[<-|[]]]; [split; [apply AL; exact Ha|apply LA; exact Ha]|split; [left; reflexivity|exact L02]].
    + intros _. exists log. reflexivity.
Qed.
Definition gwo_post (s s' : pop P) (log : list (dbl * dbl * dbl)) : Prop :=
  valid_pop s' /\ po_prob s' = p /\ po_id s' = po_id s /\ (forall x, In x (po_x s') -> Box x) /\
  (forall i x f, nth_error (po_x s') i = Some x -> nth_error (po_f s') i = Some f -> evaluated p x f) /\ evals (m_gen * length (po_id s)) s s' /\
  length log = m_gen /\ descending (alphas log) /\
  (exists pre a b d, log = pre ++ [(a, b, d)] /\ found p Box s a /\ forall f, In f (po_f s') -> not_above a (obj f)) /\
  ((exists f, In f (po_f s) /\ obj f = NaN) -> forall a, In a (alphas log) -> a = NaN).
Lemma gwo_evolve_ok (s : G * pop P) : po_prob (snd s) = p -> valid_pop (snd s) -> plain_single p -> m_gen <> 0 -> 3 <= length (po_id (snd s)) -> Forall (Forall Good) (po_x (snd s)) ->
  (forall l, gwo_init srt (po_x (snd s)) (po_f (snd s)) = Ok l -> Forall GoodL (w_pos (l_alpha l)) /\ Forall GoodL (w_pos (l_beta l)) /\ Forall GoodL (w_pos (l_delta l))) ->
  ends (gwo_evolve r srt m_gen) s (fun log s' => gwo_post (snd s) (snd s') log) (fails p).
Proof.
  intros EP V (NC & _ & NS) Hm HN GX HL. pose proof V as (_ & ST & _). pose proof ST as (S1 & S2 & Fx & Ff & _). rewrite EP in Fx, Ff.
  unfold gwo_evolve. apply ends_bind, ends_getp. cbv zeta. rewrite EP, NC, NF, NS. cbn [Nat.eqb negb]. destruct (Nat.eqb_spec m_gen 0); [lia|]. destruct (Nat.ltb_spec (length (po_id (snd s))) 3); [lia|].
  destruct (gwo_init_ok srt (po_x (snd s)) (po_f (snd s)) SC ltac:(lia)) as (i0 & i1 & i2 & x0 & x1 & x2 & EI & ND & H0 & H1 & H2 & N0 & N1 & N2 & W1 & W2 & W3); [apply Forall_forall; intros f Hf; rewrite <- NF; now apply Ff|lia|].
  apply ends_bind. eapply ends_lift_ok; [exact EI|]. set (l := mkleaders _ _ _).
  assert (GV : Forall goodv (po_x (snd s))). { apply Forall_forall. intros x Hx. split; [apply Fx; exact Hx|]. rewrite Forall_forall in GX. now apply GX. }
  assert (IV : ginv (snd s) 0 l (snd s)).
  { split; [exact V|]. split; [exact EP|]. split; [reflexivity|]. split; [exact GV|]. split; [apply evals_0|].
    rewrite Forall_forall in GV. destruct (HL l EI) as (Q0 & Q1 & Q2). split; [split; [|split]; (split; [|assumption]); cbn [l l_alpha l_beta l_delta w_pos]; apply Fx; eapply nth_error_In; eauto|].
    split; [left; exists (nth i0 (po_f (snd s)) []); split; [apply nth_In; exact H0|reflexivity]|]. intros; lia. }
  apply ends_bind. eapply ends_weak; [apply (gwo_gens_ok (snd s) l s Hm IV)| |auto]. intros [l' log] s' (I & LL & DD & LA & TL & L0). apply ends_ret. cbn [fst snd] in *.
  destruct I as (V' & EP' & EI' & FG' & EV' & _ & FO & CO). replace (1 + m_gen - 1) with m_gen in * by lia.
  pose proof V' as (_ & ST' & _). pose proof ST' as (S1' & S2' & _). rewrite EI' in S1'.
  assert (CV : forall j, j < length (po_id (snd s)) -> j < m_gen * length (po_id (snd s))) by (intros j Hj; destruct m_gen; [contradiction|]; cbn [Nat.mul]; eapply Nat.lt_le_trans; [exact Hj|apply Nat.le_add_r]).
  split; [exact V'|]. split; [exact EP'|]. split; [exact EI'|].
  split. { intros x Hx. apply In_nth_error in Hx. destruct Hx as (j & Hj). assert (j < length (po_id (snd s))) by (rewrite S1'; apply nth_error_Some; congruence).
    destruct (vget_in_range (po_f (snd s')) j ltac:(lia)) as (f & _ & Nf). apply (CO j x f); auto. }
  split. { intros j x f Hx Hf. assert (j < length (po_id (snd s))) by (rewrite S1'; apply nth_error_Some; congruence). apply (CO j); auto. }
  split; [exact EV'|]. split; [exact LL|]. split; [exact DD|]. split.
  { destruct (TL ltac:(lia)) as (pre & Epre). exists pre, (w_score (l_alpha l')), (w_score (l_beta l')), (w_score (l_delta l')). split; [exact Epre|]. split; [exact FO|].
    intros f Hf. apply In_nth_error in Hf. destruct Hf as (j & Hj). assert (j < length (po_id (snd s))) by (rewrite S1', S2'; apply nth_error_Some; congruence).
    destruct (vget_in_range (po_x (snd s')) j ltac:(lia)) as (x & _ & Nx). apply (CO j x f); auto. }
  intros (f & Hf & Nf) a Ha. destruct (LA a Ha) as [_ K].
  assert (Z0 : w_score (l_alpha l) = NaN).
  { cbn [l l_alpha w_score]. apply In_nth_error in Hf. destruct Hf as (j & Hj). assert (Hj' : j < length (po_f (snd s))) by (apply nth_error_Some; congruence).
    assert (K1 : not_worse (obj (nth j (po_f (snd s)) [])) (obj (nth i0 (po_f (snd s)) []))).
    { destruct (Nat.eq_dec j i0) as [->|A0]; [apply not_worse_refl|]. destruct (Nat.eq_dec j i1) as [->|A1]; [exact W1|].
      assert (W20 : not_worse (obj (nth i2 (po_f (snd s)) [])) (obj (nth i0 (po_f (snd s)) []))) by (eapply not_worse_trans; [exact W2|exact W1]).
      destruct (Nat.eq_dec j i2) as [->|A2]; [exact W20|]. eapply not_worse_trans; [apply W3; [exact Hj'|cbn [In]; intuition]|exact W20]. }
    rewrite (nth_error_nth _ _ _ Hj), Nf in K1. destruct (obj (nth i0 (po_f (snd s)) [])); auto; exfalso; apply K1; exact I. }
  destruct K as [->|K]; [exact Z0|]. rewrite Z0 in K. destruct a; discriminate K.
Qed.
End W.
