From Coq Require Import List Bool Arith ZArith Lia Permutation.
From Verif Require Import Dbl DblFacts IntDbl Outcome StdSort BaseFacts Compare CompareFacts Problem SpecProblem ProblemFacts2 Rng SpecGeneric SpecGenetic Generic GeneticOps GeneticFacts RmFacts Population SpecPopulation PopulationFacts PopulationFacts3
  Algo SpecAlgo SpecNsga2 AlgNsga2 AlgoFacts AlgoFacts2 AlgGaco AlgGacoFacts AlgGacoFacts2 AlgGacoFacts3 AlgGacoFacts4 AlgEigen AlgEigenFacts AlgMem AlgMemFacts AlgCmaes SpecCmaes AlgCmaesFacts AlgCmaesFacts1 AlgCmaesFacts2 AlgCmaesFacts3 AlgXnes SpecXnes AlgXnesFacts.
Import ListNotations.

Section S.
Context {G P : Type} (r : rng G) (RC : rng_contract r) (srt : sorter) (SC : sort_contract srt) (K : eigen) (KC : eigen_contract K) (reseed : problem -> Z -> problem) (a : xnes_params).
Notation ST := ((G * xmem) * pop P)%type.

Definition xind (q : problem) (k : xmem) (z x : vec) : Prop := exists pt, xpoint K (get_nx q) k z pt /\ made_of (xn_force a) q pt x /\ length x = get_nx q /\ forced (xn_force a) q x.
Definition xinv (q : problem) (s0 : pop P) (k : xmem) (i : nat) (zs : list vec) (t : ST) : Prop :=
  snd (fst t) = k /\ exists xs, length xs = i /\ set_to q s0 (snd t) xs i /\ evals i s0 (snd t) /\ Forall2 (xind q k) zs xs.
Lemma xn_loop q (k : xmem) (s : ST) : fine q -> fitness_defined q -> po_prob (snd s) = q -> valid_pop (snd s) -> snd (fst s) = k -> xmem_sized (get_nx q) k ->
  ends (rfold (xn_one r K a k) [] (seq 0 (length (po_id (snd s))))) s (xinv q (snd s) k (length (po_id (snd s)))) (fitness_throws q).
Proof.
  intros F FD EP V EK (R1 & R2). rewrite square_sq in R2. apply (ends_seq _ (xinv q (snd s) k) (fitness_throws q) (length (po_id (snd s))) 0).
  { split; [exact EK|]. exists []. split; [reflexivity|]. split; [split; [exact V|]; split; [exact EP|]; split; [reflexivity|intros; lia]|]. split; [apply evals_0|constructor]. }
  intros i zs t Hi (Kt & xs & Lx & ST & Et & Fz). pose proof ST as (Vt & Pt & It & _). unfold xn_one. apply ends_bind, ends_getp. rewrite Pt. cbv zeta. apply ends_bind.
  eapply ends_mdraws with (Q1 := fun z => length z = get_nx q).
  { eapply always_weak; [apply (always_map _ (fun _ _ => True) never)| |intros e []].
    - intros y _ g. unfold rdraw. now destruct (g_norm r dzero done g).
    - intros l Hl. pose proof (F2_len _ _ _ Hl) as L. rewrite seq_length in L. lia. }
  intros z g Lz. cbv beta. destruct (mvec_ok K (get_nx q) (xe_A k) z R2 Lz) as (st & E1 & Hst). apply ends_bind. eapply ends_lift_ok; [exact E1|].
  destruct (vplus_ok (get_nx q) (xe_mean k) st R1 Hst) as (pt & E2 & Hpt). apply ends_bind. eapply ends_lift_ok; [exact E2|]. apply ends_bind.
  eapply ends_okp with (Q1 := fun x => xind q k z x).
  { assert (XP : xpoint K (get_nx q) k z pt) by (split; [exact Lz|]; exists st; auto). unfold xind. destruct (xn_force a).
    - eapply okp_weak; [apply okp_and; [apply (force_one_ok q pt (proj1 F) Hpt)|apply (force_one_made q pt (proj1 F) Hpt)]|]. intros x ((X1 & X2) & X3). exists pt. split; [exact XP|]. split; [exact X3|]. split; [exact X1|]. intros _. exact X2.
    - apply okp_ret. exists pt. split; [exact XP|]. split; [|split; [exact Hpt|intros D; discriminate D]]. pose proof (made_same q [pt]) as MS. inversion MS. assumption. }
  intros x Hx. cbv beta. pose proof Hx as (_ & _ & _ & Lxx & _). apply ends_bind. apply (ends_peval q); [exact Pt|exact FD|exact Lxx|auto|]. intros f EV. pose proof EV as (Q1 & Q2 & _). cbn [fst snd].
  apply ends_bind. apply ends_pset; [exact Vt|cbn; rewrite It; lia|cbn; rewrite Pt; exact Lxx|cbn; rewrite Pt; exact Q2|]. intros cc UC V'. apply ends_ret. split; [exact Kt|]. cbn [fst snd].
  exists (xs ++ [x]). split; [rewrite app_length, Lx; reflexivity|]. split; [|split; [apply (evals_S i (snd s) (snd t)) in Et; exact Et|apply Forall2_app; [exact Fz|constructor; [exact Hx|constructor]]]].
  apply (set_to_set q (snd s) (with_fevals (snd t) (wrap64 (po_fevals (snd t) + 1))) (xs ++ [x]) i x f cc).
  - split; [exact Vt|]. split; [exact Pt|]. split; [exact It|]. intros j y h Hj Hy Hh. destruct ST as (_ & _ & _ & X). destruct (X j y h Hj Hy Hh) as (X1 & X2). split; [|exact X2]. rewrite nth_error_app1; [exact X1|]. apply nth_error_Some. congruence.
  - rewrite nth_error_app2 by lia. rewrite Lx, Nat.sub_diag. reflexivity.
  - cbn. rewrite It. lia.
  - exact EV.
  - exact UC.
  - exact V'.
Qed.
Lemma xn_order_ok (s : pop P) : valid_pop s -> fine (po_prob s) -> (forall f, In f (po_f s) -> obj f <> NaN) ->
  okp (xn_order srt s) (fun idx => Permutation idx (seq 0 (length (po_id s))) /\
    forall i j a b fa fb, i < j -> nth_error idx i = Some a -> nth_error idx j = Some b -> nth_error (po_f s) a = Some fa -> nth_error (po_f s) b = Some fb -> dlt (obj fb) (obj fa) = false).
Proof.
  intros V F NN. destruct (stored_lens s V) as (L1 & L2 & L3 & L4). destruct F as (_ & _ & NF). unfold xn_order.
  eapply okp_bind; [apply (okp_mmap _ (fun f v => v = obj f)); intros f Hf; apply okp_vget; [rewrite (L4 f Hf); lia|]; intros v Hv; unfold obj; symmetry; now apply nth_error_nth|]. intros fs Ffs.
  pose proof (F2_len _ _ _ Ffs) as Lf.
  assert (Hfs : forall i f, nth_error (po_f s) i = Some f -> nth i fs NaN = obj f).
  { intros i f Hf. assert (Hi : i < length fs) by (rewrite <- Lf; apply nth_error_Some; congruence). destruct (F2_nth _ _ _ Ffs i (nth i fs NaN)) as (f' & A & B); [now apply nth_some|]. congruence. }
  destruct (std_sort_ok srt (fun i j => dlt (nth i fs NaN) (nth j fs NaN)) (seq 0 (length (po_id s))) SC) as (idx & Ei & Pm & So).
  { apply (dlt_swo (fun i => nth i fs NaN)). intros i Hi. apply in_seq in Hi. destruct (nth_ex (po_f s) i) as (f & Hf); [lia|]. rewrite (Hfs i f Hf). apply NN. eapply nth_error_In. exact Hf. }
  exists idx. split; [exact Ei|]. split; [now apply Permutation_sym|]. intros i j x y fa fb Hij Ha Hb Hfa Hfb. rewrite <- (Hfs _ _ Hfa), <- (Hfs _ _ Hfb). exact (sorted_by_nth _ idx i j x y So Hij Ha Hb).
Qed.

Section Problem.
Context (p0 : problem) (EP : es_problem reseed None p0) (NN : never_nan reseed p0).
Lemma xn_generation_ok (s : ST) ks : seeds_for p0 ks -> po_prob (snd s) = fold_left reseed ks p0 -> valid_pop (snd s) -> 4 <= length (po_id (snd s)) -> xmem_sized (get_nx p0) (snd (fst s)) ->
  ends (xn_generation r srt K reseed a) s (fun (go : bool) t => xmem_sized (get_nx p0) (snd (fst t)) /\ es_step reseed p0 (forced (xn_force a) p0) (snd s) (snd t) /\
    if go then xlearns K (xn_force a) p0 (xn_rate_mu a) (xn_utilities K (length (po_id (snd s)))) (snd (fst s)) (snd t) (snd (fst t))
    else snd (fst t) = snd (fst s) /\ (flat_f srt (xn_ftol a) (snd t) \/ xshort_step K (xn_xtol a) (get_nx p0) (snd (fst t)))) (es_throws reseed p0).
Proof.
  intros SF PE V HN R. destruct (es_at reseed p0 None EP ks SF) as (F & QL & QU & QX & QS & _). rewrite <- PE in F, QL, QU, QX, QS. unfold xn_generation.
  apply ends_bind, ends_getp, ends_bind, ends_getm. set (k := snd (fst s)) in *. set (p := po_prob (snd s)) in *. set (lam := length (po_id (snd s))) in *. cbv zeta.
  apply ends_bind. eapply ends_weak with (E := fun _ => False) (Q := fun _ t => snd (fst t) = k /\ exists ks', seeds_for p0 ks' /\ length ks' = (if u_set_seed (p_udp p0) then 1 else 0) /\ snd t = reprob (snd s) (fold_left reseed ks' p)).
  { rewrite QS. destruct (u_set_seed (p_udp p0)) eqn:ES.
    - apply ends_bind. eapply ends_mdraws; [apply (draw_int_ok r RC 0 (2 ^ 32 - 1)); lia|]. intros sd g' _. cbv beta. unfold mset_problem, ends_w. cbn [fst snd]. split; [reflexivity|]. exists [sd]. split; [intros D; congruence|]. split; reflexivity.
    - apply ends_ret. split; [reflexivity|]. exists []. split; [intros _; reflexivity|]. split; [reflexivity|]. unfold reprob, p. cbn [fold_left snd]. destruct (snd s); reflexivity. }
  2:{ intros e []. }
  intros [] t (Kt & ks' & S1 & S2 & St). cbv beta.
  assert (SF' : seeds_for p0 (ks ++ ks')) by (apply seeds_for_app; [exact SF|exact S1]). set (q := fold_left reseed ks' p) in *.
  assert (Eq : q = fold_left reseed (ks ++ ks') p0) by (unfold q; rewrite fold_left_app, <- PE; reflexivity).
  destruct (es_at reseed p0 None EP (ks ++ ks') SF') as (F' & QL' & QU' & QX' & QS' & EV'). rewrite <- Eq in F', QL', QU', QX', QS', EV'.
  assert (Vt : valid_pop (snd t)) by (rewrite St; apply reprob_valid; [exact V|exact (proj1 F')|fold p; congruence|fold p; destruct F as (_ & _ & F3); destruct F' as (_ & _ & F3'); congruence]).
  assert (Pt : po_prob (snd t) = q) by (rewrite St; reflexivity). assert (It : po_id (snd t) = po_id (snd s)) by (rewrite St; reflexivity).
  apply ends_bind. unfold lam. rewrite <- It. eapply ends_weak; [apply (xn_loop q k t F' EV' Pt Vt Kt); rewrite QX'; exact R| |intros e He; exists (ks ++ ks'); split; [exact SF'|rewrite <- Eq; exact He]].
  rewrite It. fold lam. intros zs u (Ku & xs & Lx & (Vu & Pu & Iu & Xu) & Eu & Fz). cbv beta.
  assert (Lu : length (po_id (snd u)) = lam) by (rewrite Iu, It; reflexivity). destruct (stored_lens _ Vu) as (L1 & L2 & _). pose proof (F2_len _ _ _ Fz) as Lz.
  assert (XN : po_x (snd u) = xs).
  { apply vec_ext. intros i. destruct (Nat.lt_ge_cases i lam) as [Hi|Hi].
    - rewrite (nth_some (po_x (snd u)) i []) by lia. symmetry. refine (proj1 (Xu i _ (nth i (po_f (snd u)) []) _ _ _)); [lia|apply nth_some; lia|apply nth_some; lia].
    - rewrite (proj2 (nth_error_None (po_x (snd u)) i)) by lia. rewrite (proj2 (nth_error_None xs i)) by vlia. reflexivity. }
  assert (BX : forall z x, xind q k z x -> length z = get_nx p0 /\ forced (xn_force a) p0 x /\ exists pt, xpoint K (get_nx p0) k z pt /\ made_of (xn_force a) p0 pt x).
  { intros z x (pt & A1 & A2 & A3 & A4). rewrite QX' in A1. split; [exact (proj1 A1)|]. split; [unfold forced; rewrite <- QL', <- QU'; exact A4|]. exists pt. split; [exact A1|]. unfold made_of. rewrite <- QL', <- QU'. exact A2. }
  assert (STEP : es_step reseed p0 (forced (xn_force a) p0) (snd s) (snd u)).
  { split; [exact Vu|]. split; [congruence|]. split; [unfold evals in *; rewrite Eu, St; reflexivity|]. split; [exists ks'; split; [exact S1|]; split; [rewrite Pu; reflexivity|exact S2]|].
    intros i y f Hy Hf. assert (Hi : i < length (po_x (snd u))) by (apply nth_error_Some; congruence). destruct (Xu i y f ltac:(lia) Hy Hf) as (X1 & X2). rewrite Pu. split; [exact X2|].
    destruct (F2_nth _ _ _ Fz i y X1) as (z & _ & Hz). apply (BX z y Hz). }
  assert (ZL : forall i z, nth_error zs i = Some z -> length z = get_nx p0).
  { intros i z Hz. destruct (nth_ex xs i) as (x & Hx); [assert (i < length zs) by (apply nth_error_Some; congruence); vlia|]. destruct (F2_nth _ _ _ Fz i x Hx) as (z' & Hz' & HI). assert (z' = z) by congruence. subst z'. apply (BX z x HI). }
  rewrite QX. apply ends_bind. eapply ends_okp with (Q1 := fun z => length z = get_nx p0); [apply okp_vget; [vlia|intros z Hz; exact (ZL 0 z Hz)]|]. intros z0 Hz0. cbv beta.
  pose proof R as (R1 & R2). rewrite square_sq in R2. destruct (mvec_ok K (get_nx p0) (xe_A k) z0 R2 Hz0) as (st & E1 & _). apply ends_bind. eapply ends_lift_ok; [exact E1|].
  destruct (dlt (vnorm K st) (xn_xtol a)) eqn:EX.
  { apply ends_ret. rewrite Ku. split; [exact R|]. split; [exact STEP|]. split; [reflexivity|]. right. exists z0, st. split; [exact Hz0|]. split; [exact E1|exact EX]. }
  apply ends_bind, ends_getp. apply ends_bind. eapply ends_okp; [apply (spread_ok srt (snd u) Vu); [rewrite Pu; exact F'|lia]|]. intros d Hd. cbv beta. destruct (dlt d (xn_ftol a)) eqn:EF.
  { apply ends_ret. rewrite Ku. split; [exact R|]. split; [exact STEP|]. split; [reflexivity|]. left. apply Hd. exact EF. }
  apply ends_bind. eapply ends_okp; [apply (xn_order_ok (snd u) Vu); [rewrite Pu; exact F'|]|].
  { intros f Hf. apply In_nth_error in Hf. destruct Hf as (i & Hi). assert (Hil : i < length (po_f (snd u))) by (apply nth_error_Some; congruence). destruct (nth_ex (po_x (snd u)) i) as (x & Hx); [lia|].
    destruct (Xu i x f ltac:(lia) Hx Hi) as (_ & X2). rewrite Eq in X2. exact (NN (ks ++ ks') SF' x f X2). }
  intros idx (Pm & So). cbv beta. pose proof (Permutation_length Pm) as Lp. rewrite seq_length in Lp.
  apply ends_bind. eapply ends_okp with (Q1 := fun vs => vs = map (fun i => nth i zs []) idx).
  { eapply okp_weak; [apply (okp_mmap _ (fun i v => v = nth i zs []))|].
    - intros i Hi. apply (Permutation_in _ Pm) in Hi. apply in_seq in Hi. apply okp_vget; [vlia|]. intros v Hv. symmetry. now apply nth_error_nth.
    - intros vs Fv. clear - Fv. induction Fv; [reflexivity|]. cbn [map]. now f_equal. }
  intros vs Evs. cbv beta.
  apply ends_bind. eapply ends_okp; [apply (xn_adapt_ok K KC a (get_nx p0) lam k vs R); [lia|rewrite Evs, map_length; lia|]|].
  { intros v Hv. rewrite Evs in Hv. apply in_map_iff in Hv. destruct Hv as (i & <- & Hi). apply (Permutation_in _ Pm) in Hi. apply in_seq in Hi. apply (ZL i). apply nth_some. vlia. }
  intros k' (Rk' & d' & st' & D1 & D2 & D3). cbv beta. apply ends_bind, ends_setm, ends_ret. cbn [fst snd]. split; [exact Rk'|]. split; [exact STEP|].
  exists zs, idx, d', st'. split; [|split; [exact Pm|split; [exact So|split; [rewrite <- Evs; exact D1|split; [exact D2|exact D3]]]]].
  split; [vlia|]. intros i z x Hz Hx. rewrite XN in Hx. destruct (F2_nth _ _ _ Fz i x Hx) as (z' & Hz' & HI). assert (z' = z) by congruence. subst z'. apply (BX z x HI).
Qed.
Lemma xn_gens_ok (s0 : pop P) : po_prob s0 = p0 -> 4 <= length (po_id s0) -> forall g n (s : ST),
  es_run reseed (forced (xn_force a) p0) n s0 (snd s) -> xmem_sized (get_nx p0) (snd (fst s)) ->
  ends (xn_gens r srt K reseed a g) s (fun _ t => xmem_sized (get_nx p0) (snd (fst t)) /\
    exists m, m <= g /\ (0 < g -> 0 < m) /\ es_run reseed (forced (xn_force a) p0) (n + m) s0 (snd t) /\ (m < g -> flat_f srt (xn_ftol a) (snd t) \/ xshort_step K (xn_xtol a) (get_nx p0) (snd (fst t)))) (es_throws reseed p0).
Proof.
  intros E0 HN. induction g as [|g IH]; intros n s ER R; cbn [xn_gens].
  - apply ends_ret. split; [exact R|]. exists 0. split; [lia|]. split; [lia|]. split; [rewrite Nat.add_0_r; exact ER|intros; lia].
  - pose proof ER as (A1 & A2 & _ & _ & (ks & A5 & A6) & _). rewrite E0 in A5, A6.
    assert (SF : seeds_for p0 ks) by (intros H; rewrite H in A6; destruct ks; [reflexivity|discriminate]).
    apply ends_bind. eapply ends_weak; [apply (xn_generation_ok s ks SF A5 A1)| |intros e He; exact He]; [rewrite A2; exact HN|exact R|].
    intros go t (Rt & Ht & Hg). assert (ER' : es_run reseed (forced (xn_force a) p0) (n + 1) s0 (snd t)) by (eapply es_run_step; [exact E0|exact ER|exact Ht]). destruct go; cbv beta.
    + eapply ends_weak; [apply (IH (n + 1) t); [exact ER'|exact Rt]| |intros e He; exact He].
      intros [] u (Ru & m & M1 & _ & M2 & M3). split; [exact Ru|]. exists (S m). split; [lia|]. split; [lia|]. split; [replace (n + S m) with (n + 1 + m) by lia; exact M2|]. intros H. apply M3. lia.
    + destruct Hg as (_ & Hs). apply ends_ret. split; [exact Rt|]. exists 1. split; [lia|]. split; [lia|]. split; [exact ER'|]. intros _. exact Hs.
Qed.
End Problem.

Lemma xnes_evolve_ok (s : ST) : xnes_ready (snd (fst s)) -> es_suits 4 (snd s) -> es_problem reseed None (po_prob (snd s)) -> never_nan reseed (po_prob (snd s)) -> 0 < xn_gen a ->
  ends (xnes_evolve r srt K reseed a) s (fun _ t => xnes_ready (snd (fst t)) /\
    exists n, 0 < n <= xn_gen a /\ es_run reseed (forced (xn_force a) (po_prob (snd s))) n (snd s) (snd t) /\
      (n < xn_gen a -> flat_f srt (xn_ftol a) (snd t) \/ xshort_step K (xn_xtol a) (get_nx (po_prob (snd s))) (snd (fst t)))) (es_throws reseed (po_prob (snd s))).
Proof.
  intros RK (V & NC & NF & HN & FB) EP NNN HG. unfold xnes_evolve. apply ends_bind, ends_getp. rewrite NC, NF. cbn [Nat.eqb negb].
  destruct (Nat.ltb_spec (length (po_id (snd s))) 4) as [Hlt|_]; [lia|].
  rewrite (proj2 (forallb_forall isfinite (p_lb (po_prob (snd s)))) (fun b Hb => FB b (or_introl Hb))), (proj2 (forallb_forall isfinite (p_ub (po_prob (snd s)))) (fun b Hb => FB b (or_intror Hb))). cbn [negb].
  destruct (Nat.eqb_spec (xn_gen a) 0) as [Hz|_]; [lia|]. apply ends_bind, ends_getm, ends_bind.
  eapply ends_okp; [apply (xn_start_ok srt a (snd (fst s)) (snd s) RK V); [split; [exact (proj1 V)|auto]|lia]|]. intros k Hk. cbv beta. apply ends_bind, ends_setm.
  eapply ends_weak; [apply (xn_gens_ok (po_prob (snd s)) EP NNN (snd s) eq_refl HN (xn_gen a) 0); [apply es_run_0; exact V|exact Hk]| |intros e He; exact He].
  intros [] t (Rt & m & M0 & M1 & M2 & M3). split; [eexists; exact Rt|]. exists m. split; [lia|]. auto.
Qed.
Lemma xnes_rejects (s : ST) : get_nc (po_prob (snd s)) <> 0 \/ get_nf (po_prob (snd s)) <> 1 \/ length (po_id (snd s)) < 4 \/ (exists b, (In b (p_lb (po_prob (snd s))) \/ In b (p_ub (po_prob (snd s)))) /\ isfinite b = false) ->
  xnes_evolve r srt K reseed a s = (Throw InvalidArgument, s).
Proof.
  intros H. unfold xnes_evolve, rbind, getp. cbn [fst snd].
  destruct (Nat.eqb_spec (get_nc (po_prob (snd s))) 0) as [E1|E1]; cbn [negb]; [|reflexivity].
  destruct (Nat.eqb_spec (get_nf (po_prob (snd s))) 1) as [E2|E2]; cbn [negb]; [|reflexivity].
  destruct (Nat.ltb_spec (length (po_id (snd s))) 4) as [E3|E3]; [reflexivity|].
  destruct (forallb isfinite (p_lb (po_prob (snd s)))) eqn:E4; cbn [negb]; [|reflexivity]. destruct (forallb isfinite (p_ub (po_prob (snd s)))) eqn:E5; cbn [negb]; [|reflexivity].
  exfalso. rewrite forallb_forall in E4, E5. destruct H as [H|[H|[H|(b & [Hb|Hb] & Hf)]]]; try lia; [rewrite (E4 b Hb) in Hf|rewrite (E5 b Hb) in Hf]; discriminate.
Qed.
Lemma xnes_zero (s : ST) : es_suits 4 (snd s) -> xn_gen a = 0 -> xnes_evolve r srt K reseed a s = (Ok tt, s).
Proof.
  intros (V & NC & NF & HN & FB) HG. unfold xnes_evolve, rbind, getp. cbn [fst snd]. rewrite NC, NF. cbn [Nat.eqb negb].
  destruct (Nat.ltb_spec (length (po_id (snd s))) 4) as [Hlt|_]; [lia|].
  rewrite (proj2 (forallb_forall isfinite (p_lb (po_prob (snd s)))) (fun b Hb => FB b (or_introl Hb))), (proj2 (forallb_forall isfinite (p_ub (po_prob (snd s)))) (fun b Hb => FB b (or_intror Hb))). cbn [negb].
  rewrite HG. reflexivity.
Qed.
(** Without memory, or for a problem of another dimension, what was kept does not matter *)
Lemma xnes_forgets g (k k0 : xmem) (s : pop P) : es_suits 4 s -> 0 < xn_gen a -> xn_memory a = false \/ (length (xe_mean k) <> get_nx (po_prob s) /\ length (xe_mean k0) <> get_nx (po_prob s)) ->
  xnes_evolve r srt K reseed a ((g, k), s) = xnes_evolve r srt K reseed a ((g, k0), s).
Proof.
  intros (V & NC & NF & HN & FB) HG HM.
  assert (S1 : forall k, xn_memory a = false \/ length (xe_mean k) <> get_nx (po_prob s) -> xn_start srt a k s = xn_reset srt a s).
  { intros k1 H. unfold xn_start. destruct (Nat.eqb_spec (length (xe_mean k1)) (get_nx (po_prob s))) as [E|E]; [|reflexivity]. cbn [negb orb]. destruct H as [H|H]; [|contradiction]. now rewrite H. }
  unfold xnes_evolve, rbind, getp, getm, rlift. cbn [fst snd]. rewrite NC, NF. cbn [Nat.eqb negb].
  destruct (Nat.ltb_spec (length (po_id s)) 4) as [Hlt|_]; [lia|].
  rewrite (proj2 (forallb_forall isfinite (p_lb (po_prob s))) (fun b Hb => FB b (or_introl Hb))), (proj2 (forallb_forall isfinite (p_ub (po_prob s))) (fun b Hb => FB b (or_intror Hb))). cbn [negb].
  destruct (Nat.eqb_spec (xn_gen a) 0) as [Hz|_]; [lia|]. cbv beta iota zeta. cbn [fst snd]. rewrite !S1 by tauto. destruct (xn_reset srt a s) eqn:ER; try reflexivity; exfalso.
  all: pose proof (xn_reset_ok srt a s V (conj (proj1 V) (conj NC NF)) ltac:(lia)) as OK; rewrite ER in OK; destruct OK as (? & D & _); discriminate D.
Qed.
End S.
