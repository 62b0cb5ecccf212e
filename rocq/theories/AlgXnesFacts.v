From Coq Require Import List Bool Arith ZArith Lia Permutation.
From Verif Require Import Dbl DblFacts IntDbl Outcome StdSort BaseFacts Compare CompareFacts Problem SpecProblem ProblemFacts2 Rng SpecGeneric SpecGenetic Generic GeneticOps GeneticFacts RmFacts Population SpecPopulation PopulationFacts PopulationFacts3
  Algo SpecAlgo SpecNsga2 AlgNsga2 AlgoFacts AlgoFacts2 AlgGaco AlgGacoFacts AlgGacoFacts2 AlgGacoFacts3 AlgGacoFacts4 AlgEigen AlgEigenFacts AlgMem AlgMemFacts AlgCmaes SpecCmaes AlgCmaesFacts AlgCmaesFacts1 AlgCmaesFacts2 AlgXnes SpecXnes.
Import ListNotations.

Lemma xnes_ctor_iff a : (exists k, xnes_ctor a = Ok k) <-> eta_or_auto (xn_eta_mu a) /\ eta_or_auto (xn_eta_sigma a) /\ eta_or_auto (xn_eta_b a) /\ eta_or_auto (xn_sigma0 a).
Proof.
  assert (B : forall c, bad_eta c = false <-> eta_or_auto c).
  { intros c. unfold bad_eta, eta_or_auto, minus_one. remember (d_of_Z (-1)) as m eqn:Em.
    assert (Hm : exists z, m = Fin z) by (rewrite Em; assert (T : isfinite (d_of_Z (-1)) = true) by (vm_compute; reflexivity); destruct (d_of_Z (-1)); try discriminate T; eauto).
    destruct Hm as (w & Hw). clear Em. subst m. unfold dgt, dzero, done. pose proof one_z_pos as OP. remember one_z as o. clear Heqo.
    destruct c as [| |z|]; cbn.
    - split; [intros _; now left|reflexivity].
    - split; [discriminate|intros [D|[[D _]|D]]; discriminate].
    - unfold dle, deq; cbn. destruct (Z.leb_spec z 0), (Z.ltb_spec o z), (Z.eqb_spec z w), (Z.ltb_spec 0 z), (Z.leb_spec z o), (Z.ltb_spec z 0), (Z.eqb_spec z 0), (Z.ltb_spec z o), (Z.eqb_spec z o); cbn; try lia; subst; split; intros H'; try discriminate; try reflexivity; auto;
        try (destruct H' as [D|[[D D']|D]]; try discriminate; injection D; lia).
    - split; [discriminate|intros [D|[[_ D]|D]]; discriminate]. }
  unfold xnes_ctor. rewrite <- !B. destruct (bad_eta (xn_eta_mu a)), (bad_eta (xn_eta_sigma a)), (bad_eta (xn_eta_b a)), (bad_eta (xn_sigma0 a)); split; try (intros (k & E); discriminate); try (intros (A1 & A2 & A3 & A4); discriminate); eauto.
Qed.
Lemma xnes_ctor_ready a k : xnes_ctor a = Ok k -> xnes_ready k.
Proof. unfold xnes_ctor. repeat (destruct (bad_eta _); [discriminate|]). intros E. injection E as <-. exists 1. split; [reflexivity|]. apply square_sq, ident_sq. Qed.

Lemma utility_sum_ok dim u vs : 0 < length vs -> length u = length vs -> (forall v, In v vs -> length v = dim) -> okp (lsum dim u vs) (fun m => utility_sum u vs dim m).
Proof.
  intros H0 Lw L. unfold lsum. unfold vec in *. destruct vs as [|v0 vs]; [cbn in H0; lia|]. destruct u as [|u0 u]; [discriminate|]. cbn [length] in *. cbn [vget nth_error bind]. unfold vget at 1. cbn [nth_error bind].
  unfold utility_sum. cbn [hd tl]. replace (S (length vs) - 1) with (length vs) by lia. set (F := fun j (q : dbl * vec) => dmul (fst q) (nth j (snd q) NaN)).
  set (J := fun i (m : vec) => length m = dim /\ forall j, j < dim -> nth_error m j = Some (fold_left dadd (map (F j) (firstn (i - 1) (combine u vs))) (dmul u0 (nth j v0 NaN)))).
  assert (L0 : length v0 = dim) by (apply L; now left).
  eapply okp_weak; [apply (okp_seq _ J)|].
  - split; [now rewrite vscale_len|]. intros j Hj. cbn [Nat.sub firstn map fold_left]. unfold vscale. rewrite (map_nth_some _ v0 j (nth j v0 NaN)); [reflexivity|]. apply nth_some. vlia.
  - intros i m Hi (Hm & Hj). destruct i as [|i]; [lia|]. assert (Hi' : i < length vs) by vlia.
    unfold vget. cbn [nth_error]. rewrite (nth_some vs i [] Hi'). cbn [bind]. rewrite (nth_some u i NaN) by vlia. cbn [bind].
    assert (Lv : length (nth i vs []) = dim) by (apply L; right; now apply nth_In).
    destruct (vplus_ok dim m (vscale (nth i u NaN) (nth i vs [])) Hm) as (m' & E & Lm'); [now rewrite vscale_len|]. rewrite E. apply okp_ret. split; [exact Lm'|]. intros j Hjd.
    unfold vplus in E. destruct (vsz dim m && vsz dim _); [|discriminate]. injection E as <-.
    erewrite map2_nth; [|apply (Hj j Hjd)|unfold vscale; apply map_nth_some; apply (nth_some _ j NaN); vlia]. f_equal.
    replace (S (S i) - 1) with (S i) by lia. replace (S i - 1) with i by lia. try (replace (S i + 1 - 1) with (S i) by lia).
    rewrite (firstn_S (combine u vs) i (nth i u NaN, nth i vs [])); [|apply combine_nth_some; apply nth_some; vlia]. rewrite map_app, fold_left_app. reflexivity.
  - intros m (Hm & Hj). split; [exact Hm|]. intros j Hjd. rewrite (Hj j Hjd). do 3 f_equal. rewrite firstn_all2; [reflexivity|]. rewrite combine_length. vlia.
Qed.
Lemma spread_of_ok dim v : length v = dim -> okp (spread_of dim v) (fun m => sq dim m = true).
Proof. intros L. apply mminus_ok; [now apply outer_sq|apply ident_sq]. Qed.
Lemma lsum_outer_ok dim u vs : 0 < length vs -> length u = length vs -> (forall v, In v vs -> length v = dim) -> okp (lsum_outer dim u vs) (fun m => sq dim m = true).
Proof.
  intros H0 Lw L. unfold lsum_outer. eapply okp_bind with (Q1 := fun v => length v = dim); [apply okp_vget; [lia|]; intros v Hv; apply L; eapply nth_error_In; exact Hv|]. intros v0 Hv0.
  eapply okp_bind with (Q1 := fun _ => True); [apply okp_vget; [vlia|auto]|]. intros w0 _.
  eapply okp_bind; [apply spread_of_ok; exact Hv0|]. intros m0 Hm0.
  apply (okp_seq _ (fun _ m => sq dim m = true)); [apply mscale_sq; exact Hm0|]. intros i m Hi Hm.
  eapply okp_bind with (Q1 := fun v => length v = dim); [apply okp_vget; [vlia|]; intros v Hv; apply L; eapply nth_error_In; exact Hv|]. intros v Hv.
  eapply okp_bind with (Q1 := fun _ => True); [apply okp_vget; [vlia|auto]|]. intros wi _. eapply okp_bind; [apply spread_of_ok; exact Hv|]. intros mi Hmi. apply mplus_ok; [exact Hm|]. apply mscale_sq. exact Hmi.
Qed.
Section S.
Context {P : Type} (srt : sorter) (SC : sort_contract srt) (K : eigen) (KC : eigen_contract K) (a : xnes_params).
Lemma util_len lam : length (xn_utilities K lam) = lam.
Proof. unfold xn_utilities. cbv zeta. now rewrite !map_length, seq_length. Qed.
Lemma xn_adapt_ok dim lam k vs : xmem_sized dim k -> 0 < lam -> length vs = lam -> (forall v, In v vs -> length v = dim) ->
  okp (xn_adapt K a dim lam k vs) (fun k' => xmem_sized dim k' /\ exists d st, utility_sum (xn_utilities K lam) vs dim d /\ mvec K dim (mscale (xn_rate_mu a) (xe_A k)) d = Ok st /\ vplus dim (xe_mean k) st = Ok (xe_mean k')).
Proof.
  intros (R1 & R2) H0 Ll L. rewrite square_sq in R2. unfold xn_adapt. cbv zeta. pose proof (util_len lam) as UL.
  eapply okp_bind; [apply utility_sum_ok; [vlia|vlia|exact L]|]. intros d Hd. eapply okp_bind; [apply lsum_outer_ok; [vlia|vlia|exact L]|]. intros cov Hcov.
  eapply okp_bind; [apply diagonal_ok; exact Hcov|]. intros dg _.
  eapply okp_bind; [apply mminus_ok; [exact Hcov|apply mscale_sq, ident_sq]|]. intros cov' Hcov'.
  eapply okp_bind; [apply mplus_ok; [apply mscale_sq, ident_sq|apply mscale_sq; exact Hcov']|]. intros dA HdA.
  destruct (mvec_ok K dim (mscale (xn_rate_mu a) (xe_A k)) d) as (st & E1 & Hst); [apply mscale_sq; exact R2|exact (proj1 Hd)|]. rewrite E1. cbn [bind].
  destruct (vplus_ok dim (xe_mean k) st R1 Hst) as (mean & E2 & Hmean). rewrite E2. cbn [bind].
  assert (HX : sq dim (e_mexp K (mscale (ddiv (d_of_Z 1) (d_of_Z 2)) dA)) = true) by (apply square_sq, (mexp_size K KC), square_sq, mscale_sq; exact HdA).
  eapply okp_bind; [apply mmul_ok; [exact R2|exact HX]|]. intros A HA. apply okp_ret. cbn [xe_mean]. split; [split; [exact Hmean|apply square_sq; exact HA]|]. exists d, st. auto.
Qed.
Lemma xn_reset_ok (s : pop P) : valid_pop s -> fine (po_prob s) -> 0 < length (po_id s) -> okp (xn_reset srt a s) (fun k => xmem_sized (get_nx (po_prob s)) k).
Proof.
  intros V F HN. destruct (stored_lens s V) as (L1 & L2 & L3 & L4). pose proof V as (PO & St & _). destruct (prob_obj_lens _ PO) as [LB UB].
  destruct (best_idx_lt srt s (fine_nobj _ F) (proj1 (proj2 F)) St) as (b & Eb & Hb); [destruct (po_id s); [cbn in HN; lia|discriminate]|].
  unfold xn_reset. cbv zeta. eapply okp_bind; [apply (okp_mmap _ (fun _ _ => True))|].
  { intros j Hj. apply in_seq in Hj. eapply okp_bind with (Q1 := fun _ => True); [apply okp_vget; [lia|auto]|]. intros l _. eapply okp_bind with (Q1 := fun _ => True); [apply okp_vget; [lia|auto]|]. intros u _. now apply okp_ret. }
  intros w Fw. apply F2_len in Fw. rewrite seq_length in Fw. symmetry in Fw. rewrite Eb. cbn [bind].
  eapply okp_bind with (Q1 := fun x => length x = get_nx (po_prob s)); [apply okp_vget; [lia|]; intros x Hx; apply L3; eapply nth_error_In; exact Hx|].
  intros x Hx. eapply okp_bind; [apply copy_ok; exact Hx|]. intros m ->. apply okp_ret. split; [exact Hx|]. apply square_sq, diag_sq_n. exact Fw.
Qed.
Lemma xn_start_ok k (s : pop P) : xnes_ready k -> valid_pop s -> fine (po_prob s) -> 0 < length (po_id s) -> okp (xn_start srt a k s) (fun k => xmem_sized (get_nx (po_prob s)) k).
Proof.
  intros (n & R) V F HN. unfold xn_start. destruct (Nat.eqb_spec (length (xe_mean k)) (get_nx (po_prob s))) as [E|E]; cbn [negb orb]; [|now apply xn_reset_ok].
  destruct (xn_memory a); cbn [negb]; [|now apply xn_reset_ok]. apply okp_ret. destruct R as (R1 & R2). split; [exact E|]. rewrite <- E, R1. exact R2.
Qed.
(** plain < is a strict weak order where there is no NaN *)
Lemma dlt_swo {A} (key : A -> dbl) l : (forall x, In x l -> key x <> NaN) -> strict_weak_on (fun x y => dlt (key x) (key y)) l.
Proof.
  intros H. destruct (ltf_key_swo key l) as [I0 T0 N0].
  assert (E : forall x y, In x l -> In y l -> dlt (key x) (key y) = less_than_f (key x) (key y)).
  { intros x y Hx Hy. pose proof (H x Hx) as Nx. pose proof (H y Hy) as Ny. unfold less_than_f, less_than_f_gen. destruct (key x), (key y); try congruence; reflexivity. }
  split; [intros x Hx; rewrite E by assumption; auto|intros x y z Hx Hy Hz; rewrite !E by assumption; now apply T0|intros x y z Hx Hy Hz; rewrite !E by assumption; now apply N0].
Qed.
End S.
