From Coq Require Import List Bool Arith ZArith Lia Permutation.
From Verif Require Import Dbl DblFacts IntDbl Outcome StdSort BaseFacts Compare CompareFacts Problem SpecProblem ProblemFacts2 Rng SpecGeneric SpecGenetic Generic GeneticOps GeneticFacts RmFacts Population SpecPopulation PopulationFacts PopulationFacts3
  Algo SpecAlgo SpecNsga2 AlgNsga2 AlgoFacts AlgoFacts2 AlgGaco AlgGacoFacts AlgGacoFacts2 AlgGacoFacts4 AlgEigen AlgEigenFacts AlgMem AlgMemFacts AlgCmaes SpecCmaes.
Import ListNotations.

Lemma square_sq n M : square n M <-> sq n M = true.
Proof. symmetry. apply sq_iff. Qed.
Lemma cmaes_ctor_iff a : (exists k, cmaes_ctor a = Ok k) <-> rate_or_auto (cm_cc a) /\ rate_or_auto (cm_cs a) /\ rate_or_auto (cm_c1 a) /\ rate_or_auto (cm_cmu a).
Proof.
  assert (B : forall c, bad_rate c = false <-> rate_or_auto c).
  { intros c. unfold bad_rate, rate_or_auto, minus_one. remember (d_of_Z (-1)) as m eqn:Em.
    assert (Hm : exists z, m = Fin z) by (rewrite Em; assert (T : isfinite (d_of_Z (-1)) = true) by (vm_compute; reflexivity); destruct (d_of_Z (-1)); try discriminate T; eauto).
    destruct Hm as (z & ->). clear Em. assert (P1 : (0 < one_z)%Z) by exact one_z_pos. unfold dgt, dle, done, dzero. set (o := one_z) in *. clearbody o.
    destruct c as [| |y|]; cbn [dlt deq].
    - split; auto.
    - split; [discriminate|]. intros [H|[[H _]|H]]; discriminate H.
    - rewrite andb_false_iff, orb_false_iff, !orb_true_iff, negb_false_iff, !Z.ltb_ge, !Z.ltb_lt, !Z.eqb_eq. split; [intros [[H1 H2]|H]|intros [H|[[H1 H2]|H]]].
      + right. left. lia.
      + right. right. f_equal. exact H.
      + discriminate H.
      + left. lia.
      + right. injection H as ->. reflexivity.
    - split; [discriminate|]. intros [H|[[_ H]|H]]; discriminate H. }
  rewrite <- !B. unfold cmaes_ctor. destruct (bad_rate (cm_cc a)), (bad_rate (cm_cs a)), (bad_rate (cm_c1 a)), (bad_rate (cm_cmu a)); split; try (intros [k H]; discriminate H); try (intros (H1 & H2 & H3 & H4); discriminate); eauto.
Qed.
Lemma cmaes_ctor_ready a k : cmaes_ctor a = Ok k -> cmaes_ready k.
Proof.
  unfold cmaes_ctor. repeat (destruct (bad_rate _); [discriminate|]). intros H. injection H as <-. exists 1. unfold cmem_sized. cbn [ce_newpop ce_mean ce_B ce_D ce_C ce_inv ce_pc ce_ps]. rewrite !square_sq.
  split; [intros v []|]. rewrite ident_sq, zeros_len. auto 10.
Qed.

Lemma vec_ext {A} (l : list A) : forall l', (forall i, nth_error l i = nth_error l' i) -> l = l'.
Proof.
  induction l as [|x l IH]; intros [|y l'] H; [reflexivity|specialize (H 0); discriminate H|specialize (H 0); discriminate H|].
  f_equal; [specialize (H 0); now injection H|]. apply IH. intros i. exact (H (S i)).
Qed.
Lemma copy_ok n x : length x = n -> okp (copy n x) (fun v => v = x).
Proof.
  intros H. unfold copy. eapply okp_weak; [apply (okp_mmap _ (fun j v => nth_error x j = Some v))|].
  - intros j Hj. apply in_seq in Hj. apply okp_vget; [lia|auto].
  - intros v F. pose proof (F2_len _ _ _ F) as L. rewrite seq_length in L. apply vec_ext. intros i. destruct (nth_error v i) as [b|] eqn:E.
    + destruct (F2_seq _ _ _ F i b E) as [_ H2]. now rewrite H2.
    + symmetry. apply nth_error_None. apply nth_error_None in E. lia.
Qed.

Ltac vlia := unfold mat, vec in *; lia.

Section S.
Context {G P : Type} (r : rng G) (RC : rng_contract r) (srt : sorter) (SC : sort_contract srt) (K : eigen) (KC : eigen_contract K) (reseed : problem -> Z -> problem) (a : cmaes_params).
Notation ST := ((G * cmem) * pop P)%type.

(** a suitable population: what the proofs use of it *)
Definition fine (p : problem) : Prop := prob_obj p /\ get_nc p = 0 /\ get_nf p = 1.
Lemma fine_nobj p : fine p -> p_nobj p = 1.
Proof. intros (PO & NC & NF). destruct (prob_obj_facts p PO) as (_ & H & _). unfold get_nf, get_nc in *. lia. Qed.
Lemma stored_lens (s : pop P) : valid_pop s -> length (po_x s) = length (po_id s) /\ length (po_f s) = length (po_id s) /\ (forall x, In x (po_x s) -> length x = get_nx (po_prob s)) /\ (forall f, In f (po_f s) -> length f = get_nf (po_prob s)).
Proof. intros (_ & (L1 & L2 & H1 & H2 & _) & _). repeat split; auto; congruence. Qed.

Lemma cm_reset_ok (s : pop P) : valid_pop s -> fine (po_prob s) -> 0 < length (po_id s) -> okp (cm_reset srt K a s) (fun k => cmem_sized (get_nx (po_prob s)) k /\ length (ce_newpop k) = length (po_id s) /\ ce_sigma k = cm_sigma0 a).
Proof.
  intros V F HN. destruct (stored_lens s V) as (L1 & L2 & L3 & L4). pose proof V as (PO & St & _). destruct (prob_obj_lens _ PO) as [LB UB].
  destruct (best_idx_lt srt s (fine_nobj _ F) (proj1 (proj2 F)) St) as (b & Eb & Hb); [destruct (po_id s); [cbn in HN; lia|discriminate]|].
  unfold cm_reset. rewrite Eb. cbn [bind]. eapply okp_bind with (Q1 := fun x => length x = get_nx (po_prob s)); [apply okp_vget; [lia|]; intros x Hx; apply L3; eapply nth_error_In; exact Hx|].
  intros x Hx. eapply okp_bind; [apply copy_ok; exact Hx|]. intros m ->.
  eapply okp_bind; [apply (okp_mmap _ (fun _ _ => True))|].
  { intros j Hj. apply in_seq in Hj. eapply okp_bind with (Q1 := fun _ => True); [apply okp_vget; [lia|auto]|]. intros l _. eapply okp_bind with (Q1 := fun _ => True); [apply okp_vget; [lia|auto]|]. intros u _. now apply okp_ret. }
  intros w Fw. apply F2_len in Fw. rewrite seq_length in Fw. symmetry in Fw.
  eapply okp_bind; [apply mmul_ok; apply diag_sq_n; exact Fw|]. intros C HC. apply okp_ret. split; [|split; [cbn; apply repeat_length|reflexivity]].
  unfold cmem_sized. cbn [ce_newpop ce_mean ce_B ce_D ce_C ce_inv ce_pc ce_ps]. rewrite !square_sq.
  split; [intros v Hv; apply repeat_spec in Hv; subst v; apply zeros_len|]. split; [exact Hx|]. split; [apply ident_sq|]. split; [apply diag_sq_n; exact Fw|]. split; [exact HC|].
  split; [apply diag_sq_n; rewrite map_length; exact Fw|]. split; apply zeros_len.
Qed.
Lemma cm_start_ok k (s : pop P) : cmaes_ready k -> valid_pop s -> fine (po_prob s) -> 0 < length (po_id s) -> okp (cm_start srt K a k s) (fun k => cmem_sized (get_nx (po_prob s)) k).
Proof.
  intros (n & R) V F HN. unfold cm_start. destruct (Nat.eqb_spec (length (ce_newpop k)) (length (po_id s))) as [E|E]; cbn [negb].
  - eapply okp_bind with (Q1 := fun v => length v = n); [apply okp_vget; [unfold vec in *; lia|]; intros v Hv; apply (proj1 R); eapply nth_error_In; exact Hv|]. intros v Hv.
    destruct (Nat.eqb_spec (length v) (get_nx (po_prob s))) as [E2|E2]; cbn [negb orb].
    + destruct (cm_memory a); cbn [negb]; [|eapply okp_weak; [now apply cm_reset_ok|]; intros k' H; apply H]. apply okp_ret. replace (get_nx (po_prob s)) with n by lia. exact R.
    + eapply okp_weak; [now apply cm_reset_ok|]. intros k' H; apply H.
  - eapply okp_weak; [now apply cm_reset_ok|]. intros k' H; apply H.
Qed.

(** a sample: its size; the step it comes from *)
Definition sampled (dim : nat) (k : cmem) (q : vec * vec) : Prop :=
  length (fst q) = dim /\ exists z bd, length z = dim /\ mmul K dim (mscale (ce_sigma k) (ce_B k)) (ce_D k) = Ok bd /\ mvec K dim bd z = Ok (snd q) /\ vplus dim (ce_mean k) (snd q) = Ok (fst q).
Lemma cm_sample_ok dim k : cmem_sized dim k -> always (cm_sample r K dim k) (sampled dim k) never.
Proof.
  intros (_ & R1 & R2 & R3 & _). rewrite square_sq in R2, R3. unfold cm_sample. eapply always_bind with (P := fun z => length z = dim).
  { eapply always_weak; [apply (always_map _ (fun _ _ => True) never)| |intros e He; exact He].
    - intros x _ g. unfold rdraw. now destruct (g_norm r dzero done g).
    - intros l Hl. pose proof (F2_len _ _ _ Hl) as L. rewrite seq_length in L. lia. }
  intros z Hz. destruct (mmul_ok K dim _ _ (mscale_sq dim (ce_sigma k) _ R2) R3) as (bd & E1 & Hbd). rewrite E1.
  eapply always_bind with (P := fun b => b = bd); [now apply always_lift|]. intros b ->.
  destruct (mvec_ok K dim bd z Hbd Hz) as (st & E2 & Hst). rewrite E2. eapply always_bind with (P := fun b => b = st); [now apply always_lift|]. intros b ->.
  destruct (vplus_ok dim _ _ R1 Hst) as (x & E3 & Hx). rewrite E3. eapply always_bind with (P := fun b => b = x); [now apply always_lift|]. intros b ->.
  apply always_ret. split; [exact Hx|]. exists z, bd. auto.
Qed.

Lemma spread_ok (s : pop P) : valid_pop s -> fine (po_prob s) -> 0 < length (po_id s) ->
  okp (spread srt s) (fun d => forall t, dlt d t = true -> flat_f srt t s).
Proof.
  intros V F HN. destruct (stored_lens s V) as (L1 & L2 & L3 & L4). pose proof V as (PO & St & _). assert (NE : po_id s <> []) by (destruct (po_id s); [cbn in HN; lia|discriminate]).
  destruct (best_idx_lt srt s (fine_nobj _ F) (proj1 (proj2 F)) St NE) as (b & Eb & Hb). destruct (worst_idx_lt srt s (fine_nobj _ F) (proj1 (proj2 F)) St NE) as (w & Ew & Hw).
  unfold spread. rewrite Eb. cbn [bind]. rewrite Ew. cbn [bind].
  eapply okp_bind with (Q1 := fun f => nth_error (po_f s) b = Some f); [apply okp_vget; [lia|auto]|]. intros fb Hfb. eapply okp_bind with (Q1 := fun f => nth_error (po_f s) w = Some f); [apply okp_vget; [lia|auto]|]. intros fw Hfw.
  pose proof (L4 _ (nth_error_In _ _ Hfb)) as Lb. pose proof (L4 _ (nth_error_In _ _ Hfw)) as Lw. destruct F as (_ & _ & NF). rewrite NF in Lb, Lw.
  eapply okp_bind with (Q1 := fun v => v = obj fb); [apply okp_vget; [lia|]; intros v Hv; unfold obj; symmetry; now apply nth_error_nth|]. intros v ->.
  eapply okp_bind with (Q1 := fun v => v = obj fw); [apply okp_vget; [lia|]; intros v Hv; unfold obj; symmetry; now apply nth_error_nth|]. intros v ->.
  apply okp_ret. intros t Ht. exists b, w, fb, fw. auto.
Qed.

Lemma clamp_in l u x : dle l u = true -> clamp l u x = NaN \/ (dle l (clamp l u x) = true /\ dle (clamp l u x) u = true).
Proof.
  intros H. unfold clamp. destruct (dle_not_nan _ _ H) as [Nl Nu]. destruct (dlt x l) eqn:E1; [right; split; [now apply dle_refl|exact H]|].
  unfold dgt. destruct (dlt u x) eqn:E2; [right; split; [exact H|now apply dle_refl]|].
  destruct x as [| |z|]; [left; reflexivity|right|right|right]; destruct l, u; cbn in *; try discriminate; try contradiction; auto; unfold dle in *; cbn in *;
   rewrite ?orb_true_iff, ?Z.ltb_lt, ?Z.ltb_ge, ?Z.eqb_eq in *; split; try lia; auto.
Qed.
Lemma force_one_ok p x : prob_obj p -> length x = get_nx p -> okp (force_one p x) (fun y => length y = get_nx p /\ in_box_or_nan (p_lb p) (p_ub p) y).
Proof.
  intros PO L. destruct (prob_obj_lens p PO) as [LB UB]. pose proof (prob_obj_bounds p PO) as BD. unfold force_one.
  eapply okp_weak; [apply (okp_mmap _ (fun j y => exists l u v, nth_error (p_lb p) j = Some l /\ nth_error (p_ub p) j = Some u /\ y = clamp l u v))|].
  - intros j Hj. apply in_seq in Hj. eapply okp_bind with (Q1 := fun _ => True); [apply okp_vget; [lia|auto]|]. intros v _.
    eapply okp_bind with (Q1 := fun l => nth_error (p_lb p) j = Some l); [apply okp_vget; [lia|auto]|]. intros l Hl.
    eapply okp_bind with (Q1 := fun l => nth_error (p_ub p) j = Some l); [apply okp_vget; [lia|auto]|]. intros u Hu. apply okp_ret. eauto 8.
  - intros y Fy. pose proof (F2_len _ _ _ Fy) as Ly. rewrite seq_length in Ly. split; [lia|]. 
    split; [lia|]. split; [lia|]. intros i l u v Hl Hu Hv. destruct (F2_seq _ _ _ Fy i v Hv) as (_ & l' & u' & w & Hl' & Hu' & ->).
    assert (l' = l) by congruence. assert (u' = u) by congruence. subst l' u'. exact (clamp_in l u w (prob_obj_ord p PO i l u Hl Hu)).
Qed.

Lemma force_all_ok p l : prob_obj p -> (forall x, In x l -> length x = get_nx p) -> okp (mmap (force_one p) l) (fun l' => length l' = length l /\ forall y, In y l' -> length y = get_nx p /\ in_box_or_nan (p_lb p) (p_ub p) y).
Proof.
  intros PO L. eapply okp_weak; [apply (okp_mmap _ (fun _ y => length y = get_nx p /\ in_box_or_nan (p_lb p) (p_ub p) y)); intros x Hx; apply force_one_ok; auto|].
  intros l' F. split; [symmetry; exact (F2_len _ _ _ F)|]. intros y Hy. apply In_nth_error in Hy. destruct Hy as (i & Hi). destruct (F2_nth _ _ _ F i y Hi) as (x & _ & H). exact H.
Qed.

(** the elite *)
Lemma cm_elite_ok (s : pop P) mu : valid_pop s -> fine (po_prob s) -> mu <= length (po_id s) -> okp (cm_elite srt (get_nx (po_prob s)) mu s) (fun e => length e = mu /\ forall v, In v e -> length v = get_nx (po_prob s)).
Proof.
  intros V F Hmu. destruct (stored_lens s V) as (L1 & L2 & L3 & L4). destruct F as (_ & _ & NF). unfold cm_elite.
  eapply okp_bind; [apply (okp_mmap _ (fun _ _ => True)); intros f Hf; apply okp_vget; [rewrite (L4 f Hf); vlia|auto]|]. intros fs _.
  destruct (std_sort_ok srt (fun i j => less_than_f (nth i fs NaN) (nth j fs NaN)) (seq 0 (length (po_id s))) SC) as (idx & Ei & Pm & _); [apply (ltf_key_swo (fun i => nth i fs NaN))|].
  rewrite Ei. cbn [bind]. pose proof (Permutation_length Pm) as Lp. rewrite seq_length in Lp.
  eapply okp_weak; [apply (okp_mmap _ (fun _ v => length v = get_nx (po_prob s)))|].
  - intros i Hi. apply in_seq in Hi. eapply okp_bind with (Q1 := fun b => b < length (po_id s)).
    { apply okp_vget; [vlia|]. intros b Hb. apply nth_error_In in Hb. apply (Permutation_in _ (Permutation_sym Pm)) in Hb. apply in_seq in Hb. vlia. }
    intros b Hb. eapply okp_bind with (Q1 := fun x => length x = get_nx (po_prob s)); [apply okp_vget; [vlia|]; intros x Hx; apply L3; eapply nth_error_In; exact Hx|].
    intros x Hx. eapply okp_weak; [apply copy_ok; exact Hx|]. intros v ->. exact Hx.
  - intros e Fe. pose proof (F2_len _ _ _ Fe) as Le. rewrite seq_length in Le. split; [vlia|]. intros v Hv. apply In_nth_error in Hv. destruct Hv as (i & Hi). destruct (F2_seq _ _ _ Fe i v Hi) as [_ H]. exact H.
Qed.
Lemma weighted_ok dim vs w : 0 < length vs -> length w = length vs -> (forall v, In v vs -> length v = dim) -> okp (weighted dim vs w) (fun m => length m = dim).
Proof.
  intros H0 Lw L. unfold weighted. eapply okp_bind with (Q1 := fun v => length v = dim); [apply okp_vget; [vlia|]; intros v Hv; apply L; eapply nth_error_In; exact Hv|]. intros v0 Hv0.
  eapply okp_bind with (Q1 := fun _ => True); [apply okp_vget; [vlia|auto]|]. intros w0 _.
  apply (okp_seq _ (fun _ m => length m = dim)); [now rewrite vtimes_len|]. intros i m Hi Hm.
  eapply okp_bind with (Q1 := fun v => length v = dim); [apply okp_vget; [vlia|]; intros v Hv; apply L; eapply nth_error_In; exact Hv|]. intros v Hv.
  eapply okp_bind with (Q1 := fun _ => True); [apply okp_vget; [vlia|auto]|]. intros wi _. apply vplus_ok; [exact Hm|now rewrite vtimes_len].
Qed.
Lemma weighted_outer_ok dim vs w : 0 < length vs -> length w = length vs -> (forall v, In v vs -> length v = dim) -> okp (weighted_outer dim vs w) (fun m => sq dim m = true).
Proof.
  intros H0 Lw L. unfold weighted_outer. eapply okp_bind with (Q1 := fun v => length v = dim); [apply okp_vget; [vlia|]; intros v Hv; apply L; eapply nth_error_In; exact Hv|]. intros v0 Hv0.
  eapply okp_bind with (Q1 := fun _ => True); [apply okp_vget; [vlia|auto]|]. intros w0 _.
  apply (okp_seq _ (fun _ m => sq dim m = true)); [apply mtimes_sq; now apply outer_sq|]. intros i m Hi Hm.
  eapply okp_bind with (Q1 := fun v => length v = dim); [apply okp_vget; [vlia|]; intros v Hv; apply L; eapply nth_error_In; exact Hv|]. intros v Hv.
  eapply okp_bind with (Q1 := fun _ => True); [apply okp_vget; [vlia|auto]|]. intros wi _. apply mplus_ok; [exact Hm|]. apply mtimes_sq. now apply outer_sq.
Qed.
Lemma cm_adapt_ok c dim lam k elite : cmem_sized dim k -> 0 < length elite -> length (ra_w c) = length elite -> (forall v, In v elite -> length v = dim) ->
  okp (cm_adapt K c dim lam k elite) (fun k' => cmem_sized dim k').
Proof.
  intros (R0 & R1 & R2 & R3 & R4 & R5 & R6 & R7) H0 Lw L. rewrite square_sq in R2, R3, R4, R5. unfold cm_adapt.
  eapply okp_bind; [apply weighted_ok; [exact H0|exact Lw|exact L]|]. intros mean Hm.
  eapply okp_bind; [apply vminus_ok; [exact Hm|exact R1]|]. intros dm Hdm.
  eapply okp_bind; [apply mvec_ok; [apply mscale_sq; exact R5|exact Hdm]|]. intros idm Hidm.
  eapply okp_bind; [apply vplus_ok; [rewrite vscale_len; exact R7|rewrite vover_len; exact Hidm]|]. intros ps Hps.
  eapply okp_bind; [apply vplus_ok; [rewrite vscale_len; exact R6|rewrite vover_len, vscale_len; exact Hdm]|]. intros pc Hpc.
  eapply okp_bind; [apply (okp_mmap _ (fun _ v => length v = dim)); intros v Hv; apply vminus_ok; [apply L; exact Hv|exact R1]|]. intros diffs Fd. pose proof (F2_len _ _ _ Fd) as Ld.
  eapply okp_bind; [apply weighted_outer_ok; [vlia|vlia|]; intros v Hv; apply In_nth_error in Hv; destruct Hv as (i & Hi); destruct (F2_nth _ _ _ Fd i v Hi) as (x & _ & H); exact H|]. intros rm Hrm.
  eapply okp_bind; [apply mplus_ok; apply mscale_sq; [exact R4|apply mover_sq; exact Hrm]|]. intros C1 HC1.
  eapply okp_bind; [apply mplus_ok; [apply outer_sq; exact Hpc|apply mscale_sq; exact R4]|]. intros R HR.
  eapply okp_bind; [apply mplus_ok; [exact HC1|apply mscale_sq; exact HR]|]. intros C HC.
  destruct (dgt _ _).
  - eapply okp_bind; [apply transpose_ok; exact HC|]. intros Ct HCt. eapply okp_bind; [apply mplus_ok; [exact HC|exact HCt]|]. intros C2 HC2.
    assert (HCs : sq dim (mover C2 (d_of_Z 2)) = true) by (apply mover_sq; exact HC2).
    destruct (e_eigh K (mover C2 (d_of_Z 2))) as [[V l]|] eqn:EE.
    + destruct (eigh_size K KC dim _ _ _ (proj2 (square_sq _ _) HCs) EE) as [HV Hl]. rewrite square_sq in HV.
      eapply okp_bind; [apply transpose_ok; exact HV|]. intros Vt HVt. eapply okp_bind; [apply mmul_ok; [exact HV|apply diag_sq_n; now rewrite !map_length]|]. intros B1 HB1.
      eapply okp_bind; [apply mmul_ok; [exact HB1|exact HVt]|]. intros inv Hinv. apply okp_ret. unfold cmem_sized. cbn [ce_newpop ce_mean ce_B ce_D ce_C ce_inv ce_pc ce_ps]. rewrite !square_sq.
      repeat (split; [assumption || (apply diag_sq_n; now rewrite map_length)|]). assumption.
    + apply okp_ret. unfold cmem_sized. cbn [ce_newpop ce_mean ce_B ce_D ce_C ce_inv ce_pc ce_ps]. rewrite !square_sq. repeat (split; [assumption|]). assumption.
  - apply okp_ret. unfold cmem_sized. cbn [ce_newpop ce_mean ce_B ce_D ce_C ce_inv ce_pc ce_ps]. rewrite !square_sq. repeat (split; [assumption|]). assumption.
Qed.
Lemma rates_len mu dim : length (ra_w (cm_rates K a mu dim)) = mu.
Proof. unfold cm_rates. cbn [ra_w]. unfold cm_weights. now rewrite vover_len, map_length, seq_length. Qed.
End S.
