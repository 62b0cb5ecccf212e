From Coq Require Import List Bool Arith ZArith Lia Permutation.
From Verif Require Import Dbl DblFacts IntDbl Outcome StdSort BaseFacts Compare CompareFacts Constrained SpecConstrained ConstrainedFacts Problem SpecProblem Rng SpecGeneric SpecGenetic SpecHarmony Generic GeneticOps GeneticFacts Population SpecPopulation PopulationFacts PopulationFacts3 SpecAlgo RmFacts
  Algo SpecSga AlgSga AlgDe AlgNsga2 SpecNsga2 AlgGaco SpecGaco AlgoFacts AlgoFacts2 AlgGacoFacts AlgGacoFacts2 AlgGacoFacts3 AlgGacoFacts4 AlgGacoFacts5 AlgGacoFacts6.
Import ListNotations.
Local Notation within := SpecGeneric.within.

Lemma ready_weak a p (P1 P2 : list dbl -> list dbl -> Prop) k : (forall x f, P1 x f -> P2 x f) -> gaco_ready a p P1 k -> gaco_ready a p P2 k.
Proof.
  intros H. unfold gaco_ready. destruct (ga_memory a); [|auto]. intros [A|[(A & B)|A]]; [now left| |right; now right]. right. left. split; [exact A|].
  intros row Hr. destruct (B row Hr) as (pn & x & f & E & L1 & L2 & Hx). exists pn, x, f. auto.
Qed.

Section V.
Context {G P : Type} (r : rng G) (RC : rng_contract r) (srt : sorter) (SC : sort_contract srt) (dexp : dbl -> dbl) (a : gaco_params) (AC : gaco_accepts a).
Context (bfe : option (problem -> list dbl -> outcome (list dbl))).
Notation ker := (ga_ker a).

Lemma gaco_loose (po : pop P) g k : 0 < ga_gen a -> colony a po -> evaluator_fine bfe (po_prob po) -> gaco_ready a (po_prob po) any_point k ->
  ends (gaco_evolve r srt dexp a bfe) ((g, k), po) (fun _ t => ant_call a (loose (po_prob po)) po (snd t) (snd (fst t)) /\ gaco_ready a (po_prob po) any_point (snd (fst t))) (fitness_throws (po_prob po)).
Proof.
  intros HG CO BF RD. pose proof CO as ((PO & _) & _). pose proof AC as (_ & _ & _ & KER & _). destruct (prob_obj_lens _ PO) as (L1 & L2).
  eapply ends_weak; [apply (evolve_gen r srt SC dexp a AC bfe po g k any_point (loose (po_prob po)) (fun _ => True)); auto| |auto].
  - intros gen k0 cum sg arch LC GA ESG _. destruct (sigmas_ok a KER (po_prob po) gen k0 arch _ PO (good_arch_shape _ _ _ _ _ GA)) as (sg' & ESG' & FS). assert (sg' = sg) by congruence. subst sg'. pose proof (F2_len _ _ _ FS) as LS. rewrite seq_length in LS.
    eapply always_weak; [apply (new_ant_ok r RC a KER (po_prob po) PO (fitness_throws (po_prob po)) (fun _ => True) (fun _ => True) (fun _ => True)) with (nf := get_nf (po_prob po)); auto; [|apply (good_arch_shape _ _ _ _ _ GA)]| |auto].
    + intros c s _ _ gg. unfold around, rbind, rdraw. destruct (g_norm r dzero done gg). exact I.
    + intros x (LX & WT & IB). split; [exact LX|]. split; [|exact WT]. split; [congruence|]. split; [congruence|]. intros i l u v A B C. destruct (IB i l u v A B C) as [H|(H & _)]; auto.
  - intros [] t (A & B & _). split; [exact A|]. eapply ready_weak; [|exact B]. intros; exact I.
Qed.
Lemma in_range_bounds x l u i v : in_box l u x -> nth_error x i = Some v -> exists a0 b0, nth_error l i = Some a0 /\ nth_error u i = Some b0 /\ within a0 b0 v.
Proof.
  intros (A & B & C) N. assert (Li : i < length x) by (apply nth_error_Some; congruence). destruct (nth_ex l i) as (a0 & Na); [lia|]. destruct (nth_ex u i) as (b0 & Nb); [lia|]. exists a0, b0. split; [exact Na|]. split; [exact Nb|]. eapply C; eauto.
Qed.
Lemma gaco_tame (po : pop P) g k : 0 < ga_gen a -> colony a po -> evaluator_fine bfe (po_prob po) -> gaco_ready a (po_prob po) (in_box_of (po_prob po)) k -> mark_fine a k -> (Z.of_nat (ga_ngm a) + 1 < 2 ^ 32)%Z ->
  finite_normals r -> (forall b, In b (p_lb (po_prob po)) \/ In b (p_ub (po_prob po)) -> below_2p1019 b) -> boxed po ->
  ends (gaco_evolve r srt dexp a bfe) ((g, k), po) (fun _ t => ant_call a (tame (po_prob po)) po (snd t) (snd (fst t)) /\ gaco_ready a (po_prob po) (in_box_of (po_prob po)) (snd (fst t)) /\ mark_fine a (snd (fst t)) /\ boxed (snd t)) (fitness_throws (po_prob po)).
Proof.
  intros HG CO BF RD MF NG NO HB BX. pose proof CO as ((PO & ST & _) & _). pose proof AC as (_ & FO & _ & KER & _). destruct (prob_obj_lens _ PO) as (L1 & L2).
  set (p := po_prob po) in *.
  assert (PAB : forall x f, ((evaluated p x f /\ tame p x) \/ exists j, nth_error (po_x po) j = Some x /\ nth_error (po_f po) j = Some f) \/ (ga_memory a = true /\ in_box_of p x f) -> in_box (p_lb p) (p_ub p) x).
  { intros x f [[(_ & H & _)|(j & H & _)]|(_ & H)]; [exact H|apply BX, (nth_error_In _ _ H)|exact H]. }
  eapply ends_weak; [apply (evolve_gen r srt SC dexp a AC bfe po g k (in_box_of p) (tame p) (fun m => mark_ok m /\ (m <= Z.max 1 (Z.of_nat (ga_ngm a)))%Z)); auto| |auto].
  - unfold mark_fine, mark_ok in *. lia.
  - intros k0 (A & B). apply next_mark_ok; assumption.
  - fold p. intros gen k0 cum sg arch LC GA ESG (MK & _). pose proof (good_arch_shape _ _ _ _ _ GA) as SH.
    destruct (sigmas_ok a KER p gen k0 arch _ PO SH) as (sg' & ESG' & FS). assert (sg' = sg) by congruence. subst sg'. pose proof (F2_len _ _ _ FS) as LS. rewrite seq_length in LS.
    assert (IA : in_arch p arch).
    { intros row h l u v Hr Hh Nl Nu Nv. destruct GA as (_ & GA). destruct (GA row Hr) as (pn & x & f & -> & LX & LF & HP). cbn [nth_error Nat.add] in Nv. rewrite nth_error_app1 in Nv by lia. destruct (PAB x f HP) as (_ & _ & H). eapply H; eauto. }
    eapply always_weak; [apply (new_ant_ok r RC a KER p PO (fitness_throws p) (fun v => isfinite v = true) (fun v => isfinite v = true) (fun v => v <> NaN)) with (nf := get_nf p); auto| |auto].
    + intros c s Hc Hs gg. unfold around, rbind, rdraw. pose proof (NO gg) as NN. destruct (g_norm r dzero done gg) as [z g2]. cbn [fst rret] in *. destruct c as [| |c|], s as [| |s|], z as [| |z|]; try discriminate.
      cbn [dmul]. apply dadd_fin_not_nan, rnd_not_nan.
    + intros row h v Hr Hh Nv. destruct (nth_ex (p_lb p) h) as (l & Nl); [lia|]. destruct (nth_ex (p_ub p) h) as (u & Nu); [lia|]. pose proof (IA row h l u v Hr Hh Nl Nu Nv) as W.
      destruct (bnd_in p HB l u v h Nl Nu W) as (z & -> & _). reflexivity.
    + intros s Hs. apply In_nth_error in Hs. destruct Hs as (i & Hi). destruct (F2_nth _ _ _ FS i s Hi) as (h & Nh & Es). apply nth_error_In, in_seq in Nh. eapply (sigma_fin a KER FO p PO HB gen k0 (get_nf p) arch h); eauto. lia.
    + intros x (LX & WT & IB).
      assert (IBX : in_box (p_lb p) (p_ub p) x). { split; [congruence|]. split; [congruence|]. intros i l u v A B C. destruct (IB i l u v A B C) as [H|(-> & H)]; [exact H|congruence]. }
      split; [exact LX|]. split; [exact IBX|]. intros i v Hi Nv. apply (WT i v Hi Nv). destruct (in_range_bounds _ _ _ _ _ IBX Nv) as (l & u & Nl & Nu & W). destruct (bnd_in p HB l u v i Nl Nu W) as (z & -> & _). reflexivity.
  - intros [] t (A & B & C). split; [exact A|]. split; [eapply ready_weak; [|exact B]; fold p; intros x f H; apply (PAB x f H)|]. split; [unfold mark_fine, mark_ok in *; lia|].
    destruct A as (n & _ & _ & (Vt & _ & EP & _ & _ & _ & H)). destruct Vt as (_ & (T1 & T2 & _) & _). intros x Hx. rewrite EP. fold p. apply In_nth_error in Hx. destruct Hx as (i & Hi).
    destruct (nth_ex (po_f (snd t)) i) as (f & Nf); [rewrite <- T2; apply nth_error_Some; congruence|]. destruct (H i x f Hi Nf) as [(_ & Q & _)|(_ & j & Q & _)]; [exact Q|]. apply BX, (nth_error_In _ _ Q).
Qed.

(** Calls that change nothing *)
Lemma gaco_still (po : pop P) g k : 0 < ga_gen a -> colony a po -> gaco_stopped a k ->
  gaco_evolve r srt dexp a bfe ((g, k), po) = (Ok tt, ((g, counted a k), po)) /\ gaco_stopped a (counted a k).
Proof.
  intros HG (V & HC & N1 & SS & LK) ST. pose proof AC as (_ & _ & _ & KER & _).
  assert (ST1 : gaco_stopped a (counted a k)) by (unfold counted; destruct (ga_memory a); exact ST). split; [|exact ST1]. apply stop_iff in ST1.
  unfold gaco_evolve, rbind, getk, setk, getp. cbn [fst snd]. change (if ga_memory a then set_counter k (u32 (an_counter k + 1)) else k) with (counted a k).
  destruct (Nat.eqb_spec (length (po_id po)) 0); [lia|]. rewrite SS. destruct (Nat.eqb_spec (ga_gen a) 0); [lia|]. destruct (Nat.ltb_spec (length (po_id po)) 2); [lia|]. destruct (Nat.ltb_spec (length (po_id po)) ker); [lia|]. rewrite N1. cbn [Nat.eqb negb].
  destruct (ga_gen a) as [|n']; [lia|]. cbn [gaco_gens]. unfold rbind, getk. cbn [fst snd]. rewrite ST1. reflexivity.
Qed.
Lemma gaco_declines (po : pop P) g k : let p := po_prob po in let NP := length (po_id po) in
  let res o := gaco_evolve r srt dexp a bfe ((g, k), po) = (o, ((g, counted a k), po)) in
  (NP = 0 -> res (Ok tt)) /\ (NP <> 0 -> u_set_seed (p_udp p) = true -> res (Throw InvalidArgument)) /\
  (NP <> 0 -> u_set_seed (p_udp p) = false -> ga_gen a = 0 -> res (Ok tt)) /\
  (NP <> 0 -> u_set_seed (p_udp p) = false -> ga_gen a <> 0 -> NP < 2 \/ NP < ker \/ p_nobj p <> 1 -> res (Throw InvalidArgument)).
Proof.
  intros p NP res. unfold res, gaco_evolve, rbind, getk, setk, getp. cbn [fst snd]. change (if ga_memory a then set_counter k (u32 (an_counter k + 1)) else k) with (counted a k). fold p. fold NP.
  destruct (Nat.eqb_spec NP 0); [split; [reflexivity|]; split; [congruence|]; split; congruence|]. split; [congruence|].
  destruct (u_set_seed (p_udp p)) eqn:SS; [split; [reflexivity|]; split; congruence|]. split; [congruence|].
  destruct (Nat.eqb_spec (ga_gen a) 0); [split; [reflexivity|congruence]|]. split; [congruence|]. intros _ _ _ H.
  destruct (Nat.ltb_spec NP 2); [reflexivity|]. destruct (Nat.ltb_spec NP ker); [reflexivity|]. destruct (Nat.eqb_spec (p_nobj p) 1); [exfalso; destruct H as [H|[H|H]]; [lia|lia|congruence]|reflexivity].
Qed.
(** With memory, an archive that was never filled is read *)
Lemma gaco_no_archive (po : pop P) g k : ga_memory a = true -> 0 < ga_gen a -> colony a po -> an_arch k = [] -> ~ first_call k -> ~ gaco_stopped a k ->
  fst (gaco_evolve r srt dexp a bfe ((g, k), po)) = UB.
Proof.
  intros EM HG (V & HC & N1 & SS & LK) AE NF NS. pose proof AC as (_ & _ & _ & KER & _). pose proof V as (PO & (L1 & L2 & Fx & Ff & _) & _).
  assert (SN : stop_now a (counted a k) = false). { destruct (stop_now a (counted a k)) eqn:E; [|reflexivity]. exfalso. apply NS. apply stop_iff in E. unfold counted in E. destruct (ga_memory a); exact E. }
  unfold gaco_evolve, rbind at 1, getk at 1. unfold rbind at 1, setk at 1. cbn [fst snd]. change (if ga_memory a then set_counter k (u32 (an_counter k + 1)) else k) with (counted a k). unfold rbind at 1, getp at 1. cbn [snd].
  destruct (Nat.eqb_spec (length (po_id po)) 0); [lia|]. rewrite SS. destruct (Nat.eqb_spec (ga_gen a) 0); [lia|]. destruct (Nat.ltb_spec (length (po_id po)) 2); [lia|]. destruct (Nat.ltb_spec (length (po_id po)) ker); [lia|]. rewrite N1. cbn [Nat.eqb negb].
  destruct (ga_gen a) as [|n']; [lia|]. cbn [gaco_gens]. unfold rbind at 1, rbind at 1, getk at 1. cbn [fst snd]. rewrite SN.
  unfold rbind at 1. unfold gaco_generation at 1. unfold rbind at 1, getp at 1. cbn [snd]. unfold rbind at 1. unfold archive_step at 1. unfold rbind at 1, getp at 1. unfold rbind at 1, getk at 1. cbn [fst snd].
  unfold rbind at 1. unfold rlift at 1.
  destruct (okp_mmap (penalty_of (po_prob po) (an_oracle (counted a k))) (fun _ _ => True) (po_f po)) as (pens & EPn & FP); [intros f Hf; apply penalty_of_ok; auto|]. rewrite EPn. pose proof (F2_len _ _ _ FP) as LP. clear FP.
  unfold rbind at 1. unfold rlift at 1.
  destruct (std_sort_ok srt (fun i j => less_than_f (dnth pens i) (dnth pens j)) (seq 0 (length pens)) SC (ltf_key_swo (dnth pens) _)) as (sl & -> & PS & _).
  assert (CC : (2 <= an_counter (counted a k))%Z) by (unfold counted; rewrite EM; cbn [set_counter an_counter]; unfold first_call in NF; lia).
  assert (CA : an_arch (counted a k) = []) by (unfold counted; rewrite EM; exact AE).
  destruct (Z.ltb_spec (an_counter (counted a k)) 2); [lia|]. rewrite andb_false_r. destruct (Z.ltb_spec 1 (an_counter (counted a k))); [|lia]. rewrite EM, CA. cbn [andb].
  unfold rbind at 1. unfold rbind at 1. unfold rlift at 1.
  destruct (std_sort_ok srt less_than_f pens SC (ltf_swo _)) as (so & -> & PO' & _).
  unfold rlift at 1. unfold update_archive. unfold vget at 1. destruct (nth_ex (po_x po) 0) as (x0 & ->); [lia|]. cbn [bind]. unfold vget at 1. destruct (nth_ex (po_f po) 0) as (f0 & ->); [lia|]. cbn [bind].
  unfold vget at 1. cbn [nth_error bind fst]. reflexivity.
Qed.
End V.
