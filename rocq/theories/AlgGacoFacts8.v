From Coq Require Import List Bool Arith ZArith Lia Permutation.
From Verif Require Import Dbl DblFacts IntDbl Outcome StdSort BaseFacts Compare CompareFacts Constrained SpecConstrained ConstrainedFacts Problem SpecProblem Rng SpecGeneric SpecGenetic SpecHarmony Generic GeneticOps GeneticFacts Population SpecPopulation PopulationFacts PopulationFacts3 SpecAlgo RmFacts
  Algo SpecSga AlgSga AlgDe AlgNsga2 SpecNsga2 AlgGaco SpecGaco AlgoFacts AlgoFacts2 AlgGacoFacts AlgGacoFacts2 AlgGacoFacts3 AlgGacoFacts4 AlgGacoFacts5 AlgGacoFacts6 AlgGacoFacts7.
Import ListNotations.

(** ** A single generation without memory *)
(** row i of the archive has point j and its fitness *)
Definition row_is (p : problem) {P} (s : pop P) (row : list dbl) (j : nat) : Prop :=
  exists pn x f, row = pn :: x ++ f /\ length x = get_nx p /\ length f = get_nf p /\ nth_error (po_x s) j = Some x /\ nth_error (po_f s) j = Some f.
Lemma row_is_good p {P} (s : pop P) ker arch sl : length arch = ker -> Forall2 (row_is p s) arch sl -> good_arch ker (get_nx p) (get_nf p) (fun _ _ => True) arch.
Proof.
  intros LA FA. split; [exact LA|]. intros row Hr. apply In_nth_error in Hr. destruct Hr as (i & Hi). clear LA. revert i Hi. induction FA as [|r0 j l l' (pn & x & f & -> & A & B & _) F IH]; intros [|i] H; try discriminate.
  - injection H as <-. exists pn, x, f. auto.
  - eapply IH; eauto.
Qed.
Section V.
Context {G P : Type} (r : rng G) (RC : rng_contract r) (srt : sorter) (SC : sort_contract srt) (dexp : dbl -> dbl) (a : gaco_params) (AC : gaco_accepts a).
Context (bfe : option (problem -> list dbl -> outcome (list dbl))).
Notation ker := (ga_ker a).
Notation ST := ((G * ants) * pop P)%type.

Lemma F2_upd {A B} (R : A -> B -> Prop) l l' i x y : Forall2 R l l' -> nth_error l' i = Some y -> R x y -> Forall2 R (upd l i x) l'.
Proof. intros F. revert i. induction F; intros [|i] N H0; try discriminate; cbn in *; [injection N as ->; now constructor|constructor; auto]. Qed.
Lemma F2_at {A B} (R : A -> B -> Prop) l l' : Forall2 R l l' -> forall i b, nth_error l i = Some b -> exists c, nth_error l' i = Some c /\ R b c.
Proof. induction 1; intros [|i] c H1; cbn in *; try discriminate; [injection H1 as <-; eauto|eauto]. Qed.
Lemma oracle_rows p k arch (s : pop P) sl : prob_obj p -> p_nobj p = 1 -> length arch = ker -> Forall2 (row_is p s) arch sl -> okp (oracle_step a p k arch) (fun ka => length (snd ka) = ker /\ Forall2 (row_is p s) (snd ka) sl).
Proof.
  intros PO N1 LA FA. pose proof AC as (_ & _ & _ & KER & _). assert (NF : 1 <= get_nf p) by (unfold get_nf; lia). unfold oracle_step.
  pose proof (row_is_good p s ker arch sl LA FA) as (_ & GA).
  apply okp_bind with (Q1 := fun row => In row arch); [apply okp_vget; [lia|intros row Hr; exact (nth_error_In _ _ Hr)]|]. intros row Hr.
  apply okp_bind with (Q1 := fun _ => True); [apply okp_vget; [rewrite (good_row_len _ _ _ _ (GA row Hr)); lia|auto]|]. intros fv _.
  destruct (dlt fv (an_oracle k)); [|apply okp_ret; auto].
  eapply okp_bind.
  - apply (okp_seq _ (fun _ st => length (snd st) = ker /\ Forall2 (row_is p s) (snd st) sl)); [auto|]. intros i st Hi (L1 & G1). unfold oracle_row.
    apply okp_bind with (Q1 := fun row => exists j, nth_error sl i = Some j /\ row_is p s row j); [apply okp_vget; [lia|intros row1 Hr1; exact (F2_at _ _ _ G1 i row1 Hr1)]|]. intros row1 (j & Nj & (pn & x & f & -> & LX & LF & HX & HF)).
    apply okp_bind with (Q1 := fun _ => True); [apply okp_vget; [cbn; rewrite app_length; lia|auto]|]. intros v _.
    apply okp_bind with (Q1 := fun _ => True).
    { destruct (Nat.eqb i 0 && Nat.eqb (get_nc p) 0); [now apply okp_ret|]. rewrite <- LX, <- LF, row_f_ok. cbn [bind]. eapply okp_bind; [apply residual_ok; assumption|]. intros res _. now apply okp_ret. }
    intros orr _. cbn [vget nth_error bind]. unfold vset at 1. cbn [length Nat.ltb Nat.leb bind upd].
    rewrite vset_in_range by lia. cbn [bind]. apply okp_ret. cbn [snd]. split; [now rewrite upd_length|]. eapply F2_upd; [exact G1|exact Nj|]. eexists _, x, f. split; [reflexivity|]. auto.
  - intros st HS. apply okp_ret. exact HS.
Qed.
Lemma first_rows p arch (s : ST) E : po_prob (snd s) = p -> valid_pop (snd s) -> p_nobj p = 1 -> ker <= length (po_id (snd s)) -> ga_memory a = false -> an_counter (snd (fst s)) = 0%Z -> arch_shape ker (get_nx p) (get_nf p) arch ->
  ends (archive_step srt a 1 arch) s (fun arch' t => t = s /\ length arch' = ker /\ exists sl, Permutation (seq 0 (length (po_x (snd s)))) sl /\ Forall2 (row_is p (snd s)) arch' (firstn ker sl)) E.
Proof.
  intros EP V N1 LK EM C0 SH. pose proof AC as (_ & _ & _ & KER & _). pose proof V as (PO & (L1 & L2 & Fx & Ff & _) & _). rewrite EP in *. unfold archive_step. apply ends_bind, ends_getp. apply ends_bind, ends_getk. rewrite EP.
  apply ends_bind. eapply ends_okp; [apply (okp_mmap _ (fun _ _ => True)); intros f Hf; apply penalty_of_ok; auto|]. intros pens FP. pose proof (F2_len _ _ _ FP) as LP. clear FP. cbv beta.
  apply ends_bind. destruct (std_sort_ok srt (fun i j => less_than_f (dnth pens i) (dnth pens j)) (seq 0 (length pens)) SC (ltf_key_swo (dnth pens) _)) as (sl & ESL & PS & _). apply (ends_lift_ok _ sl); [exact ESL|].
  assert (NF : 1 <= get_nf p) by (unfold get_nf; lia). rewrite EM, C0. cbn [andb Nat.eqb]. change (0 <? 2)%Z with true. cbv iota.
  assert (HX : forall i x f, nth_error (po_x (snd s)) i = Some x -> nth_error (po_f (snd s)) i = Some f -> length x = get_nx p /\ length f = get_nf p /\ True) by (intros i x f A B; split; [apply Fx, (nth_error_In _ _ A)|]; split; [apply Ff, (nth_error_In _ _ B)|exact I]).
  apply ends_bind. apply ends_bind. eapply ends_okp; [apply (first_ok a KER (get_nx p) (get_nf p) NF (fun _ _ => True) _ _ pens sl arch); auto; lia|]. intros arch1 (LA & HA). cbv beta. apply ends_ret. cbn [fst snd]. apply ends_bind, ends_setk, ends_ret.
  split; [destruct s as [[? ?] ?]; reflexivity|]. split; [exact LA|]. exists sl. split; [rewrite L2, LP; exact PS|]. pose proof (Permutation_length PS) as PL. rewrite seq_length in PL.
  assert (GEN : forall n l, (forall i, i < n -> i < length l -> exists b c, nth_error l i = Some b /\ nth_error sl i = Some c /\ row_is p (snd s) b c) -> length l = n -> n <= length sl -> Forall2 (row_is p (snd s)) l (firstn n sl)).
  { clear. revert sl. intros sl n. revert sl. induction n as [|n IH]; intros sl l H L LS; [destruct l; [constructor|discriminate]|]. destruct l as [|b l]; [discriminate|]. destruct sl as [|c sl]; [cbn in LS; lia|]. cbn [firstn].
    constructor; [destruct (H 0) as (b' & c' & A & B & C); [lia|cbn; lia|]; cbn in A, B; injection A as <-; injection B as <-; exact C|]. apply IH; [|cbn in L; lia|cbn in LS; lia]. intros i Hi Hl. apply (H (S i)); [lia|cbn; lia]. }
  apply GEN; [|exact LA|lia]. intros i Hi _. destruct (HA i Hi) as (j & pn & x & f & Nj & _ & X & Y & Z). exists (pn :: x ++ f), j. split; [exact Z|]. split; [exact Nj|]. exists pn, x, f. split; [reflexivity|]. split; [apply Fx, (nth_error_In _ _ X)|]. split; [apply Ff, (nth_error_In _ _ Y)|]. auto.
Qed.
Lemma generation_rows p st (s : ST) : po_prob (snd s) = p -> colony a (snd s) -> evaluator_fine bfe p -> ga_memory a = false -> an_counter (snd (fst s)) = 0%Z -> arch_shape ker (get_nx p) (get_nf p) (fst st) -> length (snd st) = ker ->
  ends (gaco_generation r srt dexp a bfe 1 st) s (fun st' t => length (fst st') = ker /\ valid_pop (snd t) /\ po_prob (snd t) = p /\ po_id (snd t) = po_id (snd s) /\ po_cx (snd t) <> [] /\ evals (length (po_id (snd s))) (snd s) (snd t) /\ exists sl, Permutation (seq 0 (length (po_x (snd s)))) sl /\ Forall2 (row_is p (snd s)) (fst st') (firstn ker sl)) (fitness_throws p).
Proof.
  intros EP (V & HC & N1 & SS & LK) BF EM C0 SH LC. rewrite EP in *. pose proof V as (PO & (L1 & L2 & _) & _). rewrite EP in PO. pose proof AC as (_ & _ & _ & KER & _). unfold gaco_generation. apply ends_bind, ends_getp. rewrite EP.
  apply ends_bind. eapply ends_weak; [apply (first_rows p (fst st) s (fitness_throws p)); assumption| |auto]. intros arch t (-> & LA & sl & PS & FA).
  pose proof (row_is_good p (snd s) ker arch _ LA FA) as GA.
  apply ends_bind, ends_getk. destruct (weights_ok a dexp 1 (snd (fst s)) (snd st) LC) as (LC1 & _).
  set (kc := weights_step dexp a 1 (snd (fst s)) (snd st)) in *. clearbody kc. destruct kc as [k1 cum]. cbn [fst snd] in *. apply ends_bind, ends_setk. cbn [fst snd].
  apply ends_bind. destruct (sigmas_ok a KER p 1 k1 arch (get_nf p) PO (good_arch_shape _ _ _ _ _ GA)) as (sg & ESG & FS). apply (ends_lift_ok _ sg); [exact ESG|]. pose proof (F2_len _ _ _ FS) as LS. rewrite seq_length in LS.
  apply ends_bind. eapply ends_draws; [apply (always_map (fun _ : nat => new_ant r a p cum sg arch) (fun _ x => length x = get_nx p) (fitness_throws p))|].
  { intros _ _. eapply always_weak; [apply (new_ant_ok r RC a KER p PO (fitness_throws p) (fun _ => True) (fun _ => True) (fun _ => True)) with (nf := get_nf p); auto; [|apply (good_arch_shape _ _ _ _ _ GA)]| |auto].
    - intros c s' _ _ gg. unfold around, rbind, rdraw. destruct (g_norm r dzero done gg). exact I.
    - intros x (LX & _). exact LX. }
  intros new g FN. cbn [fst snd] in *. pose proof (F2_len _ _ _ FN) as LN. rewrite seq_length in LN.
  assert (HNW : forall x, In x new -> length x = get_nx p). { intros x Hx. apply In_nth_error in Hx. destruct Hx as (i & Hi). destruct (F2_nth _ _ _ FN i x Hi) as (? & _ & H). exact H. }
  apply ends_bind. eapply ends_weak; [apply (set_ants_ok p PO bfe BF new (g, k1, snd s)); cbn; auto| |auto]. intros [] [[g2 k2] s2] (E1 & PN & EV). cbn [fst snd] in *. injection E1 as -> ->.
  destruct PN as (V2 & EP2 & EI2 & HC2 & H2).
  assert (PI2 : pin p (fun _ _ => True) (snd s) s2) by (split; [exact V2|]; split; [exact EP2|]; split; [exact EI2|]; split; [exact HC2|]; intros i x f X Y; exact I).
  assert (PI1 : pin p (fun _ _ => True) (snd s) (snd s)) by (split; [exact V|]; split; [exact EP|]; split; [reflexivity|]; split; [exact HC|]; intros i x f X Y; exact I).
  apply ends_bind, ends_getp. cbn [snd]. destruct (champion_ok p PO N1 SS _ _ _ PI2) as (CH2 & FA2). destruct (champion_ok p PO N1 SS _ _ _ PI1) as (CH1 & FA1). rewrite CH1, CH2.
  apply ends_bind, (ends_lift_ok _ (po_cx s2, po_cf s2)); [reflexivity|]. apply ends_bind, (ends_lift_ok _ (po_cx (snd s), po_cf (snd s))); [reflexivity|]. cbn [snd].
  apply ends_bind, (ends_lift_ok _ _ _ _ _ (compare_fc_eq _ _ _ _ FA2 FA1)). cbv zeta. set (bt := fc_cmp _ _ _ _). clearbody bt.
  apply ends_bind, ends_setk. cbn [fst snd]. set (k3 := set_evalstop k1 _). apply ends_bind.
  eapply ends_okp; [apply (oracle_rows p k3 arch (snd s) (firstn ker sl) PO N1 LA FA)|]. intros [k4 arch4] (LA4 & FA4). cbn [fst snd] in *.
  apply ends_bind, ends_setk, ends_ret. cbn [fst snd]. split; [exact LA4|]. split; [exact V2|]. split; [exact EP2|]. split; [exact EI2|]. split; [exact HC2|]. split; [rewrite LN; exact EV|]. exists sl. auto.
Qed.
Lemma write_rows p arch (s0 : pop P) sl (s : ST) E : prob_obj p -> po_prob (snd s) = p -> valid_pop (snd s) -> po_id (snd s) = po_id s0 -> ker = length (po_id s0) -> length arch = ker -> Forall2 (row_is p s0) arch sl -> po_cx (snd s) <> [] ->
  ends (write_back a arch) s (fun _ t => valid_pop (snd t) /\ po_prob (snd t) = p /\ po_id (snd t) = po_id s0 /\ po_fevals (snd t) = po_fevals (snd s) /\
    forall i j, i < ker -> nth_error sl i = Some j -> nth_error (po_x (snd t)) i = nth_error (po_x s0) j /\ nth_error (po_f (snd t)) i = nth_error (po_f s0) j) E.
Proof.
  intros PO EP V EI EK LA FA HC. unfold write_back. apply ends_bind, ends_getp. rewrite EP.
  eapply ends_weak; [apply (ends_seq _ (fun n _ t => valid_pop (snd t) /\ po_prob (snd t) = p /\ po_id (snd t) = po_id s0 /\ po_fevals (snd t) = po_fevals (snd s) /\
    forall i j, i < n -> nth_error sl i = Some j -> nth_error (po_x (snd t)) i = nth_error (po_x s0) j /\ nth_error (po_f (snd t)) i = nth_error (po_f s0) j) E)| |auto].
  - split; [exact V|]. split; [exact EP|]. split; [exact EI|]. split; [reflexivity|]. intros; lia.
  - intros i [] t Hi (Vt & EPt & EIt & FE & H). destruct (nth_ex arch i) as (row & Nr); [lia|]. apply ends_bind, (ends_lift_ok _ row); [unfold vget; now rewrite Nr|].
    destruct (F2_at _ _ _ FA i row Nr) as (j & Nj & (pn & x & f & -> & LX & LF & HX & HF)).
    apply ends_bind, (ends_lift_ok _ x); [rewrite <- LX; apply row_x_ok|]. apply ends_bind, (ends_lift_ok _ f); [rewrite <- LX, <- LF; apply row_f_ok|].
    apply ends_pset; [exact Vt|rewrite EIt; lia|congruence|congruence|]. intros c UC V'. split; [exact V'|]. split; [exact EPt|]. split; [exact EIt|]. split; [exact FE|].
    pose proof Vt as (_ & (T1 & T2 & _) & _). rewrite EIt in T1. intros i' j' Hi' Nj'. cbn [setp po_x po_f snd]. destruct (Nat.eq_dec i' i) as [->|N].
    + rewrite !upd_same by lia. assert (j' = j) by congruence. subst j'. now rewrite HX, HF.
    + rewrite !upd_other by exact N. apply H; [lia|exact Nj'].
  - intros [] t H. rewrite Nat.add_0_l in H. exact H.
Qed.
Lemma gaco_one (po : pop P) g k : ga_gen a = 1 -> ga_memory a = false -> ga_ker a = length (po_id po) -> an_counter k = 0%Z -> ~ gaco_stopped a k -> colony a po -> evaluator_fine bfe (po_prob po) ->
  ends (gaco_evolve r srt dexp a bfe) ((g, k), po) (fun _ t => evals (length (po_id po)) po (snd t) /\ po_id (snd t) = po_id po /\ Permutation (members po) (members (snd t))) (fitness_throws (po_prob po)).
Proof.
  intros EG EM EK C0 NS CO BF. pose proof CO as (V & HC & N1 & SS & LK). pose proof V as (PO & (L1 & L2 & _) & _). pose proof AC as (_ & _ & _ & KER & _).
  unfold gaco_evolve. apply ends_bind, ends_getk. cbn [fst snd]. rewrite EM. apply ends_bind, ends_setk. cbn [fst snd]. apply ends_bind, ends_getp. cbn [snd]. cbv zeta.
  destruct (Nat.eqb_spec (length (po_id po)) 0); [lia|]. rewrite SS, EG. cbn [Nat.eqb]. destruct (Nat.ltb_spec (length (po_id po)) 2); [lia|]. destruct (Nat.ltb_spec (length (po_id po)) ker); [lia|]. rewrite N1. cbn [Nat.eqb negb].
  assert (SN : stop_now a k = false). { destruct (stop_now a k) eqn:E; [|reflexivity]. exfalso. apply NS. now apply stop_iff in E. }
  apply ends_bind. cbn [gaco_gens]. apply ends_bind, ends_getk. cbn [fst snd]. rewrite SN. apply ends_bind.
  eapply ends_weak; [apply (generation_rows (po_prob po) (repeat (repeat done (1 + get_nx (po_prob po) + get_nf (po_prob po))) ker, repeat dzero ker) (g, k, po)); cbn [fst snd]; auto| |auto].
  { split; [apply repeat_length|intros row Hr; apply repeat_spec in Hr; subst row; apply repeat_length]. } { apply repeat_length. }
  intros st t (LA & Vt & EPt & EIt & HCt & EVt & sl & PS & FA). cbn [fst snd] in *. apply ends_ret.
  pose proof (Permutation_length PS) as PL. rewrite seq_length in PL. assert (FL : firstn ker sl = sl) by (rewrite EK, L1, PL; apply firstn_all). rewrite FL in FA.
  eapply ends_weak; [apply (write_rows (po_prob po) (fst st) po sl t (fitness_throws (po_prob po))); auto| |auto].
  intros [] u (Vu & EPu & EIu & FU & HH). pose proof Vu as (_ & (U1 & U2 & _) & _). rewrite EIu in U1. split; [unfold evals in *; rewrite FU; exact EVt|]. split; [exact EIu|].
  assert (MM : members (snd u) = map (fun j => nth j (members po) ([], [])) sl).
  { unfold members. apply nth_ext with (d := ([], [])) (d' := ([], [])); [rewrite map_length, combine_length; lia|]. intros i Hi. rewrite combine_length in Hi.
    destruct (nth_ex sl i) as (j & Nj); [lia|]. destruct (HH i j ltac:(lia) Nj) as (HX & HF).
    assert (Lj : j < length (po_x po)) by (apply nth_error_In in Nj; apply (Permutation_in _ (Permutation_sym PS)) in Nj; apply in_seq in Nj; lia).
    set (F := fun j0 : nat => nth j0 (combine (po_x po) (po_f po)) ([], [])). assert (NM : nth_error (map F sl) i = Some (F j)) by (rewrite nth_error_map, Nj; reflexivity).
    rewrite (nth_error_nth _ _ ([], []) NM). unfold F. rewrite !combine_nth by lia.
    f_equal; apply nth_error_nth; [rewrite HX|rewrite HF]; apply nth_error_nth'; lia. }
  rewrite MM. assert (M0 : members po = map (fun j => nth j (members po) ([], [])) (seq 0 (length (members po)))).
  { apply nth_ext with (d := ([], [])) (d' := ([], [])); [now rewrite map_length, seq_length|]. intros i Hi. set (F := fun j0 : nat => nth j0 (members po) ([], [])).
    assert (NM : nth_error (map F (seq 0 (length (members po)))) i = Some (F i)) by (rewrite nth_error_map, (nth_error_nth' _ 0) by (now rewrite seq_length); cbn [option_map]; now rewrite seq_nth). now rewrite (nth_error_nth _ _ ([], []) NM). }
  rewrite M0 at 1. apply Permutation_map. unfold members. rewrite combine_length, <- L2, Nat.min_id. exact PS.
Qed.
(** The constructed algorithm *)
Lemma ctor_ready k p Pt : gaco_ctor a = Ok k -> gaco_ready a p Pt k /\ mark_fine a k.
Proof. intros E. apply gaco_ctor_k in E. subst k. split; [unfold gaco_ready; destruct (ga_memory a); [left; reflexivity|reflexivity]|]. unfold mark_fine. cbn [an_mark]. lia. Qed.
Lemma memory_lost (bad po : pop P) g k : gaco_ctor a = Ok k -> ga_memory a = true -> ga_impstop a <> 1 -> ga_evalstop a <> 1 -> u_set_seed (p_udp (po_prob bad)) = false -> length (po_id bad) < ker -> 0 < ga_gen a -> colony a po ->
  exists k', gaco_evolve r srt dexp a bfe ((g, k), bad) = (if Nat.eqb (length (po_id bad)) 0 then Ok tt else Throw InvalidArgument, ((g, k'), bad)) /\ fst (gaco_evolve r srt dexp a bfe ((g, k'), po)) = UB.
Proof.
  intros CT EM I1 E1 SS LB HG CO. apply gaco_ctor_k in CT. exists (counted a k). split.
  - destruct (gaco_declines r srt dexp a bfe bad g k) as (D1 & _ & _ & D4). destruct (Nat.eqb_spec (length (po_id bad)) 0) as [Z0|Z0]; [now apply D1|]. apply D4; auto. lia.
  - apply (gaco_no_archive r srt SC dexp a AC bfe po g (counted a k) EM HG CO); subst k; unfold counted; rewrite EM.
    + reflexivity.
    + unfold first_call. cbn. discriminate.
    + unfold gaco_stopped. cbn. intros [(A & B)|(A & B)]; lia.
Qed.
End V.
