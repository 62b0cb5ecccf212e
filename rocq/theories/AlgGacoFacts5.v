From Coq Require Import List Bool Arith ZArith Lia Permutation.
From Verif Require Import Dbl DblFacts IntDbl Outcome StdSort BaseFacts Compare CompareFacts Constrained SpecConstrained ConstrainedFacts Problem SpecProblem Rng SpecGeneric SpecGenetic SpecHarmony Generic GeneticOps GeneticFacts Population SpecPopulation PopulationFacts PopulationFacts3 SpecAlgo RmFacts
  Algo SpecSga AlgSga AlgDe AlgNsga2 SpecNsga2 AlgGaco AlgoFacts AlgoFacts2 AlgGacoFacts AlgGacoFacts2 AlgGacoFacts3 AlgGacoFacts4.
Import ListNotations.

Section V.
Context {G P : Type} (r : rng G) (RC : rng_contract r) (srt : sorter) (SC : sort_contract srt) (dexp : dbl -> dbl) (a : gaco_params) (KER : 2 <= ga_ker a).
Context (p : problem) (PO : prob_obj p) (N1 : p_nobj p = 1) (SS : u_set_seed (p_udp p) = false).
Context (bfe : option (problem -> list dbl -> outcome (list dbl))) (BF : match bfe with None => fitness_defined p | Some ud => total_fitness p /\ faithful_bfe ud p end).
Context (PA PP : list dbl -> list dbl -> Prop) (Bx : list dbl -> Prop) (Mk : Z -> Prop).
Context (HPA : forall x f, PP x f -> PA x f) (HEV : forall x f, evaluated p x f -> Bx x -> PP x f) (HM : forall k, Mk (an_mark k) -> Mk (next_mark a k)).
Context (HN : forall gen k cum sg arch, length cum = ga_ker a -> good_arch (ga_ker a) (get_nx p) (get_nf p) PA arch -> sigmas a p gen k arch = Ok sg -> Mk (an_mark k) ->
  always (new_ant r a p cum sg arch) (fun x => length x = get_nx p /\ Bx x) (fitness_throws p)).
Notation ker := (ga_ker a).
Notation ga := (good_arch ker (get_nx p) (get_nf p) PA).
Notation ST := ((G * ants) * pop P)%type.

Definition all_PP (s : pop P) : Prop := forall i x f, nth_error (po_x s) i = Some x -> nth_error (po_f s) i = Some f -> PP x f.
Definition all_ants (s : pop P) : Prop := forall i x f, nth_error (po_x s) i = Some x -> nth_error (po_f s) i = Some f -> evaluated p x f /\ Bx x.
(** the population during the run *)
Definition pin (s0 s : pop P) : Prop := valid_pop s /\ po_prob s = p /\ po_id s = po_id s0 /\ has_champion s /\ all_PP s.
(** where the next generation takes its archive from *)
Definition src (gen : nat) (k : ants) (arch : list (list dbl)) : Prop :=
  (ga_memory a = true /\ (2 <= an_counter k)%Z /\ ga (an_arch k)) \/ ((an_counter k < 2)%Z /\ ((gen = 1 /\ arch_shape ker (get_nx p) (get_nf p) arch) \/ (gen <> 1 /\ ga arch))).

Lemma archive_ok gen arch (s : ST) (s0 : pop P) E : pin s0 (snd s) -> ker <= length (po_id s0) -> src gen (snd (fst s)) arch -> Mk (an_mark (snd (fst s))) ->
  ends (archive_step srt a gen arch) s (fun arch' t => ga arch' /\ snd t = snd s /\ fst (fst t) = fst (fst s) /\ let k := snd (fst s) in let k' := snd (fst t) in
    Mk (an_mark k') /\ an_counter k' = an_counter k /\ an_evalstop k' = an_evalstop k /\ an_oracle k' = an_oracle k /\ an_q k' = an_q k /\ (ga_memory a = true -> an_arch k' = arch')) E.
Proof.
  intros (V & EP & EI & HC & HP) LK SR MK. pose proof V as (_ & (L1 & L2 & Fx & Ff & _) & _). rewrite EP in *. unfold archive_step. apply ends_bind, ends_getp. apply ends_bind, ends_getk. rewrite EP.
  set (k := snd (fst s)) in *.
  apply ends_bind. eapply ends_okp; [apply (okp_mmap _ (fun _ _ => True)); intros f Hf; apply penalty_of_ok; auto|]. intros pens FP. pose proof (F2_len _ _ _ FP) as LP. clear FP. cbv beta.
  apply ends_bind. destruct (std_sort_ok srt (fun i j => less_than_f (dnth pens i) (dnth pens j)) (seq 0 (length pens)) SC (ltf_key_swo (dnth pens) _)) as (sl & ESL & PS & _). apply (ends_lift_ok _ sl); [exact ESL|].
  assert (HX : forall i x f, nth_error (po_x (snd s)) i = Some x -> nth_error (po_f (snd s)) i = Some f -> length x = get_nx p /\ length f = get_nf p /\ PA x f).
  { intros i x f A B. split; [apply Fx, (nth_error_In _ _ A)|]. split; [apply Ff, (nth_error_In _ _ B)|]. eapply HPA, HP; eauto. }
  assert (NF : 1 <= get_nf p) by (unfold get_nf; lia). rewrite EI in *. apply ends_bind.
  set (arch0 := if ga_memory a && (1 <? an_counter k)%Z then an_arch k else arch).
  destruct (Nat.eqb gen 1 && (an_counter k <? 2)%Z) eqn:FI.
  - apply andb_true_iff in FI as (G1 & C2). apply Nat.eqb_eq in G1. apply Z.ltb_lt in C2. destruct SR as [(_ & C3 & _)|(_ & [(_ & SH)|(NG & _)])]; [lia| |congruence].
    assert (EA : arch0 = arch) by (unfold arch0; destruct (Z.ltb_spec 1 (an_counter k)); [lia|]; now rewrite andb_false_r). rewrite EA.
    apply ends_bind. eapply ends_okp; [apply (first_ok a KER (get_nx p) (get_nf p) NF PA _ _ pens sl arch); auto; lia|]. intros arch1 (LA & HA). cbv beta.
    assert (GA : ga arch1).
    { split; [exact LA|]. intros row Hr. apply In_nth_error in Hr. destruct Hr as (i & Hi). assert (Li : i < ker) by (rewrite <- LA; apply nth_error_Some; congruence).
      destruct (HA i Li) as (j & pn & x & f & _ & _ & X & Y & Z). assert (row = pn :: x ++ f) by congruence. subst row. destruct (HX j x f X Y) as (A & B & C). exists pn, x, f. auto. }
    apply ends_ret. cbn [fst snd]. apply ends_bind, ends_setk, ends_ret. cbn [fst snd]. split; [exact GA|]. split; [reflexivity|]. split; [reflexivity|].
    destruct (ga_memory a); cbn; repeat split; auto; discriminate.
  - assert (GA0 : ga arch0).
    { unfold arch0. destruct SR as [(EM & C3 & GA)|(C3 & [(-> & _)|(_ & GA)])].
      - rewrite EM. destruct (Z.ltb_spec 1 (an_counter k)); [exact GA|lia].
      - cbn [Nat.eqb andb] in FI. apply Z.ltb_ge in FI. lia.
      - destruct (Z.ltb_spec 1 (an_counter k)); [lia|]. rewrite andb_false_r. exact GA. }
    clearbody arch0. apply ends_bind. destruct (std_sort_ok srt less_than_f pens SC (ltf_swo _)) as (so & ESO & PO' & _). apply (ends_lift_ok _ so); [exact ESO|].
    pose proof (Permutation_length PO') as LSO.
    eapply ends_okp; [apply (update_ok srt SC a KER (get_nx p) (get_nf p) NF PA _ _ so sl k arch0); auto; try lia; rewrite <- LSO; exact PS|].
    intros [k1 arch1] (GA & Q1 & Q2 & Q3 & Q4 & Q5 & Q6). cbn [fst snd] in *. apply ends_bind, ends_setk, ends_ret. cbn [fst snd]. split; [exact GA|]. split; [reflexivity|]. split; [reflexivity|].
    specialize (HM k MK). rewrite <- Q6 in HM. destruct (ga_memory a); cbn; repeat split; auto; discriminate.
Qed.

Lemma champion_ok (s0 s : pop P) : pin s0 s -> champion s = Ok (po_cx s, po_cf s) /\ fc_args_ok (p_nec p) (p_ctol p) (po_cf s).
Proof.
  clear - PO N1 SS. intros (V & EP & EI & HC & HP). unfold champion. rewrite EP, N1, SS. cbn [Nat.ltb Nat.leb]. split; [reflexivity|].
  destruct V as (_ & _ & CH). destruct (prob_obj_facts p PO) as (_ & _ & LT & NF). destruct CH as [(CX & _)|(_ & CF)]; [contradiction|]. rewrite EP in CF. unfold fc_args_ok. unfold get_nc, get_nf in *. lia.
Qed.

Definition after_gen (s0 : pop P) (s : ST) (st : list (list dbl) * list dbl) (t : ST) : Prop :=
  ga (fst st) /\ length (snd st) = ker /\ pin s0 (snd t) /\ all_ants (snd t) /\ evals (length (po_id s0)) (snd s) (snd t) /\
  Mk (an_mark (snd (fst t))) /\ an_counter (snd (fst t)) = an_counter (snd (fst s)) /\ (ga_memory a = true -> an_arch (snd (fst t)) = fst st).
Lemma generation_ok gen st (s : ST) (s0 : pop P) : pin s0 (snd s) -> ker <= length (po_id s0) -> src gen (snd (fst s)) (fst st) -> length (snd st) = ker -> Mk (an_mark (snd (fst s))) ->
  ends (gaco_generation r srt dexp a bfe gen st) s (after_gen s0 s) (fitness_throws p).
Proof.
  intros PI LK SR LC MK. unfold gaco_generation. apply ends_bind, ends_getp. pose proof PI as (V & EP & EI & HC & HP). rewrite EP.
  apply ends_bind. eapply ends_weak; [apply (archive_ok gen (fst st) s s0 (fitness_throws p)); assumption| |auto]. intros arch [[g k] s1] (GA & E1 & E2 & MK1 & C1 & _ & _ & _ & A1). cbn [fst snd] in *. subst s1 g.
  apply ends_bind, ends_getk. cbn [fst snd]. destruct (weights_ok a dexp gen k (snd st) LC) as (LC1 & W1 & W2 & _ & _ & W5 & _). cbv zeta in W1, W2, W5.
  set (kc := weights_step dexp a gen k (snd st)) in *. clearbody kc. destruct kc as [k1 cum]. cbn [fst snd] in *. apply ends_bind, ends_setk. cbn [fst snd].
  apply ends_bind. destruct (sigmas_ok a KER p gen k1 arch (get_nf p) PO (good_arch_shape _ _ _ _ _ GA)) as (sg & ESG & _). apply (ends_lift_ok _ sg); [exact ESG|].
  apply ends_bind. eapply ends_draws; [apply (always_map (fun _ : nat => new_ant r a p cum sg arch) (fun _ x => length x = get_nx p /\ Bx x)); intros _ _; apply (HN gen k1); auto; congruence|].
  intros new g FN. cbn [fst snd] in *. pose proof (F2_len _ _ _ FN) as LN. rewrite seq_length in LN.
  assert (HNW : forall x, In x new -> length x = get_nx p /\ Bx x). { intros x Hx. apply In_nth_error in Hx. destruct Hx as (i & Hi). destruct (F2_nth _ _ _ FN i x Hi) as (? & _ & H). exact H. }
  apply ends_bind. eapply ends_weak; [apply (set_ants_ok p PO bfe BF new (g, k1, snd s)); cbn; auto; intros x Hx; now apply HNW| |auto]. intros [] [[g2 k2] s2] (E1 & PN & EV). cbn [fst snd] in *. injection E1 as -> ->.
  destruct PN as (V2 & EP2 & EI2 & HC2 & H2). pose proof V2 as (_ & (L21 & L22 & _) & _).
  assert (AN : all_ants s2). { intros i x f X Y. assert (Li : i < length new) by (rewrite <- LN, <- EI2, L21; apply nth_error_Some; congruence). destruct (H2 i x f Li X Y) as (NX & EVx). split; [exact EVx|]. apply HNW, (nth_error_In _ _ NX). }
  assert (PI2 : pin s0 s2). { split; [exact V2|]. split; [exact EP2|]. split; [congruence|]. split; [exact HC2|]. intros i x f X Y. destruct (AN i x f X Y). now apply HEV. }
  apply ends_bind, ends_getp. cbn [snd]. destruct (champion_ok s0 s2 PI2) as (CH2 & FA2). destruct (champion_ok s0 (snd s) PI) as (CH1 & FA1). rewrite CH1, CH2.
  apply ends_bind, (ends_lift_ok _ (po_cx s2, po_cf s2)); [reflexivity|]. apply ends_bind, (ends_lift_ok _ (po_cx (snd s), po_cf (snd s))); [reflexivity|]. cbn [snd].
  apply ends_bind, (ends_lift_ok _ _ _ _ _ (compare_fc_eq _ _ _ _ FA2 FA1)). cbv zeta. set (bt := fc_cmp _ _ _ _). clearbody bt.
  apply ends_bind, ends_setk. cbn [fst snd]. set (k3 := set_evalstop k1 _). apply ends_bind.
  eapply ends_okp; [apply (oracle_ok a KER p k3 arch PA PO N1 GA)|]. intros [k4 arch4] (GA4 & _ & O2 & _ & _ & O5 & O6 & O7). cbn [fst snd] in *.
  apply ends_bind, ends_setk, ends_ret. unfold after_gen. cbn [fst snd]. split; [exact GA4|]. split; [exact LC1|]. split; [exact PI2|]. split; [exact AN|].
  split; [rewrite <- EI, LN; exact EV|]. split; [rewrite O5; cbn; congruence|]. split; [rewrite O2; cbn; congruence|]. intros EM. apply O7; [exact EM|]. cbn. rewrite W2. now apply A1.
Qed.

Lemma src_next gen k st : ga (fst st) -> 0 < gen -> (ga_memory a = true -> an_arch k = fst st) -> (ga_memory a = false -> an_counter k = 0%Z) -> src (gen + 1) k (fst (st : list (list dbl) * list dbl)).
Proof.
  intros GA HG HA HC. destruct (Z.lt_ge_cases (an_counter k) 2) as [C|C].
  - right. split; [exact C|]. right. split; [lia|exact GA].
  - left. destruct (ga_memory a) eqn:EM; [|rewrite (HC eq_refl) in C; lia]. split; [reflexivity|]. split; [exact C|]. now rewrite (HA eq_refl).
Qed.

(** n of the remaining generations were done *)
Definition after_gens (s0 : pop P) (s : ST) (st : list (list dbl) * list dbl) (n : nat) (o : option (list (list dbl))) (t : ST) : Prop :=
  exists m, m <= n /\ (m < n -> stop_now a (snd (fst t)) = true) /\ (o = None <-> m < n) /\ evals (m * length (po_id s0)) (snd s) (snd t) /\
    pin s0 (snd t) /\ (0 < m -> all_ants (snd t)) /\ (m = 0 -> t = s) /\ Mk (an_mark (snd (fst t))) /\ an_counter (snd (fst t)) = an_counter (snd (fst s)) /\
    (0 < m -> ga_memory a = true -> ga (an_arch (snd (fst t)))) /\ (forall arch, o = Some arch -> (m = 0 -> arch = fst st) /\ (0 < m -> ga arch)).
Lemma gens_ok (s0 : pop P) (LK : ker <= length (po_id s0)) n : forall gen st (s : ST), 0 < gen -> pin s0 (snd s) -> src gen (snd (fst s)) (fst st) -> length (snd st) = ker -> Mk (an_mark (snd (fst s))) ->
  (ga_memory a = false -> an_counter (snd (fst s)) = 0%Z) ->
  ends (gaco_gens r srt dexp a bfe n gen st) s (after_gens s0 s st n) (fitness_throws p).
Proof.
  induction n as [|n IH]; intros gen st s HG PI SR LC MK HC; cbn [gaco_gens].
  - apply ends_ret. exists 0. cbn [Nat.mul]. split; [lia|]. split; [lia|]. split; [split; [discriminate|lia]|]. split; [apply evals_0|]. split; [exact PI|]. split; [lia|]. split; [reflexivity|]. split; [exact MK|]. split; [reflexivity|]. split; [lia|]. intros arch EA. injection EA as <-. split; [reflexivity|lia].
  - apply ends_bind, ends_getk. destruct (stop_now a (snd (fst s))) eqn:SN.
    + apply ends_ret. exists 0. cbn [Nat.mul]. split; [lia|]. split; [auto|]. split; [split; [lia|reflexivity]|]. split; [apply evals_0|]. split; [exact PI|]. split; [lia|]. split; [reflexivity|]. split; [exact MK|]. split; [reflexivity|]. split; [lia|]. discriminate.
    + apply ends_bind. eapply ends_weak; [apply (generation_ok gen st s s0); assumption| |auto]. intros st1 t (GA & LC1 & PI1 & AN & EV & MK1 & C1 & A1).
      assert (HC1 : ga_memory a = false -> an_counter (snd (fst t)) = 0%Z) by (intros EM; rewrite C1; auto).
      eapply ends_weak; [apply (IH (gen + 1) st1 t); auto; [lia|apply src_next; auto]| |auto].
      intros o u (m & Hm & SM & OM & EVm & PIm & ANm & M0 & MKm & Cm & GAm & OA). exists (S m). split; [lia|]. split; [intros; apply SM; lia|]. split; [rewrite OM; lia|].
      split; [cbn [Nat.mul]; eapply evals_trans; eassumption|]. split; [exact PIm|].
      split; [intros _; destruct m as [|m]; [rewrite (M0 eq_refl); exact AN|apply ANm; lia]|]. split; [lia|]. split; [exact MKm|]. split; [congruence|].
      split; [intros _ EM; destruct m as [|m]; [rewrite (M0 eq_refl), (A1 EM); exact GA|apply GAm; auto; lia]|].
      intros arch EA. split; [lia|]. intros _. destruct (OA arch EA) as (OA1 & OA2). destruct m as [|m]; [rewrite (OA1 eq_refl); exact GA|apply OA2; lia].
Qed.
End V.
