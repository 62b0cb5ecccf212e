From Coq Require Import List Bool Arith ZArith Lia Permutation.
From Verif Require Import Dbl DblFacts IntDbl Outcome StdSort BaseFacts Compare CompareFacts Constrained SpecConstrained ConstrainedFacts Problem SpecProblem Rng SpecGeneric SpecGenetic SpecHarmony Generic GeneticOps GeneticFacts Population SpecPopulation PopulationFacts PopulationFacts3 SpecAlgo RmFacts
  Algo SpecSga AlgSga AlgDe AlgNsga2 SpecNsga2 AlgGaco SpecGaco AlgoFacts AlgoFacts2 AlgGacoFacts AlgGacoFacts2 AlgGacoFacts3 AlgGacoFacts4 AlgGacoFacts5.
Import ListNotations.
Local Notation within := SpecGeneric.within.

Lemma stop_iff a k : stop_now a k = true <-> gaco_stopped a k.
Proof.
  unfold stop_now, gaco_stopped. rewrite orb_true_iff, !andb_true_iff, !negb_true_iff, !Nat.eqb_neq, !Z.leb_le. reflexivity.
Qed.
Lemma gaco_ctor_iff a : (exists k, gaco_ctor a = Ok k) <-> gaco_accepts a.
Proof.
  unfold gaco_ctor, gaco_accepts.
  destruct (dlt (ga_acc a) dzero); [split; [intros (k & H); discriminate|intros (H & _); discriminate]|].
  destruct (dlt (ga_focus a) dzero); [split; [intros (k & H); discriminate|intros (_ & H & _); discriminate]|].
  destruct (Nat.ltb_spec (ga_threshold a) 1) as [T|T], (Nat.ltb_spec (ga_gen a) (ga_threshold a)) as [U|U], (Nat.eqb_spec (ga_gen a) 0) as [N|N], (ga_memory a); cbn [negb andb orb];
    try (split; [intros (k & H); discriminate|intros (_ & _ & _ & _ & H); destruct (H N) as (H1 & H2); try lia; specialize (H2 eq_refl); lia]).
  all: destruct (dlt (ga_q a) dzero); [split; [intros (k & H); discriminate|intros (_ & _ & H & _); discriminate]|].
  all: destruct (Nat.ltb_spec (ga_ker a) 2); [split; [intros (k & H'); discriminate|intros (_ & _ & _ & H' & _); lia]|].
  all: split; [intros _; do 4 (split; [first [reflexivity|assumption]|]); intros; split; [lia|intros; try discriminate; lia]|intros _; eauto].
Qed.
Lemma gaco_ctor_k a k : gaco_ctor a = Ok k -> k = mkants (ga_oracle a) (ga_q a) 0 [] 1 1 1.
Proof. unfold gaco_ctor. repeat match goal with |- context [if ?b then _ else _] => destruct b end; intros H; try discriminate. now injection H as <-. Qed.

Section W.
Context {G P : Type} (a : gaco_params) (p : problem) (PO : prob_obj p) (PA PP : list dbl -> list dbl -> Prop).
Notation ker := (ga_ker a).
Notation ST := ((G * ants) * pop P)%type.
Lemma write_back_ok arch (s : ST) (s0 : pop P) E : pin p PP s0 (snd s) -> ker <= length (po_id s0) -> good_arch ker (get_nx p) (get_nf p) PA arch -> (forall x f, PA x f -> PP x f) ->
  ends (write_back a arch) s (fun _ t => fst t = fst s /\ pin p PP s0 (snd t) /\ po_fevals (snd t) = po_fevals (snd s)) E.
Proof.
  intros PI LK (LA & GA) H3. unfold write_back. apply ends_bind, ends_getp. pose proof PI as (V0 & EP & EI & _). rewrite EP.
  apply (ends_seq _ (fun _ _ t => fst t = fst s /\ pin p PP s0 (snd t) /\ po_fevals (snd t) = po_fevals (snd s))); [auto|].
  intros i [] t Hi (E1 & (V & EPt & EIt & HC & HP) & E2). destruct (nth_ex arch i) as (row & Nr); [lia|]. apply ends_bind, (ends_lift_ok _ row); [unfold vget; now rewrite Nr|].
  destruct (GA row (nth_error_In _ _ Nr)) as (pn & x & f & -> & LX & LF & HPx).
  apply ends_bind, (ends_lift_ok _ x); [rewrite <- LX; apply row_x_ok|]. apply ends_bind, (ends_lift_ok _ f); [rewrite <- LX, <- LF; apply row_f_ok|].
  apply ends_pset; [exact V|rewrite EIt; lia|congruence|congruence|]. intros c UC V'. split; [exact E1|]. split; [|exact E2]. split; [exact V'|]. split; [exact EPt|]. split; [exact EIt|].
  split.
  - eapply champion_kept; [exact HC| |exact UC]. intros ->. pose proof (nx_pos p PO). cbn in LX. lia.
  - pose proof V as (_ & (L1 & L2 & _) & _). intros j y g Ny Ng. cbn [setp po_x po_f snd] in Ny, Ng. destruct (Nat.eq_dec j i) as [->|N].
    + rewrite upd_same in Ny by (rewrite <- L1, EIt; lia). rewrite upd_same in Ng by (rewrite <- L2, <- L1, EIt; lia). injection Ny as <-. injection Ng as <-. now apply H3.
    + rewrite upd_other in Ny, Ng by exact N. eapply HP; eauto.
Qed.
End W.

Section V.
Context {G P : Type} (r : rng G) (RC : rng_contract r) (srt : sorter) (SC : sort_contract srt) (dexp : dbl -> dbl) (a : gaco_params) (AC : gaco_accepts a).
Context (bfe : option (problem -> list dbl -> outcome (list dbl))).
Notation ker := (ga_ker a).
Notation ST := ((G * ants) * pop P)%type.
Lemma evolve_gen (po : pop P) g k (Old : list dbl -> list dbl -> Prop) (Bx : list dbl -> Prop) (Mk : Z -> Prop) :
  let p := po_prob po in
  let PP := fun x f => (evaluated p x f /\ Bx x) \/ exists j, nth_error (po_x po) j = Some x /\ nth_error (po_f po) j = Some f in
  let PA := fun x f => PP x f \/ (ga_memory a = true /\ Old x f) in
  0 < ga_gen a -> colony a po -> evaluator_fine bfe p -> gaco_ready a p Old k -> Mk (an_mark k) -> (forall k, Mk (an_mark k) -> Mk (next_mark a k)) ->
  (forall gen k cum sg arch, length cum = ga_ker a -> good_arch (ga_ker a) (get_nx p) (get_nf p) PA arch -> sigmas a p gen k arch = Ok sg -> Mk (an_mark k) ->
    always (new_ant r a p cum sg arch) (fun x => length x = get_nx p /\ Bx x) (fitness_throws p)) ->
  ends (gaco_evolve r srt dexp a bfe) ((g, k), po) (fun _ t => ant_call a Bx po (snd t) (snd (fst t)) /\ gaco_ready a p PA (snd (fst t)) /\ Mk (an_mark (snd (fst t)))) (fitness_throws p).
Proof.
  intros p PP PA HG (V & HC & N1 & SS & LK) BF RD MK HM HN. fold p in N1, SS. pose proof V as (PO & (L1 & L2 & _) & _). fold p in PO. pose proof AC as (_ & _ & _ & KER & _).
  assert (HPA : forall x f, PP x f -> PA x f) by (left; assumption). assert (HEV : forall x f, evaluated p x f -> Bx x -> PP x f) by (left; auto).
  assert (PI0 : pin p PP po po). { split; [exact V|]. split; [reflexivity|]. split; [reflexivity|]. split; [exact HC|]. intros i x f X Y. right. eauto. }
  unfold gaco_evolve. apply ends_bind, ends_getk. cbn [fst snd]. apply ends_bind, ends_setk. cbn [fst snd]. set (k1 := if ga_memory a then _ else k). apply ends_bind, ends_getp. cbn [snd]. fold p. cbv zeta.
  destruct (Nat.eqb_spec (length (po_id po)) 0); [lia|]. rewrite SS. destruct (Nat.eqb_spec (ga_gen a) 0); [lia|]. destruct (Nat.ltb_spec (length (po_id po)) 2); [lia|]. destruct (Nat.ltb_spec (length (po_id po)) ker); [lia|]. rewrite N1. cbn [Nat.eqb negb].
  assert (MK1 : Mk (an_mark k1)) by (unfold k1; destruct (ga_memory a); exact MK).
  assert (ST1 : stop_now a k1 = stop_now a k) by (unfold k1; destruct (ga_memory a); reflexivity).
  assert (RUN0 : ant_run a Bx 0 po po). { split; [exact V|]. split; [exact HC|]. split; [reflexivity|]. split; [reflexivity|]. split; [apply evals_0|]. split; [reflexivity|]. intros i x f X Y. right. eauto. }
  destruct (stop_now a k1) eqn:SN.
  { apply ends_bind. destruct (ga_gen a) as [|n'] eqn:EG; [lia|]. cbn [gaco_gens]. apply ends_bind, ends_getk. cbn [fst snd]. rewrite SN. apply ends_ret. apply ends_ret. cbn [fst snd].
    split; [exists 0; rewrite EG; split; [lia|]; split; [intros _; now apply stop_iff|exact RUN0]|]. split; [|exact MK1].
    unfold gaco_ready in *. unfold k1 in *. destruct (ga_memory a); [right; right; now apply stop_iff|exact RD]. }
  assert (CK : ga_memory a = false -> an_counter k1 = 0%Z) by (unfold k1, gaco_ready in *; intros EM; rewrite EM in *; exact RD).
  assert (SR : src a p PA 1 k1 (repeat (repeat done (1 + get_nx p + get_nf p)) ker)).
  { assert (SH : arch_shape ker (get_nx p) (get_nf p) (repeat (repeat done (1 + get_nx p + get_nf p)) ker)) by (split; [apply repeat_length|intros row Hr; apply repeat_spec in Hr; subst row; apply repeat_length]).
    destruct (Z.lt_ge_cases (an_counter k1) 2) as [C|C]; [right; auto|]. left. unfold gaco_ready in RD. unfold k1 in *. destruct (ga_memory a) eqn:EM; [|rewrite (CK eq_refl) in C; lia].
    split; [reflexivity|]. split; [exact C|]. destruct RD as [F|[(A1 & A2)|S]].
    - unfold first_call in F. cbn [set_counter an_counter] in C. unfold u32 in C. lia.
    - split; [exact A1|]. intros row Hr. destruct (A2 row Hr) as (pn & x & f & -> & LX & LF & HO). exists pn, x, f. split; [reflexivity|]. split; [exact LX|]. split; [exact LF|]. right. auto.
    - apply stop_iff in S. congruence. }
  apply ends_bind. eapply ends_weak; [apply (gens_ok r srt SC dexp a KER p PO N1 SS bfe BF PA PP Bx Mk HPA HEV HM HN po LK (ga_gen a) 1 (repeat (repeat done (1 + get_nx p + get_nf p)) ker, repeat dzero ker) (g, k1, po)); cbn [fst snd]; auto; apply repeat_length| |auto].
  intros o t (m & Hm & SM & OM & EVm & PIm & ANm & M0 & MKm & Cm & GAm & OA). cbn [fst snd] in *.
  assert (NM : 0 < m). { destruct m as [|m]; [|lia]. specialize (SM HG). rewrite (M0 eq_refl) in SM. cbn in SM. congruence. }
  assert (RDm : forall k2, k2 = snd (fst t) -> gaco_ready a p PA k2). { intros k2 ->. unfold gaco_ready. destruct (ga_memory a) eqn:EM; [|rewrite Cm; auto]. right. left. exact (GAm NM eq_refl). }
  pose proof PIm as (Vm & EPm & EIm & HCm & HPm).
  assert (FIN : forall u : ST, fst u = fst t -> pin p PP po (snd u) -> po_fevals (snd u) = po_fevals (snd t) -> (ga_memory a = true \/ o = None -> snd u = snd t) ->
     ant_call a Bx po (snd u) (snd (fst u)) /\ gaco_ready a p PA (snd (fst u)) /\ Mk (an_mark (snd (fst u)))).
  { intros u EU (Vu & EPu & EIu & HCu & HPu) FU SU. rewrite EU. split; [|split; [now apply RDm|exact MKm]]. exists m. split; [exact Hm|]. split; [intros HH; apply stop_iff; auto|].
    split; [exact Vu|]. split; [exact HCu|]. split; [exact EPu|]. split; [exact EIu|]. split; [unfold evals in *; rewrite FU; exact EVm|]. split; [lia|].
    intros i x f X Y. destruct (ga_memory a) eqn:EM; [left; rewrite SU in X, Y by auto; eapply (ANm NM); eassumption|]. destruct (HPu i x f X Y) as [H'|H']; [left; exact H'|right; split; [now right|exact H']]. }
  destruct o as [arch|]; [|apply ends_ret; apply FIN; auto].
  destruct (ga_memory a) eqn:EM; [apply ends_ret; apply FIN; auto|].
  eapply ends_weak; [apply (write_back_ok a p PO PA PP arch t po (fitness_throws p) PIm LK)| |auto].
  - apply (OA arch eq_refl). exact NM.
  - intros x f [H'|(H' & _)]; [exact H'|congruence].
  - intros [] u (E1 & PIu & FU). apply FIN; auto. intros [H'|H']; congruence.
Qed.
End V.
