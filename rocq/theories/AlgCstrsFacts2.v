From Coq Require Import List Bool Arith ZArith Lia Permutation.
From Verif Require Import Dbl DblFacts Outcome BaseFacts StdSort SpecOrder Compare CompareFacts Problem SpecProblem ProblemFacts Rng Generic
  Constrained SpecConstrained ConstrainedFacts ConstrainedFacts2 Population SpecPopulation PopulationFacts PopulationFacts3 Algo SpecAlgo AlgoFacts AlgoFacts2 NotPop SpecLocal SpecHarmony AlgCompass AlgCompassFacts AlgCstrs SpecCstrs AlgCstrsFacts.
Import ListNotations.

(** ** Best and worst *)
Lemma best_worst {P} srt (s : pop P) : valid_pop s -> p_nobj (po_prob s) = 1 -> 0 < get_nc (po_prob s) -> po_id s <> [] -> ranked srt s ->
  exists b w x f, best_idx srt s = Ok b /\ worst_idx srt s = Ok w /\ w < length (po_id s) /\ nth_error (po_x s) b = Some x /\ nth_error (po_f s) b = Some f /\ unbeaten s f.
Proof.
  intros (PO & ST & _) NO NC NE RK. destruct (RK NC) as [SC SW]. pose proof ST as (L1 & L2 & _ & Ff & _). destruct (prob_obj_facts _ PO) as (_ & _ & LT & NF).
  assert (OKA : forall f, In f (po_f s) -> fc_args_ok (p_nec (po_prob s)) (p_ctol (po_prob s)) f) by (intros f Hf; specialize (Ff f Hf); split; unfold get_nc in *; lia).
  destruct (sort_con_ok srt (po_f s) _ _ SC OKA SW) as (idx & E & PM & ORD).
  unfold best_idx, worst_idx, best_idx_tol, worst_idx_tol. rewrite NO. destruct (Nat.eqb_spec (length (po_id s)) 0) as [Z0|NZ']; [apply length_zero_iff_nil in Z0; contradiction|].
  change (1 <? 1) with false. destruct (Nat.ltb_spec 0 (get_nc (po_prob s))); [|lia]. rewrite E. cbn [bind].
  assert (LI : length idx = length (po_f s)) by (rewrite <- (Permutation_length PM); unfold iota; apply seq_length).
  rewrite (vget_nth idx 0 0), (vget_nth idx (length idx - 1) 0) by lia.
  assert (IN : forall k, k < length idx -> nth k idx 0 < length (po_f s)).
  { intros k Hk. apply (Permutation_iota_in _ _ (nth k idx 0) PM). apply nth_In, Hk. }
  pose proof (IN 0 ltac:(lia)) as I0. pose proof (IN (length idx - 1) ltac:(lia)) as I1.
  exists (nth 0 idx 0), (nth (length idx - 1) idx 0), (nth (nth 0 idx 0) (po_x s) []), (nth (nth 0 idx 0) (po_f s) []).
  split; [reflexivity|]. split; [reflexivity|]. split; [lia|]. split; [apply nth_error_nth'; lia|]. split; [apply nth_error_nth'; lia|].
  split; [apply nth_In, I0|]. intros h Hh PR. apply In_nth with (d := []) in Hh. destruct Hh as (a & Ha & <-).
  assert (Hk : exists k, k < length idx /\ nth k idx 0 = a) by (apply In_nth; apply (Permutation_iota_in _ _ a PM), Ha). destruct Hk as (k & Hk & <-).
  unfold preferred in PR. destruct (Nat.eq_dec k 0) as [->|K].
  - pose proof (swo_irrefl _ _ SW _ (nth_In _ [] I0)) as X. unfold fc_lt in X. rewrite PR in X. discriminate X.
  - rewrite (ORD 0 k) in PR; [discriminate PR|lia|apply nth_error_nth'; lia|apply nth_error_nth'; exact Hk].
Qed.
Lemma negtrans {A} (cmp : A -> A -> bool) a b c l : strict_weak_on cmp l -> In a l -> In b l -> In c l -> cmp a b = false -> cmp b c = false -> cmp a c = false.
Proof.
  intros SW Ha Hb Hc E1 E2. destruct (cmp a c) eqn:E3; [|reflexivity]. exfalso.
  destruct (cmp b a) eqn:E4; [rewrite (swo_trans _ _ SW b a c) in E2; auto; discriminate|].
  destruct (cmp c b) eqn:E5; [rewrite (swo_trans _ _ SW a c b) in E1; auto; discriminate|].
  destruct (swo_incomp _ _ SW a b c) as [X _]; auto. congruence.
Qed.

(** ** Individuals *)
Section H.
Context {P : Type}.
Lemma has_setp (s : pop P) i x f c y h : length (po_x s) = length (po_f s) -> has (setp s i x f c) y h -> (y = x /\ h = f) \/ has s y h.
Proof.
  intros L (j & H1 & H2). cbn [setp po_x po_f] in H1, H2. destruct (Nat.eq_dec i j) as [->|N].
  - destruct (lt_dec j (length (po_x s))) as [Hj|Hj].
    + rewrite nth_error_upd_eq in H1, H2 by lia. injection H1 as <-. injection H2 as <-. now left.
    + rewrite upd_out in H1 by lia. apply nth_error_Some_bound_index in H1 || (exfalso; apply Hj, nth_error_Some; congruence).
  - rewrite nth_error_upd_neq in H1, H2 by exact N. right. exists j. auto.
Qed.
Lemma has_set (s : pop P) i x f c : i < length (po_x s) -> i < length (po_f s) -> has (setp s i x f c) x f.
Proof. intros H1 H2. exists i. cbn. rewrite !nth_error_upd_eq by assumption. auto. Qed.
Lemma has_in (s : pop P) x f : has s x f -> In x (po_x s) /\ In f (po_f s).
Proof. intros (i & H1 & H2). split; eapply nth_error_In; eauto. Qed.
Lemma has_combine (s : pop P) x f : In (x, f) (combine (po_x s) (po_f s)) -> has s x f.
Proof.
  unfold has. generalize (po_f s). induction (po_x s) as [|y X IH]; intros F H; [destruct H|]. destruct F as [|h F]; [destruct H|]. destruct H as [H|H].
  - injection H as -> ->. exists 0. auto.
  - destruct (IH F H) as (i & H1 & H2). exists (Datatypes.S i). auto.
Qed.
Lemma in_has_f (s : pop P) f : length (po_x s) = length (po_f s) -> In f (po_f s) -> exists x, has s x f.
Proof.
  intros L H. apply In_nth_error in H. destruct H as (i & H). destruct (nth_error (po_x s) i) as [x|] eqn:E; [exists x, i; auto|].
  apply nth_error_None in E. assert (i < length (po_f s)) by (apply nth_error_Some; congruence). lia.
Qed.
End H.
Lemma fst_combine {A B} (l : list A) : forall (m : list B), length l = length m -> map fst (combine l m) = l.
Proof. induction l as [|a l IH]; intros [|b m] H; try discriminate H; [reflexivity|]. cbn. f_equal. apply IH. now injection H. Qed.

Section C.
Context {P : Type} (dexp : dbl -> dbl) (srt : sorter) (p : problem) (FD : fitness_defined p).
Notation st := (pen * pop P)%type.

(** The penalized problem knows the individuals of s0 and the points evaluated since. *)
Definition knows (s0 : pop P) (new : list (list dbl)) (s : st) : Prop :=
  snd s = with_fevals s0 (po_fevals (snd s)) /\ length (pn_cmax (fst s)) = get_nc p /\
  (forall x, In x (map fst (pn_map (fst s))) <-> In x new \/ In x (po_x s0)) /\
  (forall x f, In (x, f) (pn_map (fst s)) -> has s0 x f \/ (In x new /\ evaluated p x f)) /\
  NoDup new /\ (forall x, In x new -> length x = get_nx p /\ ~ In x (po_x s0)) /\ evals (length new) s0 (snd s).

Section R.
Context (s0 : pop P) (V : valid_pop s0) (EP : po_prob s0 = p) (EI : exn -> Prop).
Lemma lenf f : In f (po_f s0) -> length f = Datatypes.S (get_nc p) \/ p_nobj p <> 1.
Proof.
  intros H. destruct V as (PO & (_ & _ & _ & Ff & _) & _). destruct (prob_obj_facts _ PO) as (_ & _ & _ & NF). rewrite EP in *. specialize (Ff f H). unfold get_nc in *. lia.
Qed.
Context (NO : p_nobj p = 1).
Lemma nf_nc : get_nf p = Datatypes.S (get_nc p).
Proof. destruct V as (PO & _). destruct (prob_obj_facts _ PO) as (_ & _ & _ & NF). rewrite EP in *. unfold get_nc in *. lia. Qed.
Lemma prob_p : prob_obj p.
Proof. destruct V as (PO & _). now rewrite EP in PO. Qed.
Lemma known_len new s x f : knows s0 new s -> In (x, f) (pn_map (fst s)) -> length f = Datatypes.S (get_nc p).
Proof.
  intros (_ & _ & _ & K & _) H. destruct (K x f H) as [Hs|(_ & _ & L & _)]; [|rewrite L; apply nf_nc].
  apply has_in in Hs. destruct Hs as [_ Hs]. destruct (lenf f Hs); [assumption|contradiction].
Qed.
Lemma pen_fitness_ends new (s : st) x : knows s0 new s -> length x = get_nx p ->
  ends (pen_fitness dexp x) s (fun f s' => (exists v, f = [v]) /\ exists new', knows s0 new' s' /\ incl new new' /\ (In x new' \/ In x (po_x s0)) /\ (In x (po_x s0) -> s' = s)) (fitness_throws p).
Proof.
  intros K L. pose proof K as (K1 & K2 & K3 & K4 & K5 & K6 & K7). assert (EP1 : po_prob (snd s) = p) by (rewrite K1; exact EP).
  unfold pen_fitness. apply ends_bind, ends_getp. cbv zeta. rewrite EP1. rewrite L, Nat.eqb_refl. cbn [negb].
  apply ends_bind. unfold ends_w at 1. cbn [getg]. destruct (cache_find (pn_map (fst s)) x) as [f|] eqn:CF.
  - apply cache_find_some in CF. destruct (pen_value_ok p prob_p dexp (fst s) f K2 (known_len new s x f K CF)) as (v & E).
    apply ends_bind. apply ends_lift_ok with (a := v); [exact E|]. apply ends_ret. split; [eauto|]. exists new. split; [exact K|]. split; [apply incl_refl|]. split; [|auto].
    apply K3. change x with (fst (x, f)). now apply in_map.
  - apply cache_find_none in CF. apply ends_bind. apply (ends_peval p x s); [exact EP1|exact FD|exact L|auto|]. intros f EV. cbn [fst snd].
    assert (LF : length f = Datatypes.S (get_nc p)) by (destruct EV as (_ & LE & _); rewrite LE; apply nf_nc).
    destruct (pen_value_ok p prob_p dexp (fst s) f K2 LF) as (v & E). apply ends_bind. apply ends_lift_ok with (a := v); [exact E|]. apply ends_bind. unfold ends_w at 1. cbn [setg].
    assert (NN : ~ In x new /\ ~ In x (po_x s0)) by (split; intros H; apply CF, K3; auto).
    apply ends_ret. split; [eauto|]. exists (x :: new). split; [|split; [intros y; now right|split; [left; now left|intros H; destruct NN; contradiction]]].
    split; [cbn [snd]; rewrite K1; reflexivity|]. split; [exact K2|]. cbn [fst pn_map with_map cache_put map fst].
    split; [intros y; cbn [In]; rewrite K3; cbn [In]; tauto|]. split; [|split; [constructor; tauto|split; [intros y [<-|Hy]; [tauto|auto]|]]].
    + intros y h [H|H]; [injection H as <- <-; right; split; [now left|exact EV]|]. destruct (K4 y h H) as [A|[A B]]; [now left|right; split; [now right|exact B]].
    + cbn [length snd]. replace (Datatypes.S (length new)) with (length new + 1) by lia. apply evals_S, K7.
Qed.
Lemma inner_ends n t : forall known new (s : st), well_behaved n (get_nx p) EI known t -> knows s0 new s -> (forall x, In x known -> In x new \/ In x (po_x s0)) ->
  ends (inner_run dexp t) s (fun Y s' => length Y = n /\ exists new', knows s0 new' s' /\ forall y, In y Y -> In y new' \/ In y (po_x s0)) (fun e => fitness_throws p e \/ EI e).
Proof.
  induction t as [X|e|x k IH]; intros known new s WB K HK; cbn in WB; cbn [inner_run].
  - apply ends_ret. destruct WB as [L H]. split; [exact L|]. exists new. split; [exact K|]. auto.
  - apply ends_lift. now right.
  - destruct WB as [L WB]. apply ends_bind. eapply ends_weak; [exact (pen_fitness_ends new s x K L)| |intros e He; now left]. intros f s' ((v & ->) & new' & K' & IN & HX & _).
    apply (IH [v] (x :: known) new' s'); [apply WB|exact K'|]. intros y [<-|Hy]; [exact HX|]. destruct (HK y Hy); auto.
Qed.
Lemma refresh_ends new (s : st) l : knows s0 new s -> (forall i, In i l -> i < length (po_x s0)) ->
  ends (rmap (cstrs_refresh dexp (po_x s0)) l) s (fun XF s' => s' = s /\ map fst XF = map (fun i => nth i (po_x s0) []) l) (fun e => False).
Proof.
  intros K. induction l as [|i l IH]; intros Hl; cbn [rmap]; [apply ends_ret; auto|].
  assert (Hi : i < length (po_x s0)) by (apply Hl; now left). pose proof (nth_In _ [] Hi) as HN.
  apply ends_bind. unfold cstrs_refresh at 1. apply ends_bind. apply ends_lift_ok with (a := nth i (po_x s0) []); [apply vget_nth; exact Hi|].
  assert (LX : length (nth i (po_x s0) []) = get_nx p) by (destruct V as (_ & (_ & _ & Fx & _) & _); rewrite <- EP; apply Fx, HN).
  apply ends_bind. unfold ends_w at 1. pose proof (pen_fitness_ends new s _ K LX) as PF. unfold ends_w in PF at 1.
  destruct (pen_fitness dexp (nth i (po_x s0) []) s) as [[f|e| |] s'] eqn:PE; [|exfalso|destruct PF|destruct PF].
  - destruct PF as (_ & new' & _ & _ & _ & SS). rewrite (SS HN) in *. apply ends_ret. apply ends_bind. eapply ends_weak; [apply IH; intros; apply Hl; now right| |auto].
    intros XF s'' [-> E]. apply ends_ret. split; [reflexivity|]. cbn [map fst]. now rewrite E.
  - clear PF. unfold pen_fitness in PE. unfold rbind at 1 in PE. cbn [getp] in PE. assert (EP1 : po_prob (snd s) = p) by (destruct K as (K1 & _); rewrite K1; exact EP).
    rewrite EP1 in PE. rewrite LX, Nat.eqb_refl in PE. cbn [negb] in PE. unfold rbind at 1 in PE. cbn [getg] in PE.
    pose proof K as (_ & K2 & K3 & _). destruct (cache_find_ex (pn_map (fst s)) _ (proj2 (K3 _) (or_intror HN))) as (f & CF). rewrite CF in PE. apply cache_find_some in CF.
    destruct (pen_value_ok p prob_p dexp (fst s) f K2 (known_len new s _ f K CF)) as (v & E). unfold rbind, rlift in PE. rewrite E in PE. discriminate PE.
Qed.
Lemma map_nth_seq {A} (l : list A) d : map (fun i => nth i l d) (seq 0 (length l)) = l.
Proof. apply list_ext_nth with (d := d); [now rewrite map_length, seq_length|]. intros i Hi. rewrite map_length, seq_length in Hi. rewrite (nth_indep _ d (nth 0 l d)) by (rewrite map_length, seq_length; exact Hi). rewrite map_nth with (f := fun i => nth i l d) (d := 0). now rewrite seq_nth. Qed.

(** Copying back *)
Definition copied new (g : pen) (s : st) : Prop :=
  fst s = g /\ valid_pop (snd s) /\ po_prob (snd s) = p /\ po_id (snd s) = po_id s0 /\ evals (length new) s0 (snd s) /\
  forall x f, has (snd s) x f -> has s0 x f \/ (In x new /\ evaluated p x f).
Lemma back_ends new (s : st) Y : knows s0 new s -> length Y = length (po_id s0) -> (forall y, In y Y -> In y new \/ In y (po_x s0)) -> forall E,
  ends (rfold (fun (_ : unit) i => cstrs_back Y i) tt (seq 0 (length (po_id s0)))) s (fun _ s' => copied new (fst s) s') E.
Proof.
  intros K LY HY E. pose proof K as (K1 & K2 & K3 & K4 & K5 & K6 & K7).
  assert (C0 : copied new (fst s) s).
  { split; [reflexivity|]. rewrite K1. split; [exact V|]. split; [exact EP|]. split; [reflexivity|]. split; [rewrite <- K1; exact K7|]. intros x f H. left. exact H. }
  eapply (ends_seq (fun (_ : unit) i => cstrs_back Y i) (fun _ _ s' => copied new (fst s) s') E (length (po_id s0)) 0 tt s C0).
  intros i [] s' Hi (C1 & C2 & C3 & C4 & C5 & C6). unfold cstrs_back.
  destruct (vget_in_range Y i ltac:(lia)) as (y & Ey & Ny). apply ends_bind. apply ends_lift_ok with (a := y); [exact Ey|]. apply ends_bind. unfold ends_w at 1. cbn [getg]. rewrite C1.
  destruct (cache_find_ex (pn_map (fst s)) y) as (f & CF); [apply K3, HY; eapply nth_error_In; eauto|]. rewrite CF. apply cache_find_some in CF.
  assert (LY1 : length y = get_nx p).
  { destruct (HY y (nth_error_In _ _ Ny)) as [H|H]; [apply K6, H|]. destruct V as (_ & (_ & _ & Fx & _) & _). rewrite <- EP. auto. }
  apply ends_pset; [exact C2|rewrite C4; lia|now rewrite C3|rewrite C3, nf_nc; exact (known_len new s y f K CF)|]. intros c UC V'.
  split; [cbn; exact C1|]. split; [exact V'|]. split; [exact C3|]. split; [exact C4|]. split; [exact C5|].
  intros x h Hh. cbn [snd] in Hh. apply has_setp in Hh; [|destruct C2 as (_ & (A1 & A2 & _) & _); lia]. destruct Hh as [[-> ->]|Hh]; [apply K4, CF|apply C6, Hh].
Qed.
End R.

(** ** Iterations *)
Context (alg : nat -> list (list dbl) -> list (list dbl) -> itree) (EI : exn -> Prop) (NP : nat).
Context (WB : forall it X F, length X = NP -> (forall x, In x X -> length x = get_nx p) -> well_behaved NP (get_nx p) EI X (alg it X F)).
Context (NO : p_nobj p = 1) (NC : 0 < get_nc p) (POS : 0 < NP) (SC : sort_contract srt) (fs : list (list dbl)) (RK : rankable p fs).
Lemma sorted_ranked (s : pop P) : po_prob s = p -> (forall f, In f (po_f s) -> In f fs \/ exists x, evaluated p x f) -> ranked srt s.
Proof. intros EP H _. rewrite EP. split; [exact SC|]. apply RK; auto. Qed.
Lemma iter_ends (s : st) Y it : valid_pop (snd s) -> po_prob (snd s) = p -> length (po_id (snd s)) = NP -> length Y = NP -> (forall f, In f (po_f (snd s)) -> In f fs \/ exists x, evaluated p x f) ->
  ends (cstrs_iter dexp srt alg Y it) s (fun Y' s' => length Y' = NP /\ valid_pop (snd s') /\ exists new, cstrs_round new (snd s) (snd s')) (fun e => fitness_throws p e \/ EI e).
Proof.
  intros V EP LN LY HF. destruct s as [g0 s]. cbn [snd] in *. pose proof V as (PO & (L1 & L2 & Fx & Ff & _) & _).
  assert (NE : po_id s <> []) by (intros X; rewrite X in LN; cbn in LN; lia).
  destruct (best_worst srt s V ltac:(now rewrite EP) ltac:(now rewrite EP) NE (sorted_ranked s EP HF)) as (b & w & bx & bf & Eb & Ew & Hw & Nx & Nf & UB).
  unfold cstrs_iter. apply ends_bind, ends_getp. cbn [snd]. apply ends_bind. apply ends_lift_ok with (a := b); [exact Eb|].
  apply ends_bind. apply ends_lift_ok with (a := bx); [now apply vget_ok|]. apply ends_bind. apply ends_lift_ok with (a := bf); [now apply vget_ok|].
  apply ends_bind. apply ends_lift_ok with (a := w); [exact Ew|].
  assert (LFs : forall f, In f (po_f s) -> length f = Datatypes.S (get_nc (po_prob s))) by (intros f Hf; rewrite EP; destruct (lenf s V EP f Hf); [assumption|contradiction]).
  destruct (update_ok (po_prob s) PO (po_x s) (po_f s) LFs ltac:(lia)) as (g & Eg & Lg & Mg).
  apply ends_bind. apply ends_lift_ok with (a := g); [exact Eg|]. apply ends_bind. unfold ends_w at 1. cbn [setg snd].
  assert (LXF : length (po_x s) = length (po_f s)) by lia.
  assert (K0 : knows s [] (g, s)).
  { split; [destruct s; reflexivity|]. split; [cbn [fst]; rewrite Lg, EP; reflexivity|]. cbn [fst snd]. rewrite Mg. split; [|split; [|split; [constructor|split; [intros x []|apply evals_0]]]].
    - intros x. rewrite map_rev, <- in_rev, fst_combine by exact LXF. cbn. tauto.
    - intros x f H. left. apply has_combine. now apply in_rev. }
  assert (HS : forall i, In i (seq 0 (length Y)) -> i < length (po_x s)) by (intros i Hi; apply in_seq in Hi; lia).
  apply ends_bind. eapply ends_weak; [exact (refresh_ends s V EP NO [] (g, s) (seq 0 (length Y)) K0 HS)| |intros e []]. intros XF s1 [-> EX].
  replace (length Y) with (length (po_x s)) in EX by lia. rewrite map_nth_seq in EX.
  apply ends_bind. eapply ends_weak; [apply (inner_ends s V EP EI NO NP (alg it (map fst XF) (map snd XF)) (po_x s) [] (g, s)); [|exact K0|auto]| |auto].
  { rewrite EX. apply WB; [lia|]. intros x Hx. rewrite <- EP. auto. }
  intros Y' s1 (LY' & new & K & HY). apply ends_bind. eapply ends_weak; [apply (back_ends s V EP NO new s1 Y' K); [lia|exact HY]| |intros e He; exact He].
  intros [] s2 (C1 & C2 & C3 & C4 & C5 & C6). apply ends_bind.
  assert (HB : has s bx bf) by (exists b; auto). destruct (has_in s bx bf HB) as [IX IF].
  apply ends_pset; [exact C2|rewrite C4; exact Hw|rewrite C3, <- EP; now apply Fx|rewrite C3, <- EP; now apply Ff|]. intros c UC V'. apply ends_ret.
  split; [exact LY'|]. split; [exact V'|]. exists new. pose proof K as (K1 & K2 & K3 & K4 & K5 & K6 & K7). cbn [snd].
  pose proof C2 as (_ & (M1 & M2 & _) & _).
  split; [cbn; congruence|]. split; [exact C4|]. split; [exact K5|]. split; [rewrite EP; exact K6|]. split; [exact C5|]. split.
  - intros x f Hh. rewrite EP. apply has_setp in Hh; [|lia]. destruct Hh as [[-> ->]|Hh]; [now left|auto].
  - exists bx, bf. split; [exact HB|]. split; [exact UB|]. assert (M3 : length (po_id (snd s2)) = length (po_id s)) by now rewrite C4. apply has_set; lia.
Qed.
Lemma round_f new (s s' : pop P) : po_prob s = p -> length (po_x s') = length (po_f s') -> cstrs_round new s s' -> (forall f, In f (po_f s) -> In f fs \/ exists x, evaluated p x f) ->
  forall f, In f (po_f s') -> In f fs \/ exists x, evaluated p x f.
Proof.
  intros EP L (_ & _ & _ & _ & _ & H & _) HF f Hf. destruct (in_has_f s' f L Hf) as (x & Hx). destruct (H x f Hx) as [Hs|[_ EV]]; [apply HF; apply (has_in s x f Hs)|]. right. exists x. now rewrite <- EP.
Qed.
Lemma evolve_ends (s : st) iters : valid_pop (snd s) -> po_prob (snd s) = p -> length (po_id (snd s)) = NP -> 4 <= NP -> u_set_seed (p_udp p) = false -> fs = po_f (snd s) ->
  ends (cstrs_evolve dexp srt alg iters) s (fun _ s' => valid_pop (snd s') /\ cstrs_rounds (snd s) iters (snd s')) (fun e => fitness_throws p e \/ EI e).
Proof.
  intros V EP LN N4 ST EF. destruct s as [g0 s]. cbn [snd] in *. pose proof V as (PO & (L1 & L2 & Fx & Ff & _) & _).
  unfold cstrs_evolve. apply ends_bind, ends_getp. cbn [snd]. rewrite EP, NO. change (1 =? 1) with true. cbn [negb]. rewrite ST.
  destruct (Nat.eqb_spec (get_nc p) 0); [lia|]. destruct (Nat.ltb_spec (length (po_id s)) 4); [lia|].
  assert (LFs : forall f, In f (po_f s) -> length f = Datatypes.S (get_nc (po_prob s))) by (intros f Hf; rewrite EP; destruct (lenf s V EP f Hf); [assumption|contradiction]).
  destruct (update_ok (po_prob s) PO (po_x s) (po_f s) LFs ltac:(lia)) as (g & Eg & Lg & Mg). rewrite EP in Eg, Lg.
  apply ends_bind. apply ends_lift_ok with (a := g); [exact Eg|]. apply ends_bind. unfold ends_w at 1. cbn [setg snd].
  assert (LXF : length (po_x s) = length (po_f s)) by lia.
  assert (K0 : knows s [] (g, s)).
  { split; [destruct s; reflexivity|]. split; [cbn [fst]; exact Lg|]. cbn [fst snd]. rewrite Mg. split; [|split; [|split; [constructor|split; [intros x []|apply evals_0]]]].
    - intros x. rewrite map_rev, <- in_rev, fst_combine by exact LXF. cbn. tauto.
    - intros x f Hc. left. apply has_combine. now apply in_rev. }
  assert (HS : forall i, In i (seq 0 (length (po_id s))) -> i < length (po_x s)) by (intros i Hi; apply in_seq in Hi; lia).
  apply ends_bind. eapply ends_weak; [exact (refresh_ends s V EP NO [] (g, s) (seq 0 (length (po_id s))) K0 HS)| |intros e []]. intros XF s1 [-> _].
  apply ends_bind.
  eapply ends_weak; [apply (ends_seq (cstrs_iter dexp srt alg) (fun k Y s' => length Y = NP /\ valid_pop (snd s') /\ po_prob (snd s') = p /\ length (po_id (snd s')) = NP /\
    (forall f, In f (po_f (snd s')) -> In f fs \/ exists x, evaluated p x f) /\ cstrs_rounds s (k - 1) (snd s')) (fun e => fitness_throws p e \/ EI e) iters 1)| |auto].
  - cbn [snd]. split; [lia|]. split; [exact V|]. split; [exact EP|]. split; [exact LN|]. split; [intros f Hf; left; now rewrite EF|]. apply rounds_none.
  - intros k Y s' Hk (A1 & A2 & A3 & A4 & A5 & A6). eapply ends_weak; [exact (iter_ends s' Y k A2 A3 A4 A1 A5)| |auto]. intros Y' s2 (B1 & B2 & new & B3).
    split; [exact B1|]. split; [exact B2|]. pose proof B3 as (E1 & E2 & _). split; [congruence|]. split; [congruence|].
    split; [apply (round_f new (snd s') (snd s2)); [exact A3|destruct B2 as (_ & (M1 & M2 & _) & _); lia|exact B3|exact A5]|].
    replace (k + 1 - 1) with (Datatypes.S (k - 1)) by lia. eapply rounds_more; [exact A6|exact A2|exact B3].
  - intros Y s' (_ & A2 & _ & _ & _ & A6). apply ends_ret. split; [exact A2|]. replace (1 + iters - 1) with iters in A6 by lia. exact A6.
Qed.
End C.
