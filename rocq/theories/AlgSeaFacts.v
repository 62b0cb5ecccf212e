From Coq Require Import List Bool Arith ZArith Lia.
From Verif Require Import Dbl DblFacts IntDbl Outcome BaseFacts StdSort Problem SpecProblem ProblemFacts Rng Generic SpecGeneric GenericFacts3 SpecGenetic RmFacts
  GeneticOps GeneticFacts Population SpecPopulation PopulationFacts PopulationFacts3 Algo SpecAlgo AlgoFacts AlgoFacts2 AlgSea.
Import ListNotations.

Section S.
Context {G P : Type} (r : rng G) (RC : rng_contract r) (srt : sorter) (reseed : problem -> Z -> problem).

(** ** The mutation: components are kept or drawn between the bounds *)
Lemma sea_pass_ok p x st : prob_obj p -> length x = get_nx p -> mutated (p_lb p) (p_ub p) x (fst st) ->
  always (sea_pass r (get_nx p) (p_lb p) (p_ub p) st) (fun st' => mutated (p_lb p) (p_ub p) x (fst st') /\ snd st <= snd st') (fun e => e = InvalidArgument /\ ~ drawable p).
Proof.
  intros PO L M. unfold sea_pass. apply always_fold with (I := fun st' => mutated (p_lb p) (p_ub p) x (fst st') /\ snd st <= snd st'); [|split; [exact M|lia]].
  intros [y m] j Hj ([Ly My] & Lm). cbn [fst snd] in *. apply in_seq in Hj. destruct (prob_obj_lens p PO) as [L1 L2].
  eapply always_bind; [apply (draw01_any r RC)|]. intros u _. destruct (dlt _ _); [|apply always_ret; repeat split; assumption].
  destruct (nth_ex (p_lb p) j ltac:(lia)) as (l & El). destruct (nth_ex (p_ub p) j ltac:(lia)) as (h & Eh).
  eapply always_bind; [apply (always_vget _ _ l (fun v => v = l)); auto|]. intros ? ->. eapply always_bind; [apply (always_vget _ _ h (fun v => v = h)); auto|]. intros ? ->.
  eapply always_bind.
  { eapply always_weak; [apply (urr_ok r RC l h); exact (prob_obj_ord p PO j l h El Eh)|intros v Hv; exact Hv|]. intros e (-> & N). split; [reflexivity|]. intros D. apply N. eapply D; eauto. }
  intros v Wv. eapply always_bind; [apply (always_vset _ _ v (fun z => z = upd y j v)); [lia|reflexivity]|]. intros z ->. apply always_ret. cbn [fst snd].
  split; [|lia]. split; [rewrite upd_len; exact Ly|]. intros i l' u' a b A B C D. destruct (Nat.eq_dec i j) as [->|N].
  - rewrite upd_same in D by lia. right. replace b with v by congruence. replace l' with l by congruence. replace u' with h by congruence. exact Wv.
  - rewrite upd_other in D by exact N. eapply My; eauto.
Qed.
Lemma sea_mutate_ok p x fuel : prob_obj p -> length x = get_nx p -> forall st g, mutated (p_lb p) (p_ub p) x (fst st) ->
  ends_if_fuel (sea_mutate r fuel (get_nx p) (p_lb p) (p_ub p) st) g (fun y _ => mutated (p_lb p) (p_ub p) x y) (fun e => e = InvalidArgument /\ ~ drawable p).
Proof.
  intros PO L. induction fuel as [|fuel IH]; intros st g M; cbn [sea_mutate]; destruct (Nat.eqb (snd st) 0); try (apply ends_ret; exact M).
  - apply ends_lift. exact I.
  - apply ends_bind. eapply ends_always; [apply sea_pass_ok; eauto|]. intros st' g' [M' _]. cbv beta. now apply IH.
Qed.
Lemma mutated_refl lb ub x : mutated lb ub x x.
Proof. split; [reflexivity|]. intros i l u a b _ _ A B. left. congruence. Qed.
Lemma mutated_box lb ub x y : in_box lb ub x -> mutated lb ub x y -> in_box lb ub y.
Proof.
  intros (B1 & B2 & B3) (L & M). split; [congruence|]. split; [congruence|]. intros i l u b A B C.
  destruct (nth_ex x i) as (a & Ea); [rewrite <- L; apply nth_error_Some; congruence|]. destruct (M i l u a b A B Ea C) as [->|W]; [eapply B3; eauto|exact W].
Qed.
Lemma in_run_replaced {R : list dbl -> list dbl -> list dbl -> list dbl -> Prop} (s s' : pop P) (Q : list dbl -> Prop) : length (po_x s) = length (po_f s) -> replaced R s s' -> (forall x f x' f', R x f x' f' -> Q x') -> (forall x, In x (po_x s) -> Q x) -> forall x, In x (po_x s') -> Q x.
Proof.
  intros L (A1 & A2 & A3 & A4 & A5) RQ H x Hx. apply In_nth_error in Hx. destruct Hx as (i & Hi). assert (i < length (po_x s')) by (apply nth_error_Some; congruence).
  destruct (nth_ex (po_x s) i ltac:(lia)) as (x0 & E0). destruct (nth_ex (po_f s) i ltac:(lia)) as (f0 & E1). destruct (nth_ex (po_f s') i ltac:(lia)) as (f1 & E2).
  destruct (A5 i x0 f0 x f1 E0 E1 Hi E2) as [[-> _]|C]; [apply H; eapply nth_error_In; eauto|eapply RQ; eauto].
Qed.

(** ** The offspring *)
Lemma sea_offspring_ok fuel st (s : G * pop P) p : po_prob (snd s) = p -> valid_pop (snd s) -> get_nc p = 0 -> get_nf p = 1 -> fitness_defined p -> boxed (snd s) ->
  fst st < length (po_id (snd s)) -> snd st < length (po_id (snd s)) ->
  ends_if_fuel (sea_offspring r srt fuel st) s
    (fun st' s' => valid_pop (snd s') /\ replaced (better_point p (in_box (p_lb p) (p_ub p))) (snd s) (snd s') /\ evals 1 (snd s) (snd s') /\
       fst st' < length (po_id (snd s')) /\ snd st' < length (po_id (snd s')) /\
       (worst_idx srt (snd s) = Ok (snd st) -> worst_idx srt (snd s') = Ok (snd st')) /\ (best_at (snd s) (fst st) -> best_at (snd s') (fst st')))
    (fails p).
Proof.
  intros EP V NC NF FD BX Hb Hw. unfold sea_offspring. pose proof V as (PO & (S1 & S2 & Fx & Ff & _) & _).
  apply ends_bind, ends_getp. cbv zeta. destruct (vget_in_range (po_x (snd s)) (fst st) ltac:(lia)) as (x & Ex & Nx). apply ends_bind. eapply ends_lift_ok; [exact Ex|].
  assert (Lx : length x = get_nx (po_prob (snd s))) by (apply Fx; eapply nth_error_In; eauto).
  apply ends_bind, ends_eng_w. eapply ends_weak; [apply (sea_mutate_ok (po_prob (snd s)) x fuel PO Lx (x, 0)); apply mutated_refl| |intros e He; right; rewrite <- EP; exact He].
  intros y g M. cbv beta. assert (BY : in_box (p_lb p) (p_ub p) y) by (rewrite <- EP; eapply mutated_box; [|exact M]; apply BX; eapply nth_error_In; eauto).
  assert (Ly : length y = get_nx p) by (destruct M as [M _]; congruence).
  apply ends_bind. apply (ends_peval p); auto; [intros e He; now left|]. intros f EV. cbn [fst snd]. pose proof EV as (_ & Lf & _). rewrite NF in Lf.
  destruct (vget_in_range (po_f (snd s)) (snd st) ltac:(lia)) as (fw & Efw & Nfw). assert (Lfw : length fw = 1) by (rewrite <- NF, <- EP; apply Ff; eapply nth_error_In; eauto).
  apply ends_bind. eapply ends_lift_ok; [exact Efw|]. apply ends_bind. eapply ends_lift_ok; [apply obj_vget; exact Lfw|]. apply ends_bind. eapply ends_lift_ok; [apply obj_vget; exact Lf|].
  assert (FE : evals 1 (snd s) (with_fevals (snd s) (wrap64 (po_fevals (snd s) + 1)))) by (apply (evals_S 0), evals_0).
  destruct (dge (dsub (obj fw) (obj f)) dzero) eqn:D.
  - pose proof (dge_sub _ _ D) as D'. apply ends_bind. apply ends_pset; cbn [snd fst with_fevals po_id po_prob]; [apply valid_fevals; exact V|exact Hw|congruence|congruence|].
    intros c _ V'. set (s1 := setp _ _ _ _ _) in *. apply ends_bind, ends_getp. cbn [snd fst].
    assert (LI : length (po_id s1) = length (po_id (snd s))) by reflexivity. assert (LF : length (po_f s1) = length (po_f (snd s))) by (cbn; now rewrite upd_len).
    destruct (vget_in_range (po_f s1) (fst st) ltac:(lia)) as (fb & Efb & Nfb). assert (Lfb : length fb = 1) by (rewrite <- NF, <- EP; apply V'; eapply nth_error_In; eauto).
    apply ends_bind. eapply ends_lift_ok; [exact Efb|]. apply ends_bind. eapply ends_lift_ok; [apply obj_vget; exact Lfb|].
    assert (NO : p_nobj (po_prob s1) = 1). { change (po_prob s1) with (po_prob (snd s)). rewrite EP. rewrite EP in PO. destruct (prob_obj_facts p PO) as (_ & _ & _ & X). lia. }
    destruct (worst_idx_lt srt s1 NO ltac:(change (po_prob s1) with (po_prob (snd s)); congruence) (proj1 (proj2 V'))) as (w & Ew & Hw'); [intros X; rewrite X in LI; cbn in LI; lia|].
    apply ends_bind. eapply ends_lift_ok; [exact Ew|]. apply ends_ret. cbn [snd fst].
    split; [exact V'|]. split.
    { apply replaced_set; [apply replaced_fevals, replaced_refl|exact S2|]. intros x0 f0 A B. split; [exact EV|]. split; [exact BY|]. replace f0 with fw by congruence. exact D'. }
    split; [exact FE|]. split; [destruct (dge (dsub (obj fb) (obj f)) dzero); [exact Hw|exact Hb]|]. split; [exact Hw'|]. split; [intros _; exact Ew|].
    intros (fb0 & A & B). assert (B' : dle (obj fb0) (obj fw) = true) by (eapply B; eauto).
    assert (PF : forall j fj, nth_error (po_f s1) j = Some fj -> (j = snd st /\ fj = f) \/ nth_error (po_f (snd s)) j = Some fj).
    { intros j fj Hj. cbn [s1 setp po_f with_fevals] in Hj. destruct (Nat.eq_dec j (snd st)) as [->|N]; [left; rewrite upd_same in Hj by lia; split; congruence|right; rewrite upd_other in Hj by exact N; exact Hj]. }
    assert (NW : nth_error (po_f s1) (snd st) = Some f) by (cbn [s1 setp po_f with_fevals]; apply upd_same; lia).
    destruct (dge (dsub (obj fb) (obj f)) dzero) eqn:D2.
    + pose proof (dge_sub _ _ D2) as D2'. exists f. split; [exact NW|]. intros j fj Hj. destruct (PF j fj Hj) as [[_ ->]|Hj']; [apply dle_refl; exact (proj1 (dle_not_nan _ _ D'))|].
      destruct (PF (fst st) fb Nfb) as [[E1 _]|Nfb'].
      * assert (fb0 = fw) by (rewrite E1 in A; congruence). subst fb0. eapply dle_trans; [exact D'|eapply B; eauto].
      * assert (fb0 = fb) by congruence. subst fb0. eapply dle_trans; [exact D2'|eapply B; eauto].
    + exists fb. split; [exact Nfb|]. destruct (PF (fst st) fb Nfb) as [[E1 ->]|Nfb'].
      * (* the replaced one was the best: only possible when the new value is infinite *)
        assert (fb0 = fw) by (rewrite E1 in A; congruence). subst fb0. intros j fj Hj. destruct (PF j fj Hj) as [[_ ->]|Hj']; [apply dle_refl; exact (proj1 (dle_not_nan _ _ D'))|]. eapply dle_trans; [exact D'|eapply B; eauto].
      * assert (fb0 = fb) by congruence. subst fb0. intros j fj Hj. destruct (PF j fj Hj) as [[_ ->]|Hj']; [|eapply B; eauto].
        destruct (obj fb) as [| |zb|] eqn:EB; [discriminate B'|destruct (obj f); try reflexivity; discriminate D'| |].
        -- destruct (dle (obj f) (Fin zb)) eqn:C; [rewrite (dsub_ge _ _ zb eq_refl C) in D2; discriminate|]. destruct (obj f) as [| |zf|]; try discriminate C; try discriminate D'; [|reflexivity].
           apply dle_fin. assert (~ (zf <= zb)%Z) by (rewrite <- dle_fin; congruence). lia.
        -- destruct (obj fw) as [| |zw|]; try discriminate B'. destruct (obj f) as [| |zf|]; try discriminate D2; try reflexivity; try discriminate D'.
  - apply ends_ret. cbn [snd fst with_fevals po_id]. split; [apply valid_fevals; exact V|]. split; [apply replaced_fevals, replaced_refl|]. split; [exact FE|]. split; [exact Hb|]. split; [exact Hw|]. split; [auto|auto].
Qed.

(** ** Deterministic problems *)
Lemma sea_evolve_ok gen fuel (s : G * pop P) p : po_prob (snd s) = p -> valid_pop (snd s) -> plain_single p -> fitness_defined p -> boxed (snd s) -> 0 < length (po_id (snd s)) ->
  ends_if_fuel (sea_evolve r srt reseed gen fuel) s
    (fun _ s' => valid_pop (snd s') /\ replaced (better_point p (in_box (p_lb p) (p_ub p))) (snd s) (snd s') /\ evals gen (snd s) (snd s')) (fails p).
Proof.
  intros EP V (NC & NF & NS) FD BX HN. unfold sea_evolve. apply ends_bind, ends_getp. cbv zeta. rewrite EP, NC, NF. cbn [Nat.eqb negb].
  destruct (Nat.eqb_spec gen 0) as [->|_]; [apply ends_ret; split; [exact V|]; split; [apply replaced_refl|apply evals_0]|].
  destruct (Nat.eqb_spec (length (po_id (snd s))) 0); [lia|]. pose proof V as (PO & (S1 & S2 & Fx & Ff & _) & _).
  assert (NO : p_nobj (po_prob (snd s)) = 1). { rewrite EP. rewrite EP in PO. destruct (prob_obj_facts p PO) as (_ & _ & _ & X). lia. }
  assert (NE : po_id (snd s) <> []) by (intros X; rewrite X in HN; cbn in HN; lia).
  destruct (best_idx_lt srt (snd s) NO ltac:(congruence) (proj1 (proj2 V)) NE) as (b & Eb & Hb). destruct (worst_idx_lt srt (snd s) NO ltac:(congruence) (proj1 (proj2 V)) NE) as (w & Ew & Hw).
  apply ends_bind. eapply ends_lift_ok; [exact Eb|]. apply ends_bind. eapply ends_lift_ok; [exact Ew|]. apply ends_bind.
  eapply ends_weak with (E := fails p); [|intros st s' H; apply ends_ret; exact H|auto].
  eapply ends_weak with (Q := fun st s' => (valid_pop (snd s') /\ replaced (better_point p (in_box (p_lb p) (p_ub p))) (snd s) (snd s') /\ evals (0 + gen) (snd s) (snd s')) /\ fst st < length (po_id (snd s)) /\ snd st < length (po_id (snd s))) (E := fails p);
    [|intros st s' [H _]; exact H|auto].
  apply (ends_seq _ (fun i st s' => (valid_pop (snd s') /\ replaced (better_point p (in_box (p_lb p) (p_ub p))) (snd s) (snd s') /\ evals i (snd s) (snd s')) /\ fst st < length (po_id (snd s)) /\ snd st < length (po_id (snd s))) (fails p) gen 0).
  { split; [split; [exact V|]; split; [apply replaced_refl|apply evals_0]|auto]. }
  intros i st s1 _ ((V1 & R1 & E1) & B1 & B2). unfold sea_gen, sea_reseed. pose proof R1 as (Q1 & Q2 & _). apply ends_bind, ends_bind, ends_getp. rewrite Q1, EP, NS. apply ends_ret.
  eapply ends_weak; [apply (sea_offspring_ok fuel st s1 p); auto; [congruence| |congruence|congruence]| |auto].
  - intros x Hx. rewrite Q1, EP. eapply (in_run_replaced (snd s) (snd s1)); [exact S2|exact R1|intros ? ? ? ? (_ & H & _); exact H| |exact Hx]. intros x0 H0. rewrite <- EP. now apply BX.
  - intros st' s' (V' & R' & E' & A1 & A2 & _). cbv beta. pose proof R' as (_ & Q3 & _). split; [split; [exact V'|]; split|split; congruence].
    + eapply replaced_trans; [exact S2| |exact R1|exact R']. apply better_trans.
    + eapply evals_trans; eauto.
Qed.
Lemma sea_rejects gen fuel (s : G * pop P) : get_nc (po_prob (snd s)) <> 0 \/ get_nf (po_prob (snd s)) <> 1 \/ (0 < gen /\ po_id (snd s) = []) -> sea_evolve r srt reseed gen fuel s = (Throw InvalidArgument, s).
Proof.
  intros H. unfold sea_evolve, rbind, getp. cbv beta iota zeta. destruct (Nat.eqb_spec (get_nc (po_prob (snd s))) 0) as [E1|E1]; cbn [negb]; [|reflexivity].
  destruct (Nat.eqb_spec (get_nf (po_prob (snd s))) 1) as [E2|E2]; cbn [negb]; [|reflexivity]. destruct H as [H|[H|[H1 H2]]]; [contradiction|contradiction|].
  destruct (Nat.eqb_spec gen 0); [lia|]. rewrite H2. reflexivity.
Qed.

(** ** The loop ends with the first small draw *)
Fixpoint after_draws (n : nat) (g : G) : G := match n with 0 => g | S n' => after_draws n' (snd (g_real r dzero done g)) end.
Lemma draw01_eq g : draw01 r g = (Ok (fst (g_real r dzero done g)), snd (g_real r dzero done g)).
Proof. unfold draw01, draw_real. rewrite (eq_refl : (isfinite dzero && isfinite done && dle dzero done && isfinite (dsub done dzero))%bool = true). unfold rdraw. destruct (g_real r dzero done g). reflexivity. Qed.
Lemma pass_mono dim lb ub l : forall st g st' g', rfold (fun (st : list dbl * nat) j =>
    rbind (draw01 r) (fun u => if dlt u (ddiv done (d_of_Z (Z.of_nat dim))) then
      rbind (rlift (vget lb j)) (fun l => rbind (rlift (vget ub j)) (fun h => rbind (uniform_real_from_range r l h) (fun v => rbind (rlift (vset (fst st) j v)) (fun x =>
      rret (x, S (snd st)))))) else rret st)) st l g = (Ok st', g') ->
  snd st <= snd st' /\ (snd st' = 0 -> draws_large r (ddiv done (d_of_Z (Z.of_nat dim))) (length l) g /\ g' = after_draws (length l) g).
Proof.
  set (thr := ddiv done (d_of_Z (Z.of_nat dim))). induction l as [|j l IH]; intros st g st' g' H; cbn [rfold length] in H |- *.
  - inversion H; subst. split; [lia|]. intros _. split; [exact I|reflexivity].
  - unfold rbind at 1 2 in H. rewrite draw01_eq in H. cbn [draws_large after_draws]. set (u := fst (g_real r dzero done g)) in *. set (g1 := snd (g_real r dzero done g)) in *.
    destruct (dlt u thr) eqn:D.
    + match type of H with (let (o, g') := ?m in _) = _ => destruct m as [[st1|e| |] g2] eqn:E end; try discriminate H.
      assert (S1 : snd st1 = S (snd st)).
      { unfold rbind, rlift in E. destruct (vget lb j); try discriminate E. destruct (vget ub j); try discriminate E. destruct (uniform_real_from_range r _ _ g1) as [[v|e| |] g3]; try discriminate E.
        destruct (vset (fst st) j v); try discriminate E. inversion E. reflexivity. }
      destruct (IH st1 g2 st' g' H) as [L _]. split; [lia|]. lia.
    + unfold rret at 1 in H. destruct (IH st g1 st' g' H) as [L K]. split; [exact L|]. intros Z. destruct (K Z) as [K1 K2]. auto.
Qed.
Lemma draws_large_app thr n m g : draws_large r thr n g -> draws_large r thr m (after_draws n g) -> draws_large r thr (n + m) g.
Proof. revert g. induction n as [|n IH]; intros g H K; cbn [draws_large after_draws Nat.add] in *; [exact K|]. destruct H as [H1 H2]. auto. Qed.
Lemma sea_mutate_fuel p x fuel : prob_obj p -> length x = get_nx p -> forall y g, mutated (p_lb p) (p_ub p) x y ->
  fst (sea_mutate r fuel (get_nx p) (p_lb p) (p_ub p) (y, 0) g) = NoFuel -> draws_large r (ddiv done (d_of_Z (Z.of_nat (get_nx p)))) (fuel * get_nx p) g.
Proof.
  intros PO L. induction fuel as [|fuel IH]; intros y g M H; cbn [sea_mutate snd Nat.eqb Nat.mul] in *; [exact I|].
  unfold rbind in H. destruct (sea_pass r (get_nx p) (p_lb p) (p_ub p) (y, 0) g) as [[st'|e| |] g'] eqn:E.
  - pose proof (sea_pass_ok p x (y, 0) PO L M g) as A. rewrite E in A. cbn [fst] in A. destruct A as [M' _].
    unfold sea_pass in E. apply pass_mono in E. destruct E as [_ K]. rewrite seq_length in K.
    destruct st' as [y' [|m]]; [|destruct fuel; cbn [sea_mutate snd Nat.eqb] in H; discriminate H]. destruct (K eq_refl) as [K1 K2]. subst g'. apply draws_large_app; [exact K1|]. apply (IH y'); assumption.
  - discriminate H.
  - discriminate H.
  - pose proof (sea_pass_ok p x (y, 0) PO L M g) as A. rewrite E in A. cbn [fst] in A. contradiction.
Qed.

(** ** Stochastic problems *)
Lemma reeval_ok {W : Prop} (s : G * pop P) q : po_prob (snd s) = q -> valid_pop (snd s) -> fitness_defined q ->
  ends_w W (rfold (fun _ j => rbind getp (fun t => rbind (rlift (vget (po_x t) j)) (fun x => rbind (peval x) (fun f => pset j x f)))) tt (seq 0 (length (po_id (snd s))))) s
    (fun _ s' => valid_pop (snd s') /\ po_prob (snd s') = q /\ po_id (snd s') = po_id (snd s) /\ po_x (snd s') = po_x (snd s) /\ evals (length (po_id (snd s))) (snd s) (snd s') /\
       forall j x f, nth_error (po_x (snd s')) j = Some x -> nth_error (po_f (snd s')) j = Some f -> evaluated q x f) (fitness_throws q).
Proof.
  intros EP V FD. pose proof V as (_ & (S1 & S2 & Fx & Ff & _) & _).
  eapply ends_weak.
  - apply (ends_seq _ (fun i (_ : unit) s' => valid_pop (snd s') /\ po_prob (snd s') = q /\ po_id (snd s') = po_id (snd s) /\ po_x (snd s') = po_x (snd s) /\ evals i (snd s) (snd s') /\
       forall j x f, j < i -> nth_error (po_x (snd s')) j = Some x -> nth_error (po_f (snd s')) j = Some f -> evaluated q x f) (fitness_throws q) (length (po_id (snd s))) 0).
    + split; [exact V|]. split; [exact EP|]. split; [reflexivity|]. split; [reflexivity|]. split; [apply evals_0|]. intros; lia.
    + intros i [] s1 Hi (V1 & P1 & I1 & X1 & E1 & H1). apply ends_bind, ends_getp. destruct (vget_in_range (po_x (snd s1)) i) as (x & Ex & Nx); [rewrite X1; lia|].
      apply ends_bind. eapply ends_lift_ok; [exact Ex|]. assert (Lx : length x = get_nx q) by (rewrite <- P1; apply V1; eapply nth_error_In; eauto).
      apply ends_bind. apply (ends_peval q); auto. intros f EV. cbn [fst snd]. pose proof EV as (_ & Lf & _).
      apply ends_pset; cbn [snd fst with_fevals po_id po_prob]; [apply valid_fevals; exact V1|rewrite I1; lia|congruence|congruence|].
      intros c _ V'. cbn [snd fst]. pose proof V1 as (_ & (T1 & T2 & _) & _).
      split; [exact V'|]. split; [exact P1|]. split; [exact I1|]. split.
      { cbn [setp po_x with_fevals]. rewrite <- X1. clear - Nx. revert i Nx. induction (po_x (snd s1)) as [|a l IH]; intros [|i] Nx; cbn in *; try discriminate; [congruence|]. f_equal. now apply IH. }
      split; [replace (i + 1) with (i + 1) by lia; apply (evals_S i); exact E1|].
      intros j y f' Hj A B. cbn [setp po_x po_f with_fevals] in A, B. destruct (Nat.eq_dec j i) as [->|N].
      * rewrite upd_same in A by (rewrite X1; lia). rewrite upd_same in B by (rewrite <- T2, X1; lia). congruence.
      * rewrite upd_other in A by exact N. rewrite upd_other in B by exact N. apply (H1 j); [lia|exact A|exact B].
  - intros [] s' (V' & P' & I' & X' & E' & H'). rewrite Nat.add_0_l in *. split; [exact V'|]. split; [exact P'|]. split; [exact I'|]. split; [exact X'|]. split; [exact E'|].
    intros j x f A B. apply (H' j); auto. rewrite <- S1 in *. assert (j < length (po_x (snd s'))) by (apply nth_error_Some; congruence). rewrite X' in H. lia.
  - auto.
Qed.
Lemma sea_stochastic_ok gen fuel (s : G * pop P) p : po_prob (snd s) = p -> valid_pop (snd s) -> stays_fine reseed p -> boxed (snd s) -> 0 < length (po_id (snd s)) -> 0 < gen ->
  ends_if_fuel (sea_evolve r srt reseed gen fuel) s
    (fun _ s' => valid_pop (snd s') /\ (exists ks, length ks = gen /\ po_prob (snd s') = fold_left reseed ks p) /\ po_id (snd s') = po_id (snd s) /\ boxed (snd s') /\
       evals (gen * (length (po_id (snd s)) + 1)) (snd s) (snd s') /\
       forall j x f, nth_error (po_x (snd s')) j = Some x -> nth_error (po_f (snd s')) j = Some f -> evaluated (po_prob (snd s')) x f)
    (fun e => exists ks, fails (fold_left reseed ks p) e).
Proof.
  intros EP V SF BX HN HG. pose proof (SF []) as (PO & _ & _ & NC & NF & NO & _). cbn [fold_left] in *. unfold sea_evolve. apply ends_bind, ends_getp. cbv zeta. rewrite EP, NC, NF. cbn [Nat.eqb negb].
  destruct (Nat.eqb_spec gen 0) as [->|_]; [lia|]. destruct (Nat.eqb_spec (length (po_id (snd s))) 0); [lia|]. 
  assert (NE : po_id (snd s) <> []) by (intros X; rewrite X in HN; cbn in HN; lia).
  destruct (best_idx_lt srt (snd s) ltac:(congruence) ltac:(congruence) (proj1 (proj2 V)) NE) as (b & Eb & Hb). destruct (worst_idx_lt srt (snd s) ltac:(congruence) ltac:(congruence) (proj1 (proj2 V)) NE) as (w & Ew & Hw).
  apply ends_bind. eapply ends_lift_ok; [exact Eb|]. apply ends_bind. eapply ends_lift_ok; [exact Ew|]. apply ends_bind.
  set (E := fun e => exists ks, fails (fold_left reseed ks p) e).
  set (J := fun i (st : nat * nat) (s' : G * pop P) => valid_pop (snd s') /\ (exists ks, length ks = i /\ po_prob (snd s') = fold_left reseed ks p) /\ po_id (snd s') = po_id (snd s) /\ boxed (snd s') /\
       evals (i * (length (po_id (snd s)) + 1)) (snd s) (snd s') /\ (0 < i -> forall j x f, nth_error (po_x (snd s')) j = Some x -> nth_error (po_f (snd s')) j = Some f -> evaluated (po_prob (snd s')) x f) /\
       fst st < length (po_id (snd s)) /\ snd st < length (po_id (snd s))).
  eapply ends_weak with (E := E) (Q := J (0 + gen)); [|intros st s' (A1 & A2 & A3 & A4 & A5 & A6 & _); apply ends_ret; split; [exact A1|]; split; [exact A2|]; split; [exact A3|]; split; [exact A4|]; split; [exact A5|]; apply A6; exact HG|auto].
  apply (ends_seq _ J E gen 0).
  { split; [exact V|]. split; [exists []; split; [reflexivity|exact EP]|]. split; [reflexivity|]. split; [exact BX|]. split; [apply evals_0|]. split; [intros; lia|auto]. }
  intros i st s1 _ (V1 & (ks & LK & P1) & I1 & B1 & E1 & _ & F1 & F2). unfold sea_gen, sea_reseed.
  pose proof (SF ks) as SFk. cbv zeta in SFk. rewrite <- P1 in SFk. destruct SFk as (PO1 & LB1 & UB1 & NC1 & NF1 & NO1 & ST1 & FD1).
  apply ends_bind, ends_bind, ends_getp. rewrite ST1. apply ends_bind. eapply ends_eng; [apply (draw_int_ok r RC 0 (2 ^ 32 - 1)); lia|]. intros k g _. cbv beta.
  set (q := reseed (po_prob (snd s1)) k). assert (EQ : q = fold_left reseed (ks ++ [k]) p) by (rewrite fold_left_app; cbn [fold_left]; unfold q; now rewrite P1).
  pose proof (SF (ks ++ [k])) as SFk. cbv zeta in SFk. rewrite <- EQ in SFk. destruct SFk as (PO2 & LB2 & UB2 & NC2 & NF2 & NO2 & ST2 & FD2).
  apply ends_bind. unfold set_problem at 1, ends_w at 1. cbn [fst snd]. set (s2 := {| po_prob := q |}).
  assert (NX : get_nx q = get_nx (po_prob (snd s1))) by (unfold get_nx; congruence).
  assert (V2 : valid_pop s2).
  { destruct V1 as (_ & (T1 & T2 & T3 & T4 & T5) & CS). split; [exact PO2|]. split.
    - split; [exact T1|]. split; [exact T2|]. cbn [s2 po_prob po_x po_f po_id]. split; [rewrite NX; exact T3|]. split; [rewrite NF2; rewrite <- NF1; exact T4|exact T5].
    - unfold champion_shape in *. cbn [s2 po_prob po_cx po_cf]. rewrite NX, NF2. rewrite NF1 in CS. exact CS. }
  change (length (po_id (snd s1))) with (length (po_id (snd (g, s2)))).
  eapply ends_weak; [apply (reeval_ok (g, s2) q eq_refl V2 FD2)| |intros e He; exists (ks ++ [k]); left; rewrite <- EQ; exact He].
  intros [] s3 (V3 & P3 & I3 & X3 & E3 & H3). cbv beta. cbn [snd] in *. change (po_id s2) with (po_id (snd s1)) in *. change (po_x s2) with (po_x (snd s1)) in *.
  eapply ends_weak; [apply (sea_offspring_ok fuel st s3 q); auto; [|congruence|congruence]| |intros e He; exists (ks ++ [k]); rewrite <- EQ; exact He].
  { intros x Hx. rewrite X3 in Hx. rewrite P3, LB2, UB2, <- LB1, <- UB1. apply B1. exact Hx. }
  intros st' s' (V' & R' & E' & A1 & A2 & _). pose proof R' as (Q1 & Q2 & Q3 & Q4 & Q5). pose proof V3 as (_ & (T1 & T2 & _) & _). split; [exact V'|].
  split; [exists (ks ++ [k]); split; [rewrite app_length; cbn; lia|congruence]|]. split; [congruence|]. split.
  { intros x Hx. rewrite Q1, P3. eapply (in_run_replaced (snd s3) (snd s')); [exact T2|exact R'|intros ? ? ? ? (_ & H & _); exact H| |exact Hx]. intros x0 H0. rewrite LB2, UB2, <- LB1, <- UB1. apply B1. rewrite <- X3. exact H0. }
  split; [|split; [|split; congruence]].
  - replace ((i + 1) * (length (po_id (snd s)) + 1)) with (i * (length (po_id (snd s)) + 1) + (length (po_id (snd s)) + 1)) by lia. eapply evals_trans; [exact E1|].
    rewrite <- I1. eapply evals_trans; [exact E3|exact E'].
  - intros _ j x f A B. rewrite Q1, P3. assert (j < length (po_x (snd s'))) by (apply nth_error_Some; congruence).
    destruct (nth_ex (po_x (snd s3)) j ltac:(lia)) as (x0 & N1). destruct (nth_ex (po_f (snd s3)) j ltac:(lia)) as (f0 & N2). destruct (Q5 j x0 f0 x f N1 N2 A B) as [[-> ->]|(HE & _)]; [|exact HE]. eapply H3; eauto.
Qed.
End S.
Lemma sea_mutation G (r : rng G) : rng_contract r -> forall p x fuel, prob_obj p -> length x = get_nx p -> forall g,
  ends_if_fuel (sea_mutate r fuel (get_nx p) (p_lb p) (p_ub p) (x, 0)) g (fun y _ => mutated (p_lb p) (p_ub p) x y) (fun e => e = InvalidArgument /\ ~ drawable p).
Proof. intros RC p x fuel PO L g. apply sea_mutate_ok; auto. apply mutated_refl. Qed.
Lemma sea_mutation_ends G (r : rng G) : rng_contract r -> forall p x fuel, prob_obj p -> length x = get_nx p -> forall g,
  fst (sea_mutate r fuel (get_nx p) (p_lb p) (p_ub p) (x, 0) g) = NoFuel -> draws_large r (ddiv done (d_of_Z (Z.of_nat (get_nx p)))) (fuel * get_nx p) g.
Proof. intros RC p x fuel PO L g. apply (sea_mutate_fuel r RC p x); auto. apply mutated_refl. Qed.
