From Coq Require Import List Bool Arith ZArith Lia Permutation.
From Verif Require Import AlgDeFacts Dbl DblFacts IntDbl Outcome BaseFacts Compare SpecOrder CompareFacts StdSort Problem SpecProblem ProblemFacts Rng Generic SpecGeneric GenericFacts GenericFacts2 GenericFacts3 GenericFacts4 SpecGenetic RmFacts
  GeneticOps GeneticFacts GeneticFacts2 Constrained SpecConstrained ConstrainedFacts ConstrainedFacts2 MultiObj SpecMultiObj CrowdFacts Population SpecPopulation PopulationFacts Algo SpecAlgo AlgoFacts AlgoFacts2 NotPop SpecLocal AlgCompassFacts AlgSaFacts AlgBeeFacts AlgGwoFacts SpecHarmony AlgIhs.
Import ListNotations.

(** ** The constructor *)
Lemma ihs_construct_iff a b c d e : ihs_construct a b c d e = Ok tt <->
  (dgt a done = false /\ dlt a dzero = false /\ dgt b done = false /\ dlt b dzero = false /\ dgt c done = false /\ dlt c dzero = false /\ dgt b c = false /\ dle d dzero = false /\ dlt e d = false).
Proof.
  unfold ihs_construct, throw_if. cbv zeta.
  destruct (dgt a done), (dlt a dzero), (dgt b done), (dlt b dzero), (dgt c done), (dlt c dzero); cbn [orb bind]; try (split; [discriminate|intuition discriminate]).
  destruct (dgt b c); cbn [bind]; try (split; [discriminate|intuition discriminate]). destruct (dle d dzero), (dlt e d); cbn [orb]; split; try discriminate; intuition discriminate.
Qed.

(** ** Integers *)
Lemma whole_not_finite v : isfinite v = false -> whole v.
Proof. intros H K. congruence. Qed.
Lemma integral_whole v : integral v -> whole v.
Proof. intros H _. exact H. Qed.
Lemma whole_fin z : whole (Fin z) -> exists k, z = (k * one_z)%Z.
Proof. intros H. destruct (H eq_refl) as (k & E). injection E as ->. eauto. Qed.
Lemma whole_rnd k : whole (rnd (k * one_z) 1).
Proof. intros F. exact (d_of_Z_integral k F). Qed.
Lemma whole_add a b : whole a -> whole b -> whole (dadd a b).
Proof.
  intros A B. destruct a as [| |za|], b as [| |zb|]; try (apply whole_not_finite; reflexivity).
  apply whole_fin in A, B. destruct A as (i & ->), B as (j & ->). cbn [dadd]. rewrite <- Z.mul_add_distr_r. apply whole_rnd.
Qed.
Lemma whole_neg a : whole a -> whole (dneg a).
Proof.
  intros A. destruct a as [| |za|]; try (apply whole_not_finite; reflexivity). apply whole_fin in A. destruct A as (i & ->). cbn [dneg]. intros _. exists (- i)%Z. f_equal. symmetry. apply Z.mul_opp_l.
Qed.
Lemma whole_sub a b : whole a -> whole b -> whole (dsub a b).
Proof. intros A B. unfold dsub. apply whole_add; [exact A|now apply whole_neg]. Qed.
Lemma dtwo_int : dtwo = Fin (2 * one_z).
Proof. unfold dtwo. rewrite d_of_Z_int by (rewrite Z.abs_eq; [reflexivity|lia]). reflexivity. Qed.
Local Opaque one_z.
Lemma whole_twice a : whole a -> whole (dmul dtwo a).
Proof.
  intros A. rewrite dtwo_int. destruct a as [| |za|].
  - apply whole_not_finite. reflexivity.
  - intros F. exfalso. cbn [dmul dsgn] in F. rewrite Z.sgn_pos in F by (pose proof one_z_pos; lia). discriminate.
  - apply whole_fin in A. destruct A as (i & ->). cbn [dmul]. replace (2 * one_z * (i * one_z))%Z with ((2 * i) * one_z * one_z)%Z by (clear; generalize one_z; intros; nia). rewrite rnd_scale by apply one_z_pos. apply whole_rnd.
  - intros F. exfalso. cbn [dmul dsgn] in F. rewrite Z.sgn_pos in F by (pose proof one_z_pos; lia). discriminate.
Qed.
Lemma reflect_whole n : forall x l u y, reflect1 n x l u = Ok y -> whole x -> whole l -> whole u -> whole y.
Proof.
  induction n as [|n IH]; intros x l u y E Wx Wl Wu; cbn [reflect1] in E; destruct (dlt x l || dgt x u).
  - discriminate.
  - injection E as <-. exact Wx.
  - assert (W1 : whole (if dlt x l then dsub (dmul dtwo l) x else x)) by (destruct (dlt x l); [apply whole_sub; [now apply whole_twice|exact Wx]|exact Wx]).
    set (x1 := if dlt x l then _ else _) in *. clearbody x1. eapply IH; [exact E| |exact Wl|exact Wu]. destruct (dgt x1 u); [apply whole_sub; [now apply whole_twice|exact W1]|exact W1].
  - injection E as <-. exact Wx.
Qed.
Lemma map3_partial {A B C D} (f : A -> B -> C -> outcome D) : (forall a b c, f a b c <> UB /\ forall e, f a b c <> Throw e) -> forall l1 l2 l3, length l1 = length l2 -> length l1 = length l3 ->
  map3 f l1 l2 l3 = NoFuel \/ exists l, map3 f l1 l2 l3 = Ok l.
Proof.
  intros H. induction l1 as [|a l1 IH]; intros [|b l2] [|c l3] L2 L3; try discriminate; cbn [map3]; [eauto|]. destruct (H a b c) as [H1 H2].
  destruct (f a b c) as [d|e| |]; [|exfalso; eapply H2; reflexivity|contradiction|left; reflexivity]. cbn [bind].
  cbn [length] in L2, L3. destruct (IH l2 l3 ltac:(lia) ltac:(lia)) as [->|(l & ->)]; [left; reflexivity|right; eexists; reflexivity].
Qed.
Lemma reflect1_partial n : forall x l u, reflect1 n x l u <> UB /\ forall e, reflect1 n x l u <> Throw e.
Proof. induction n as [|n IH]; intros x l u; cbn [reflect1]; destruct (dlt x l || dgt x u); try (split; [discriminate|intros e; discriminate]). apply IH. Qed.
(** What comes out of the reflection, if it ends *)
Lemma reflection_cases n p x : prob_obj p -> length x = get_nx p ->
  force_bounds_reflection n x (p_lb p) (p_ub p) = NoFuel \/
  exists y, force_bounds_reflection n x (p_lb p) (p_ub p) = Ok y /\ length y = get_nx p /\ in_box_or_nan (p_lb p) (p_ub p) y /\ (whole_tail (p_nix p) x -> whole_tail (p_nix p) y).
Proof.
  intros PO L. destruct (prob_obj_lens p PO) as [Ll Lu]. destruct (map3_partial (reflect1 n) (reflect1_partial n) x (p_lb p) (p_ub p) ltac:(lia) ltac:(lia)) as [E|(y & E)]; [left; exact E|right].
  exists y. split; [exact E|]. destruct (map3_ok _ _ _ _ _ E) as [LY PY]. split; [lia|]. pose proof (prob_obj_bounds p PO) as (_ & _ & BN & _ & BI).
  split; [split; [lia|split; [lia|]]|].
  - intros i l u v Hl Hu Hv. assert (Hi : i < length x) by (rewrite <- LY; apply nth_error_Some; congruence). destruct (nth_ex x i Hi) as (a & Ha).
    destruct (PY i a l u Ha Hl Hu) as (v' & Hv' & R). assert (v' = v) by congruence. subst v'. destruct (BN i l u Hl Hu) as (Nl & Nu & _).
    destruct (deq v v) eqn:D; [right|left; destruct v; try discriminate; [reflexivity|cbn in D; rewrite Z.eqb_refl in D; discriminate]].
    eapply reflect1_result; eauto. intros ->. discriminate.
  - intros W i v Hi Hv. assert (Hx : i < length x) by (rewrite <- LY; apply nth_error_Some; congruence). destruct (nth_ex x i Hx) as (a & Ha).
    destruct (nth_ex (p_lb p) i ltac:(lia)) as (l & Hl). destruct (nth_ex (p_ub p) i ltac:(lia)) as (u & Hu). destruct (PY i a l u Ha Hl Hu) as (v' & Hv' & R). assert (v' = v) by congruence. subst v'.
    destruct (BI i l u ltac:(lia) Hl Hu) as (Il & Iu). eapply reflect_whole; [exact R|apply (W i a); [lia|exact Ha]|exact Il|exact Iu].
Qed.

Lemma forall2_len {A B} (R : A -> B -> Prop) l m : Forall2 R l m -> length l = length m.
Proof. induction 1; cbn; congruence. Qed.
Section R.
Context {G : Type} (r : rng G) (RC : rng_contract r).
(** An integer in an arbitrary range, or an exception *)
Lemma uir_any a b : always (uniform_integral_from_range r a b) whole (fun e => e = InvalidArgument).
Proof.
  unfold uniform_integral_from_range, uniform_integral_impl.
  destruct (isfinite a) eqn:Fa; [|intros g; unfold rbind, rlift, int_checks, throw_if; rewrite Fa; reflexivity].
  destruct (isfinite b) eqn:Fb; [|intros g; unfold rbind, rlift, int_checks, throw_if; rewrite Fa, Fb; reflexivity].
  destruct (dgt a b) eqn:D; [intros g; unfold rbind, rlift, int_checks, throw_if; rewrite Fa, Fb, D; reflexivity|].
  eapply always_bind with (P := fun _ => True).
  { apply always_lift. unfold int_checks, throw_if. rewrite Fa, Fb, D. cbn [negb orb andb bind]. destruct (dneq (dtrunc a) a || dneq (dtrunc b) b); trivial. }
  intros _ _. destruct a as [| |za|]; try discriminate. destruct b as [| |zb|]; try discriminate.
  assert (LE : (za <= zb)%Z) by (unfold dgt, dlt in D; apply Z.ltb_ge in D; exact D).
  unfold to_long_long. cbv zeta. apply (always_bind _ _ (fun k => k = Z_of_d za)).
  { apply always_lift. destruct ((_ <=? _) && (_ <? _))%Z; reflexivity. }
  intros ? ->. apply (always_bind _ _ (fun k => k = Z_of_d zb)).
  { apply always_lift. destruct ((_ <=? _) && (_ <? _))%Z; reflexivity. }
  intros ? ->. eapply always_bind; [apply (draw_int_ok r RC)|].
  { unfold Z_of_d. pose proof one_z_pos. apply Z.quot_le_mono; lia. }
  intros k _. apply always_ret. apply whole_rnd.
Qed.
Lemma memory_ok p X i E : X <> [] -> (forall x, In x X -> length x = get_nx p) -> i < get_nx p ->
  always (ihs_memory r X i) (fun v => exists x, In x X /\ nth_error x i = Some v) E.
Proof.
  intros NE L Hi. unfold ihs_memory. assert (0 < length X) by (destruct X; [contradiction|cbn; lia]).
  eapply always_bind; [apply (draw_int_ok r RC); lia|]. intros k Hk. cbv beta in Hk. destruct (nth_ex X (Z.to_nat k) ltac:(lia)) as (x & Hx).
  apply (always_bind _ _ (fun w => w = x)); [apply (always_vget _ _ x); [exact Hx|reflexivity]|]. intros ? ->.
  assert (In x X) by (eapply nth_error_In; eauto). destruct (nth_ex x i ltac:(rewrite L; auto)) as (v & Hv). apply (always_vget _ _ v); [exact Hv|]. eauto.
Qed.
Lemma candidate_ok ph pp bw X p : prob_obj p -> X <> [] -> (forall x, In x X -> length x = get_nx p) ->
  always (ihs_candidate r ph pp bw X p) (fun x => length x = get_nx p /\ (Forall (whole_tail (p_nix p)) X -> whole_tail (p_nix p) x)) (ihs_fails p).
Proof.
  intros PO NE L. destruct (prob_obj_lens p PO) as [Ll Lu]. pose proof (prob_obj_bounds p PO) as (_ & _ & BN & NX & BI).
  unfold ihs_candidate. cbv zeta. set (dim := get_nx p) in *. set (ncx := dim - p_nix p).
  apply (always_bind _ _ (fun c => length c = ncx)).
  { eapply always_weak with (Q := fun bs => Forall2 (fun _ _ => True) (seq 0 ncx) bs) (E := ihs_fails p); [|intros bs F; apply forall2_len in F; rewrite seq_length in F; lia|auto]. apply always_map. intros i Hi. apply in_seq in Hi. assert (Hd : i < dim) by (unfold ncx in Hi; lia).
    destruct (nth_ex (p_lb p) i ltac:(lia)) as (l & Hl). destruct (nth_ex (p_ub p) i ltac:(lia)) as (u & Hu).
    apply (always_bind _ _ (fun w => w = l)); [apply (always_vget _ _ l); [exact Hl|reflexivity]|]. intros ? ->.
    apply (always_bind _ _ (fun w => w = u)); [apply (always_vget _ _ u); [exact Hu|reflexivity]|]. intros ? ->.
    unfold ihs_real. eapply always_bind; [apply (draw01_any r RC)|]. intros a _. destruct (dlt a ph).
    - eapply always_bind; [apply (memory_ok p); [exact NE|exact L|exact Hd]|]. intros v _. eapply always_bind; [apply (draw01_any r RC)|]. intros b _.
      destruct (dlt b pp); [|apply always_ret; trivial]. eapply always_bind; [apply (draw01_any r RC)|]. intros c _. apply always_ret. trivial.
    - eapply always_weak; [apply (urr_any r RC)|trivial|]. intros e [-> N]. right. split; [reflexivity|]. right. intros D. apply N. split; [apply (BN i l u Hl Hu)|]. now apply (D i). }
  intros c Lc. apply (always_bind _ _ (fun z => length z = dim - ncx /\ (Forall (whole_tail (p_nix p)) X -> Forall whole z))).
  { assert (MAP : always (rmap (fun i => rbind (rlift (vget (p_lb p) i)) (fun l => rbind (rlift (vget (p_ub p) i)) (fun u => ihs_int r ph pp bw X l u i))) (seq ncx (dim - ncx)))
       (fun bs => Forall2 (fun _ v => Forall (whole_tail (p_nix p)) X -> whole v) (seq ncx (dim - ncx)) bs) (ihs_fails p)).
    { apply always_map. intros i Hi. apply in_seq in Hi. assert (Hd : i < dim) by lia. assert (Hn : 0 < p_nix p) by (unfold ncx in Hi; lia).
      assert (EI : forall e, e = InvalidArgument -> ihs_fails p e) by (intros e ->; right; auto).
      destruct (nth_ex (p_lb p) i ltac:(lia)) as (l & Hl). destruct (nth_ex (p_ub p) i ltac:(lia)) as (u & Hu).
      apply (always_bind _ _ (fun w => w = l)); [apply (always_vget _ _ l); [exact Hl|reflexivity]|]. intros ? ->.
      apply (always_bind _ _ (fun w => w = u)); [apply (always_vget _ _ u); [exact Hu|reflexivity]|]. intros ? ->.
      unfold ihs_int. eapply always_bind; [apply (draw01_any r RC)|]. intros a _. destruct (dlt a ph).
      - eapply always_bind; [apply (memory_ok p); [exact NE|exact L|exact Hd]|]. intros v (x & Hx & Hv).
        assert (WV : Forall (whole_tail (p_nix p)) X -> whole v).
        { intros F. rewrite Forall_forall in F. apply (F x Hx i); [|exact Hv]. rewrite (L x Hx). unfold ncx, dim in *. lia. }
        eapply always_bind; [apply (draw01_any r RC)|]. intros b _.
        destruct (dlt b pp); [|apply always_ret; exact WV]. cbv zeta. eapply always_bind; [eapply always_weak; [apply uir_any|intros d Hd'; exact Hd'|exact EI]|]. intros d Hd'. apply always_ret. intros F. apply whole_add; auto.
      - eapply always_weak; [apply uir_any|auto|exact EI]. }
    eapply always_weak; [exact MAP| |auto]. intros bs F. split; [apply forall2_len in F; rewrite seq_length in F; lia|]. intros W. clear - F W. induction F; constructor; auto. }
  intros z [Lz Wz]. apply always_ret. split; [rewrite app_length; unfold ncx in *; lia|].
  intros F i v Hi Hv. specialize (Wz F). rewrite app_length in Hi. rewrite nth_error_app2 in Hv by (unfold ncx, dim in *; lia). rewrite Forall_forall in Wz. apply Wz. eapply nth_error_In; eauto.
Qed.
End R.

Section S.
Context {G P : Type} (srt : sorter) (SC : sort_contract srt) (r : rng G) (RC : rng_contract r) (lg ex : dbl -> dbl) (p : problem) (PO : prob_obj p) (FD : fitness_defined p).
Context (fuel gens : nat) (ph pmin pmax bmin bmax : dbl).

(** What a new point is *)
Definition ihs_point (x f : list dbl) : Prop := evaluated p x f /\ in_box_or_nan (p_lb p) (p_ub p) x.
(** The point made and evaluated in a generation *)
Lemma ihs_new (s : G * pop P) gen (k : list dbl -> list dbl -> @AM G P unit) (Q : unit -> G * pop P -> Prop) : valid_pop (snd s) -> po_prob (snd s) = p -> po_id (snd s) <> [] ->
  (forall x f g, ihs_point x f -> (Forall (whole_tail (p_nix p)) (po_x (snd s)) -> whole_tail (p_nix p) x) ->
     ends_if_fuel (k x f) (g, with_fevals (snd s) (wrap64 (po_fevals (snd s) + 1))) Q (ihs_fails p)) ->
  ends_if_fuel (rbind (eng (ihs_candidate r ph (ihs_ppar pmin pmax gens gen) (ihs_bw lg ex bmin bmax gens gen) (po_x (snd s)) p)) (fun x0 =>
      rbind (rlift (force_bounds_reflection fuel x0 (p_lb p) (p_ub p))) (fun x => rbind (peval x) (fun f => k x f)))) s Q (ihs_fails p).
Proof.
  intros V EP NE K. pose proof V as (_ & (S1 & S2 & Fx & Ff & _) & _). rewrite EP in Fx, Ff.
  apply ends_bind. eapply ends_eng; [apply (candidate_ok r RC ph _ _ (po_x (snd s)) p PO)|].
  { intros E0. apply NE. apply length_zero_iff_nil. rewrite S1, E0. reflexivity. }
  { exact Fx. }
  intros x0 g1 (L0 & W0). cbn [fst snd]. apply ends_bind. destruct (reflection_cases fuel p x0 PO L0) as [->|(x & -> & Lx & Bx & Wx)]; [exact I|].
  apply ends_ret. apply ends_bind. eapply (ends_peval p); [exact EP|exact FD|exact Lx|intros e He; left; exact He|]. intros f EV. cbn [fst snd].
  apply K; [split; assumption|]. auto.
Qed.

(** *** One objective *)
Section One.
Context (NO : p_nobj p = 1) (fs0 : list (list dbl)) (RK : rankable p fs0).
Definition known (f : list dbl) : Prop := In f fs0 \/ exists x, evaluated p x f.
Definition ihs_rel (x f x' f' : list dbl) : Prop := ihs_point x' f' /\ known f /\ known f' /\ length f = get_nf p /\
  (get_nc p = 0 -> dle (obj f') (obj f) = true) /\ (0 < get_nc p -> preferred p f' f).
Lemma ihs_rel_trans x1 f1 x2 f2 x3 f3 : ihs_rel x1 f1 x2 f2 -> ihs_rel x2 f2 x3 f3 -> ihs_rel x1 f1 x3 f3.
Proof.
  intros (A1 & A2 & A3 & A4 & A5 & A6) (B1 & B2 & B3 & B4 & B5 & B6). repeat (split; [assumption|]). split.
  - intros Z0. eapply dle_trans; [apply B5; exact Z0|apply A5; exact Z0].
  - intros NZ. specialize (A6 NZ). specialize (B6 NZ). unfold preferred in *.
    assert (KN : forall f, In f [f1; f2; f3] -> known f) by (intros f [<-|[<-|[<-|[]]]]; assumption).
    assert (L3 : length f3 = get_nf p) by (apply B1).
    assert (OKA : forall f, In f [f1; f2; f3] -> fc_args_ok (p_nec p) (p_ctol p) f) by (intros f [<-|[<-|[<-|[]]]]; apply fc_ok; auto).
    destruct (RK NZ [f1; f2; f3] KN) as [_ T _].
    assert (H : fc_lt (p_nec p) (p_ctol p) f3 f1 = true).
    { apply (T f3 f2 f1); cbn [In]; auto; unfold fc_lt; [rewrite B6|rewrite A6]; reflexivity. }
    unfold fc_lt in H. rewrite compare_fc_eq in * by (apply OKA; cbn [In]; auto). now rewrite H.
Qed.
Definition ihs_inv (s0 : pop P) (c : nat) (s : pop P) : Prop :=
  valid_pop s /\ po_prob s = p /\ po_id s <> [] /\ evals c s0 s /\ replaced ihs_rel s0 s /\ (forall f, In f (po_f s) -> known f) /\
  (Forall (whole_tail (p_nix p)) (po_x s0) -> Forall (whole_tail (p_nix p)) (po_x s)).
Lemma ihs_gen_one s0 gen c (s : G * pop P) : ihs_inv s0 c (snd s) -> length (po_x s0) = length (po_f s0) ->
  ends_if_fuel (ihs_generation srt r lg ex fuel ph pmin pmax bmin bmax gens gen) s (fun _ s' => ihs_inv s0 (c + 1) (snd s')) (ihs_fails p).
Proof.
  intros (V & EP & NE & EV & RP & KN & WH) L0. pose proof V as (_ & ST & _). pose proof ST as (S1 & S2 & Fx & Ff & _). rewrite EP in Fx, Ff.
  unfold ihs_generation. apply ends_bind, ends_getp. cbv zeta. rewrite EP. apply ihs_new; auto. intros x f g (EVf & Bx) Wx. rewrite NO. cbn [Nat.eqb].
  set (s1 := with_fevals (snd s) (wrap64 (po_fevals (snd s) + 1))). assert (V1 : valid_pop s1) by now apply valid_fevals.
  assert (INV1 : ihs_inv s0 (c + 1) s1).
  { split; [exact V1|]. split; [exact EP|]. split; [exact NE|]. split; [apply evals_S; exact EV|]. split; [now apply replaced_fevals|]. split; [exact KN|exact WH]. }
  assert (RK1 : ranked srt s1).
  { intros NZ. unfold s1 in *. cbn [with_fevals po_prob po_f] in *. rewrite EP in *. split; [exact SC|]. apply RK; [exact NZ|exact KN]. }
  unfold ihs_insert_single. apply ends_bind, ends_getp. cbn [snd].
  destruct (idx_valid srt s1 V1) as (_ & w & _ & _ & Ew & Hw); [unfold s1; cbn [with_fevals po_prob]; now rewrite EP|exact NE|exact RK1|].
  apply ends_bind. eapply ends_lift_ok; [exact Ew|]. unfold s1 in Hw. cbn [with_fevals po_id] in Hw. change (po_f s1) with (po_f (snd s)). change (po_prob s1) with (po_prob (snd s)). rewrite EP.
  destruct (vget_in_range (po_f (snd s)) w ltac:(lia)) as (fw & Efw & Nfw). apply ends_bind. eapply ends_lift_ok; [exact Efw|].
  assert (Ifw : In fw (po_f (snd s))) by (eapply nth_error_In; eauto). pose proof (Ff fw Ifw) as Lfw. pose proof EVf as (Lx & Lf & _).
  assert (SET : ((get_nc p = 0 -> dle (obj f) (obj fw) = true) /\ (0 < get_nc p -> preferred p f fw)) ->
     ends_if_fuel (pset w x f) (g, s1) (fun _ s' => ihs_inv s0 (c + 1) (snd s')) (ihs_fails p)).
  { intros IMP. apply ends_pset; cbn [snd fst]; [exact V1|exact Hw|change (po_prob s1) with (po_prob (snd s)); rewrite EP; lia|change (po_prob s1) with (po_prob (snd s)); rewrite EP; lia|].
    intros ch _ V2. split; [exact V2|]. split; [exact EP|]. split; [exact NE|]. split; [exact (evals_S c s0 (snd s) EV)|]. split; [|split].
    - apply (replaced_trans ihs_rel s0 s1); [exact L0|exact ihs_rel_trans|apply replaced_fevals; exact RP|]. apply replaced_set; [apply replaced_refl|exact S2|].
      intros x0 f0 Hx0 Hf0. change (po_f s1) with (po_f (snd s)) in Hf0. rewrite Nfw in Hf0. injection Hf0 as <-. split; [split; assumption|]. split; [now apply KN|]. split; [right; eauto|]. split; [exact Lfw|exact IMP].
    - intros f' Hf'. unfold setp in Hf'. cbn [po_f] in Hf'. apply upd_in in Hf'. destruct Hf' as [->|Hf']; [right; eauto|apply KN; exact Hf'].
    - intros W0. unfold setp. cbn [po_x]. apply forall_upd; [exact (WH W0)|]. apply Wx. exact (WH W0). }
  destruct (prob_obj_facts p PO) as (_ & _ & _ & NFE).
  destruct (Nat.eqb_spec (get_nc p) 0) as [Z0|NZ].
  - assert (N1 : get_nf p = 1) by lia. apply ends_bind. eapply ends_lift_ok; [apply obj_vget; lia|]. apply ends_bind. eapply ends_lift_ok; [apply obj_vget; lia|].
    destruct (dge (obj fw) (obj f)) eqn:D; [|apply ends_ret; exact INV1]. apply SET. split; [intros _; exact D|intros; lia].
  - apply ends_bind. rewrite compare_fc_eq by (apply fc_ok; auto). apply ends_ret. destruct (fc_cmp (p_nec p) (p_ctol p) f fw) eqn:CM; [|apply ends_ret; exact INV1].
    apply SET. split; [intros; contradiction|intros _]. unfold preferred. rewrite compare_fc_eq by (apply fc_ok; auto). now rewrite CM.
Qed.
End One.
Lemma ihs_single (s : G * pop P) : valid_pop (snd s) -> po_prob (snd s) = p -> po_id (snd s) <> [] -> p_nobj p = 1 -> u_set_seed (p_udp p) = false -> rankable p (po_f (snd s)) ->
  ends_if_fuel (ihs_evolve srt r lg ex fuel gens ph pmin pmax bmin bmax) s (fun _ s' => valid_pop (snd s') /\ evals gens (snd s) (snd s') /\
    replaced (fun x f x' f' => evaluated p x' f' /\ in_box_or_nan (p_lb p) (p_ub p) x' /\ (get_nc p = 0 -> dle (obj f') (obj f) = true) /\ (0 < get_nc p -> preferred p f' f)) (snd s) (snd s') /\
    (Forall (whole_tail (p_nix p)) (po_x (snd s)) -> Forall (whole_tail (p_nix p)) (po_x (snd s')))) (ihs_fails p).
Proof.
  intros V EP NE NO NS RK. pose proof V as (_ & (S1 & S2 & _) & _). unfold ihs_evolve.
  assert (I0 : ihs_inv (po_f (snd s)) (snd s) 0 (snd s)).
  { split; [exact V|]. split; [exact EP|]. split; [exact NE|]. split; [apply evals_0|]. split; [apply replaced_refl|]. split; [left; assumption|auto]. }
  assert (FIN : forall c s', c = gens -> ihs_inv (po_f (snd s)) (snd s) c s' -> valid_pop s' /\ evals gens (snd s) s' /\
    replaced (fun x f x' f' => evaluated p x' f' /\ in_box_or_nan (p_lb p) (p_ub p) x' /\ (get_nc p = 0 -> dle (obj f') (obj f) = true) /\ (0 < get_nc p -> preferred p f' f)) (snd s) s' /\
    (Forall (whole_tail (p_nix p)) (po_x (snd s)) -> Forall (whole_tail (p_nix p)) (po_x s'))).
  { intros c s' -> (V' & EP' & _ & EV & (R1 & R2 & R3 & R4 & R5) & _ & WH). split; [exact V'|]. split; [exact EV|]. split; [|exact WH]. repeat (split; [assumption|]).
    intros i x f x' f' A B C D. destruct (R5 i x f x' f' A B C D) as [H|((H1 & H2) & _ & _ & _ & H3 & H4)]; [left; exact H|right; auto]. }
  destruct (Nat.eqb_spec gens 0) as [Z0|NZ]; [apply ends_ret; apply (FIN 0); auto|].
  apply ends_bind, ends_getp. cbv zeta. rewrite EP, NO, NS. destruct (Nat.eqb_spec (length (po_id (snd s))) 0) as [E0|E0]; [apply length_zero_iff_nil in E0; contradiction|].
  apply ends_bind, ends_ret. change (1 <? 1) with false. rewrite andb_false_r. apply ends_bind, ends_ret. apply ends_bind, ends_ret.
  eapply ends_weak with (Q := fun _ s' => ihs_inv (po_f (snd s)) (snd s) (1 + gens - 1) (snd s')) (E := ihs_fails p); [|intros ? s' H; apply (FIN (1 + gens - 1)); [lia|exact H]|auto].
  apply (ends_seq _ (fun i _ s' => ihs_inv (po_f (snd s)) (snd s) (i - 1) (snd s'))); [exact I0|].
  intros i t s1 Hi I1. replace (i + 1 - 1) with ((i - 1) + 1) by lia. apply ihs_gen_one; auto.
Qed.

(** *** Several objectives *)
Definition member (s : pop P) (x f : list dbl) : Prop := exists i, nth_error (po_x s) i = Some x /\ nth_error (po_f s) i = Some f.
Definition ihs_minv (s0 : pop P) (c : nat) (s : pop P) : Prop :=
  valid_pop s /\ po_prob s = p /\ po_id s = po_id s0 /\ evals c s0 s /\ (forall x f, member s x f -> member s0 x f \/ ihs_point x f) /\
  (Forall (whole_tail (p_nix p)) (po_x s0) -> Forall (whole_tail (p_nix p)) (po_x s)).
Lemma member_set (s : pop P) i x f ch x' f' : i < length (po_x s) -> length (po_x s) = length (po_f s) -> member (setp s i x f ch) x' f' -> (x' = x /\ f' = f) \/ member s x' f'.
Proof.
  intros Hi L (j & Hx & Hf). unfold setp in Hx, Hf. cbn [po_x po_f] in Hx, Hf. destruct (Nat.eq_dec j i) as [->|N].
  - rewrite upd_same in Hx, Hf by lia. injection Hx as <-. injection Hf as <-. left; auto.
  - rewrite upd_other in Hx, Hf by exact N. right. exists j. auto.
Qed.
Lemma ihs_gen_multi s0 gen c (s : G * pop P) : 2 <= p_nobj p -> get_nc p = 0 -> ihs_minv s0 c (snd s) -> po_id s0 <> [] ->
  ends_if_fuel (ihs_generation srt r lg ex fuel ph pmin pmax bmin bmax gens gen) s (fun _ s' => ihs_minv s0 (c + 1) (snd s')) (ihs_fails p).
Proof.
  intros NO NC (V & EP & EI & EV & MB & WH) NE. pose proof V as (_ & ST & _). pose proof ST as (S1 & S2 & Fx & Ff & _). rewrite EP in Fx, Ff.
  unfold ihs_generation. apply ends_bind, ends_getp. cbv zeta. rewrite EP. apply ihs_new; auto; [now rewrite EI|]. intros x f g PT Wx. destruct (Nat.eqb_spec (p_nobj p) 1) as [E1|_]; [lia|].
  set (s1 := with_fevals (snd s) (wrap64 (po_fevals (snd s) + 1))). assert (V1 : valid_pop s1) by now apply valid_fevals.
  assert (INV1 : ihs_minv s0 (c + 1) s1).
  { split; [exact V1|]. split; [exact EP|]. split; [exact EI|]. split; [apply evals_S; exact EV|]. split; [exact MB|exact WH]. }
  destruct (prob_obj_facts p PO) as (_ & _ & _ & NFE). pose proof PT as ((Lx & Lf & _) & _).
  unfold ihs_insert_multi. apply ends_bind, ends_getp. cbn [snd fst]. cbv zeta. change (po_f s1) with (po_f (snd s)). change (po_id s1) with (po_id (snd s)).
  destruct (select_best_ok srt (po_f (snd s) ++ [f]) (get_nf p) (length (po_id (snd s))) SC) as (best & Eb & (_ & BR & BL & _)).
  { intros q Hq. apply in_app_or in Hq. destruct Hq as [Hq|[<-|[]]]; [now apply Ff|exact Lf]. }
  { lia. }
  apply ends_bind. eapply ends_lift_ok; [exact Eb|]. rewrite app_length in BR, BL. cbn [length] in BR, BL.
  apply (ends_weak _ _ (fun _ s' => ihs_minv s0 (c + 1) (snd s')) _ (ihs_fails p)); [|auto|auto].
  apply ends_fold with (I := fun (_ : unit) s' => ihs_minv s0 (c + 1) (snd s')); [exact INV1|].
  intros i [] s2 Hi I2. apply in_seq in Hi. pose proof I2 as (V2 & EP2 & EI2 & EV2 & MB2 & WH2).
  pose proof V2 as (_ & ST2 & _). pose proof ST2 as (T1 & T2 & Tx & Tf & _). rewrite EP2 in Tx, Tf.
  assert (LI : length (po_id (snd s2)) = length (po_id (snd s))) by congruence.
  destruct (vget_in_range best i ltac:(lia)) as (b & Evb & Nb). apply ends_bind. eapply ends_lift_ok; [exact Evb|].
  assert (SET : forall x' f', length x' = get_nx p -> length f' = get_nf p -> member s0 x' f' \/ ihs_point x' f' -> (Forall (whole_tail (p_nix p)) (po_x s0) -> whole_tail (p_nix p) x') ->
     ends_if_fuel (pset i x' f') s2 (fun _ s' => ihs_minv s0 (c + 1) (snd s')) (ihs_fails p)).
  { intros x' f' L1 L2 M W'. apply ends_pset; [exact V2|lia|rewrite EP2; exact L1|rewrite EP2; exact L2|]. intros ch _ V3. cbn [snd]. split; [exact V3|]. split; [exact EP2|]. split; [exact EI2|]. split; [exact EV2|]. split.
    - intros x'' f'' H. apply member_set in H; [|lia|exact T2]. destruct H as [[-> ->]|H]; auto.
    - intros W0. unfold setp. cbn [po_x]. apply forall_upd; auto. }
  destruct (Nat.eqb_spec b (length (po_id (snd s)))) as [->|NB].
  - apply SET; auto.
  - apply ends_bind, ends_getp. assert (b < length (po_f (snd s)) + 1) by (apply BR; eapply nth_error_In; eauto).
    destruct (vget_in_range (po_x (snd s2)) b ltac:(lia)) as (xb & Exb & Nxb). destruct (vget_in_range (po_f (snd s2)) b ltac:(lia)) as (fb & Efb & Nfb).
    apply ends_bind. eapply ends_lift_ok; [exact Exb|]. apply ends_bind. eapply ends_lift_ok; [exact Efb|].
    apply SET; [apply Tx; eapply nth_error_In; eauto|apply Tf; eapply nth_error_In; eauto|apply MB2; exists b; auto|].
    intros W0. specialize (WH2 W0). rewrite Forall_forall in WH2. apply WH2. eapply nth_error_In; eauto.
Qed.
Lemma ihs_multi (s : G * pop P) : valid_pop (snd s) -> po_prob (snd s) = p -> po_id (snd s) <> [] -> 2 <= p_nobj p -> get_nc p = 0 -> u_set_seed (p_udp p) = false ->
  ends_if_fuel (ihs_evolve srt r lg ex fuel gens ph pmin pmax bmin bmax) s (fun _ s' => valid_pop (snd s') /\ po_prob (snd s') = p /\ po_id (snd s') = po_id (snd s) /\ evals gens (snd s) (snd s') /\
    (forall i x f, nth_error (po_x (snd s')) i = Some x -> nth_error (po_f (snd s')) i = Some f ->
       (exists j, nth_error (po_x (snd s)) j = Some x /\ nth_error (po_f (snd s)) j = Some f) \/ (evaluated p x f /\ in_box_or_nan (p_lb p) (p_ub p) x)) /\
    (Forall (whole_tail (p_nix p)) (po_x (snd s)) -> Forall (whole_tail (p_nix p)) (po_x (snd s')))) (ihs_fails p).
Proof.
  intros V EP NE NO NC NS. unfold ihs_evolve.
  assert (I0 : ihs_minv (snd s) 0 (snd s)) by (split; [exact V|]; split; [exact EP|]; split; [reflexivity|]; split; [apply evals_0|]; split; auto).
  assert (FIN : forall c s', c = gens -> ihs_minv (snd s) c s' -> valid_pop s' /\ po_prob s' = p /\ po_id s' = po_id (snd s) /\ evals gens (snd s) s' /\
    (forall i x f, nth_error (po_x s') i = Some x -> nth_error (po_f s') i = Some f ->
       (exists j, nth_error (po_x (snd s)) j = Some x /\ nth_error (po_f (snd s)) j = Some f) \/ (evaluated p x f /\ in_box_or_nan (p_lb p) (p_ub p) x)) /\
    (Forall (whole_tail (p_nix p)) (po_x (snd s)) -> Forall (whole_tail (p_nix p)) (po_x s'))).
  { intros c s' -> (V' & EP' & EI' & EV & MB & WH). split; [exact V'|]. split; [exact EP'|]. split; [exact EI'|]. split; [exact EV|]. split; [|exact WH]. intros i x f Hx Hf. apply MB. exists i. auto. }
  destruct (Nat.eqb_spec gens 0) as [Z0|NZ]; [apply ends_ret; apply (FIN 0); auto|].
  apply ends_bind, ends_getp. cbv zeta. rewrite EP, NC, NS. destruct (Nat.eqb_spec (length (po_id (snd s))) 0) as [E0|E0]; [apply length_zero_iff_nil in E0; contradiction|].
  apply ends_bind, ends_ret. cbn [Nat.eqb negb andb]. apply ends_bind, ends_ret. apply ends_bind, ends_ret.
  eapply ends_weak with (Q := fun _ s' => ihs_minv (snd s) (1 + gens - 1) (snd s')) (E := ihs_fails p); [|intros ? s' H; apply (FIN (1 + gens - 1)); [lia|exact H]|auto].
  apply (ends_seq _ (fun i _ s' => ihs_minv (snd s) (i - 1) (snd s'))); [exact I0|].
  intros i t s1 Hi I1. replace (i + 1 - 1) with ((i - 1) + 1) by lia. apply ihs_gen_multi; auto.
Qed.
End S.
