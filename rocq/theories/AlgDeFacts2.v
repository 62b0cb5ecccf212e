From Coq Require Import List Bool Arith ZArith Lia.
From Verif Require Import Dbl DblFacts IntDbl Outcome BaseFacts StdSort Problem SpecProblem ProblemFacts Rng Generic SpecGeneric GenericFacts3 SpecGenetic RmFacts
  GeneticOps GeneticFacts Population SpecPopulation PopulationFacts PopulationFacts3 PopulationFacts4 Algo SpecAlgo AlgoFacts AlgoFacts2 AlgDe AlgDeFacts.
Import ListNotations.
Local Opaque one_z.

(** ** The constructor and the preconditions *)
Lemma de_ctor_iff d : de_ctor d = Ok tt <-> 1 <= de_variant d <= 10 /\ dlt (de_F d) dzero = false /\ dlt done (de_F d) = false /\ dlt (de_CR d) dzero = false /\ dlt done (de_CR d) = false.
Proof.
  unfold de_ctor, dgt. destruct (Nat.ltb_spec (de_variant d) 1), (Nat.ltb_spec 10 (de_variant d)); cbn [orb]; try (split; [discriminate|intros ((? & ?) & _); lia]).
  destruct (dlt (de_CR d) dzero), (dlt (de_F d) dzero), (dlt done (de_CR d)), (dlt done (de_F d)); cbn [orb]; split; try discriminate; try (intros (_ & ? & ? & ? & ?); discriminate); auto 8.
Qed.
Lemma de_ctor_else d : de_ctor d = Ok tt \/ de_ctor d = Throw InvalidArgument.
Proof. unfold de_ctor. destruct (_ || _)%bool; [now right|]. destruct (_ || _ || _ || _)%bool; auto. Qed.

Section E.
Context {G P : Type} (r : rng G) (srt : sorter) (d : de_params).
Lemma de_rejects (s : G * pop P) : ~ plain_single (po_prob (snd s)) \/ (0 < de_gen d /\ length (po_id (snd s)) < 5) -> de_evolve r srt d s = (Throw InvalidArgument, s).
Proof.
  intros H. unfold de_evolve, rbind, getp. cbv beta iota zeta. destruct (Nat.eqb_spec (get_nc (po_prob (snd s))) 0) as [E1|E1]; cbn [negb]; [|reflexivity].
  destruct (Nat.eqb_spec (get_nf (po_prob (snd s))) 1) as [E2|E2]; cbn [negb]; [|reflexivity]. destruct (u_set_seed _) eqn:E3; [reflexivity|].
  destruct H as [H|[H1 H2]]; [elim H; repeat split; assumption|]. destruct (Nat.eqb_spec (de_gen d) 0); [lia|]. destruct (Nat.ltb_spec (length (po_id (snd s))) 5); [reflexivity|lia].
Qed.
Lemma de_zero (s : G * pop P) : plain_single (po_prob (snd s)) -> de_gen d = 0 -> de_evolve r srt d s = (Ok tt, s).
Proof. intros (E1 & E2 & E3) H. unfold de_evolve, rbind, getp. cbv beta iota zeta. rewrite E1, E2, E3, H. reflexivity. Qed.

Lemma de_evolve_gen (RC : rng_contract r) (Val Res : dbl -> Prop) (Box : list dbl -> Prop) (s : G * pop P) :
  valid_pop (snd s) -> plain_single (po_prob (snd s)) -> fitness_defined (po_prob (snd s)) -> 1 <= de_variant d <= 10 -> 0 < de_gen d -> 5 <= length (po_id (snd s)) ->
  (forall g a b, Val g -> Val a -> Val b -> Res (dadd g (dmul (de_F d) (dsub a b)))) ->
  (forall t g a b, Val t -> Val g -> Val a -> Val b -> Res (dadd (dadd t (dmul (de_F d) (dsub g t))) (dmul (de_F d) (dsub a b)))) ->
  (forall g a b c e, Val g -> Val a -> Val b -> Val c -> Val e -> Res (dadd g (dmul (dsub (dsub (dadd a b) c) e) (de_F d)))) ->
  (forall x y, length x = get_nx (po_prob (snd s)) -> Forall (fun v => Val v \/ Res v) x -> bounded_from (p_lb (po_prob (snd s))) (p_ub (po_prob (snd s))) x y -> Box y /\ Forall Val y) ->
  (forall x, In x (po_x (snd s)) -> Forall Val x) ->
  ends (de_evolve r srt d) s
    (fun _ s' => valid_pop (snd s') /\ replaced (better_point (po_prob (snd s)) Box) (snd s) (snd s') /\
       exists k, 1 <= k <= de_gen d /\ evals (k * length (po_id (snd s))) (snd s) (snd s') /\
         (k < de_gen d -> flat srt (de_xtol d) (de_ftol d) (snd s')))
    (fails (po_prob (snd s))).
Proof.
  intros V (E1 & E2 & E3) FD VAR HG H5 R1 R3 R4 HB HX. unfold de_evolve. apply ends_bind, ends_getp. cbv zeta. rewrite E1, E2, E3. cbn [Nat.eqb negb].
  destruct (Nat.eqb_spec (de_gen d) 0); [lia|]. destruct (Nat.ltb_spec (length (po_id (snd s))) 5); [lia|]. pose proof V as (PO & (S1 & S2 & Fx & Ff & _) & _).
  assert (NO : p_nobj (po_prob (snd s)) = 1) by (destruct (prob_obj_facts _ PO) as (_ & _ & _ & X); lia).
  assert (NE : po_id (snd s) <> []) by (intros X; rewrite X in H5; cbn in H5; lia).
  destruct (best_idx_lt srt (snd s) NO E1 (proj1 (proj2 V)) NE) as (b & Eb & Hb). apply ends_bind. eapply ends_lift_ok; [exact Eb|].
  destruct (vget_in_range (po_x (snd s)) b ltac:(lia)) as (xb & Exb & Nxb). destruct (vget_in_range (po_f (snd s)) b ltac:(lia)) as (fb & Efb & Nfb).
  apply ends_bind. eapply ends_lift_ok; [exact Exb|]. apply ends_bind. eapply ends_lift_ok; [exact Efb|].
  assert (GX : Forall (goodx (po_prob (snd s)) Val) (po_x (snd s))) by (apply Forall_forall; intros x Hx; split; [apply Fx; exact Hx|apply HX; exact Hx]).
  assert (GB : goodx (po_prob (snd s)) Val xb) by (rewrite Forall_forall in GX; apply GX; eapply nth_error_In; eauto).
  apply (de_gens_ok r RC srt d (po_prob (snd s)) PO E1 E2 FD Val Res Box R1 R3 R4 HB VAR (snd s) eq_refl V (de_gen d) H5 (de_gen d) 0); [lia|lia| |lia].
  unfold inv. cbn [d_fit d_old d_new d_gbX d_gbfit d_gbIter]. split; [exact V|]. split; [apply replaced_refl|].
  split; [apply evals_0|].
  split; [reflexivity|]. split; [lia|]. split; [lia|]. split; [exact GX|]. split; [exact GX|]. split; [exact GB|]. split; [exact GB|]. rewrite <- E2. apply Ff. eapply nth_error_In; eauto.
Qed.
End E.

(** ** The two instances *)
Section I.
Context {G P : Type} (r : rng G) (RC : rng_contract r) (srt : sorter) (d : de_params) (s : G * pop P).
Let p := po_prob (snd s).
Context (V : valid_pop (snd s)) (PS : plain_single p) (FD : fitness_defined p) (CT : de_ctor d = Ok tt) (HG : 0 < de_gen d) (H5 : 5 <= length (po_id (snd s))).
Definition de_post (Box : list dbl -> Prop) (u : unit) (s' : G * pop P) : Prop :=
  valid_pop (snd s') /\ replaced (better_point p Box) (snd s) (snd s') /\
  exists k, 1 <= k <= de_gen d /\ evals (k * length (po_id (snd s))) (snd s) (snd s') /\ (k < de_gen d -> flat srt (de_xtol d) (de_ftol d) (snd s')).
Lemma de_evolve_nan : ends (de_evolve r srt d) s (de_post (in_box_or_nan (p_lb p) (p_ub p))) (fails p).
Proof.
  apply de_ctor_iff in CT. destruct CT as (VAR & _). destruct (prob_obj_lens p (proj1 V)) as [L1 L2].
  apply (de_evolve_gen r srt d RC (fun _ => True) (fun _ => True)); auto.
  - intros x y L _ B. split; [eapply bounded_in_box_or_nan; [| |exact B]; fold p in L |- *; lia|]. apply Forall_forall. auto.
  - intros x _. apply Forall_forall. auto.
Qed.
Lemma bnd_F : de_F d <> NaN -> bnd 1074 (de_F d).
Proof.
  intros NN. apply de_ctor_iff in CT. destruct CT as (_ & A & B & _). apply bnd_unit.
  - destruct (de_F d) as [| |z|]; [congruence|cbn in A; discriminate| |reflexivity]. apply dle_fin. cbn in A. apply Z.ltb_ge in A. exact A.
  - destruct (de_F d) as [| |z|]; [congruence|reflexivity| |cbn in B; discriminate]. apply dle_fin. cbn in B. apply Z.ltb_ge in B. exact B.
Qed.
Lemma de_evolve_box : de_F d <> NaN -> (forall l, In l (p_lb p) -> bnd 2093 l) -> (forall u, In u (p_ub p) -> bnd 2093 u) ->
  (forall x, In x (po_x (snd s)) -> in_box (p_lb p) (p_ub p) x) ->
  ends (de_evolve r srt d) s (de_post (in_box (p_lb p) (p_ub p))) (fails p).
Proof.
  intros NN BL BU HX. pose proof (bnd_F NN) as BF. apply de_ctor_iff in CT. destruct CT as (VAR & _). destruct (prob_obj_lens p (proj1 V)) as [L1 L2].
  assert (W : forall x, in_box (p_lb p) (p_ub p) x -> Forall (bnd 2093) x).
  { intros x (A1 & A2 & A3). apply Forall_forall. intros v Hv. apply In_nth_error in Hv. destruct Hv as (i & Hi). assert (i < length x) by (apply nth_error_Some; congruence).
    destruct (nth_ex (p_lb p) i ltac:(lia)) as (l & El). destruct (nth_ex (p_ub p) i ltac:(lia)) as (u & Eu).
    apply (bnd_within 2093 l u); [apply BL; eapply nth_error_In; eauto|apply BU; eapply nth_error_In; eauto|eapply A3; eauto]. }
  apply (de_evolve_gen r srt d RC (bnd 2093) (fun v => v <> NaN)); auto.
  - intros g a b Hg Ha Hb. apply (bnd_not_nan 2095). apply (bnd_add 2094); [lia|eapply bnd_weak; [|exact Hg]; lia|]. apply bnd_mul_unit; [lia|exact BF|]. apply (bnd_sub 2093); auto; lia.
  - intros t g a b Ht Hg Ha Hb. apply (bnd_not_nan 2096). apply (bnd_add 2095); [lia| |].
    + apply (bnd_add 2094); [lia|eapply bnd_weak; [|exact Ht]; lia|]. apply bnd_mul_unit; [lia|exact BF|]. apply (bnd_sub 2093); auto; lia.
    + apply (bnd_weak 2094); [lia|]. apply bnd_mul_unit; [lia|exact BF|]. apply (bnd_sub 2093); auto; lia.
  - intros g a b c e Hg Ha Hb Hc He. apply (bnd_not_nan 2097). apply (bnd_add 2096); [lia|eapply bnd_weak; [|exact Hg]; lia|]. apply bnd_mul_unit_r; [lia| |exact BF].
    apply (bnd_sub 2095); [lia| |eapply bnd_weak; [|exact He]; lia]. apply (bnd_sub 2094); [lia| |eapply bnd_weak; [|exact Hc]; lia]. apply (bnd_add 2093); auto; lia.
  - intros x y L A B. fold p in L, B |- *. assert (IB : in_box (p_lb p) (p_ub p) y).
    { eapply bounded_in_box; [| | |exact B]; [lia|lia|]. eapply Forall_impl; [|exact A]. intros v [H|H]; [eapply bnd_not_nan; eauto|exact H]. }
    split; [exact IB|apply W; exact IB].
Qed.
End I.

(** ** With non-positive tolerances all generations are run *)
Lemma abs_sum_nonneg l : forall a, dlt a dzero = false -> dlt (fold_left (fun a c => dadd a (dabs (dsub (fst c) (snd c)))) l a) dzero = false.
Proof.
  induction l as [|c l IH]; intros a H; cbn [fold_left]; [exact H|]. apply IH.
  destruct a as [| |z|]; [reflexivity|cbn in H; discriminate| |].
  - cbn in H. apply Z.ltb_ge in H. destruct (dsub (fst c) (snd c)) as [| |w|]; try reflexivity. cbn [dabs dadd].
    destruct (proj1 (nonneg_cases _) (rnd_nonneg (z + Z.abs w) 1 ltac:(lia) ltac:(lia))) as [->|(y & -> & Y)]; [reflexivity|]. cbn. apply Z.ltb_ge. exact Y.
  - destruct (dsub (fst c) (snd c)); reflexivity.
Qed.
Lemma not_flat {P} srt xtol ftol (s : pop P) : dle xtol dzero = true -> dle ftol dzero = true -> ~ flat srt xtol ftol s.
Proof.
  assert (K : forall a t, dlt a dzero = false -> dle t dzero = true -> dlt a t = true -> False).
  { intros [| |x|] [| |y|] H1 H2 H3; cbn in *; try discriminate. unfold dle in H2. cbn in H2. apply Z.ltb_ge in H1. apply Z.ltb_lt in H3. apply orb_prop in H2. destruct H2 as [H2|H2]; [apply Z.ltb_lt in H2; lia|apply Z.eqb_eq in H2; lia]. }
  intros H1 H2 (b & w & xb & fb & xw & fw & _ & _ & _ & _ & _ & _ & [H|H]).
  - eapply K; [|exact H1|exact H]. apply abs_sum_nonneg. reflexivity.
  - eapply K; [|exact H2|exact H]. destruct (dsub (obj fw) (obj fb)) as [| |z|]; cbn [dabs]; try reflexivity. cbn. apply Z.ltb_ge. lia.
Qed.

(** ** The trial vector *)
Section T.
Context {G : Type} (r : rng G) (RC : rng_contract r) (d : de_params) (dim : nat) (mu : nat -> dbl -> dbl) (value : list dbl -> nat -> outcome dbl).
Context (HV : forall t m c, nth_error t m = Some c -> length t = dim -> value t m = Ok (mu m c)).
Lemma exp_loop_run E k : forall n tmp, k <= dim -> n < dim -> length tmp = dim ->
  always (exp_loop r d value dim k n tmp) (fun t => length t = dim /\ exists L, (0 < k -> 1 <= L) /\ L <= k /\
    forall m c, nth_error tmp m = Some c -> (in_run dim n L m -> nth_error t m = Some (mu m c)) /\ (~ in_run dim n L m -> nth_error t m = Some c)) E.
Proof.
  induction k as [|k IH]; intros n tmp Hk Hn L; cbn [exp_loop].
  { apply always_ret. split; [exact L|]. exists 0. split; [lia|]. split; [lia|]. intros m c Hc. split; [intros (j & Hj & _); lia|auto]. }
  destruct (nth_ex tmp n ltac:(lia)) as (c0 & Ec0).
  eapply always_bind with (P := fun t => t = upd tmp n (mu n c0)).
  { apply always_lift. rewrite (HV _ _ _ Ec0 L). cbn [bind]. rewrite vset_in_range by lia. reflexivity. }
  intros t ->. eapply always_bind; [apply (draw01_any r RC)|]. intros u _.
  assert (R1 : forall m, in_run dim n 1 m <-> m = n). { intros m. split; [intros (j & Hj & ->); replace j with 0 by lia; rewrite Nat.add_0_r; now apply Nat.mod_small|intros ->; exists 0; split; [lia|]; rewrite Nat.add_0_r; symmetry; now apply Nat.mod_small]. }
  destruct (dlt u (de_CR d) && Nat.ltb 0 k)%bool eqn:C.
  - apply andb_prop in C. destruct C as [_ C]. apply Nat.ltb_lt in C.
    eapply always_weak; [apply (IH ((n + 1) mod dim) (upd tmp n (mu n c0))); [lia|apply Nat.mod_upper_bound; lia|rewrite upd_len; exact L]| |auto].
    intros t (Lt & L' & H1 & H2 & H). split; [exact Lt|]. exists (1 + L'). split; [lia|]. split; [lia|].
    assert (NR : ~ in_run dim ((n + 1) mod dim) L' n). { intros (j & Hj & E'). rewrite mod_next in E' by lia. symmetry in E'. revert E'. apply mod_other; lia. }
    intros m c Hc. destruct (Nat.eq_dec m n) as [->|N].
    + assert (c = c0) by congruence. subst c. destruct (H n (mu n c0)) as [_ K]; [rewrite upd_same by lia; reflexivity|]. split; [intros _; now apply K|]. intros X. elim X. exists 0. split; [lia|]. rewrite Nat.add_0_r. symmetry. now apply Nat.mod_small.
    + destruct (H m c) as [K1 K2]; [rewrite upd_other by exact N; exact Hc|]. split.
      * intros (j & Hj & E'). apply K1. destruct j as [|j]; [rewrite Nat.add_0_r, Nat.mod_small in E' by exact Hn; contradiction|]. exists j. split; [lia|]. rewrite mod_next by lia. exact E'.
      * intros X. apply K2. intros (j & Hj & E'). apply X. exists (1 + j). split; [lia|]. rewrite mod_next in E' by lia. exact E'.
  - apply always_ret. split; [rewrite upd_len; exact L|]. exists 1. split; [lia|]. split; [lia|]. intros m c Hc. rewrite R1. split.
    + intros ->. rewrite upd_same by lia. congruence.
    + intros N. rewrite upd_other by exact N. exact Hc.
Qed.
Lemma bin_loop_run E n tmp : n < dim -> length tmp = dim ->
  always (bin_loop r d value dim n tmp) (fun t => length t = dim /\ (exists m c, nth_error tmp m = Some c /\ nth_error t m = Some (mu m c)) /\
    forall m c, nth_error tmp m = Some c -> nth_error t m = Some (mu m c) \/ nth_error t m = Some c) E.
Proof.
  intros Hn L. unfold bin_loop. eapply always_bind.
  - apply (always_seq _ (fun k st => snd st = (n + k) mod dim /\ length (fst st) = dim /\
      (forall m c, nth_error tmp m = Some c -> nth_error (fst st) m = Some (mu m c) \/ nth_error (fst st) m = Some c) /\
      (forall m c, ~ in_run dim n k m -> nth_error tmp m = Some c -> nth_error (fst st) m = Some c) /\
      (k = dim -> exists m c, nth_error tmp m = Some c /\ nth_error (fst st) m = Some (mu m c))) E dim 0).
    + cbn [fst snd]. split; [rewrite Nat.add_0_r; symmetry; now apply Nat.mod_small|]. split; [exact L|]. split; [auto|]. split; [auto|]. intros; lia.
    + intros k [t m] Hk (Hm & Lt & A1 & A2 & _). cbn [fst snd] in *. eapply always_bind; [apply (draw01_any r RC)|]. intros u _.
      assert (LM : m < dim) by (rewrite Hm; apply Nat.mod_upper_bound; lia). destruct (nth_ex tmp m ltac:(lia)) as (c0 & Ec0).
      assert (NR : ~ in_run dim n k m).
      { intros (j & Hj & E'). rewrite Hm in E'. assert (X : ((n + j) mod dim + (k - j)) mod dim = (n + j) mod dim) by (rewrite <- E' at 2; rewrite Nat.add_mod_idemp_l by lia; f_equal; lia).
        revert X. apply mod_other; [apply Nat.mod_upper_bound; lia|lia|lia]. }
      assert (E0 : nth_error t m = Some c0) by (apply A2; assumption).
      eapply always_bind with (P := fun t' => t' = upd t m (mu m c0) \/ (t' = t /\ k + 1 <> dim)).
      * destruct (_ || _)%bool eqn:C.
        -- apply always_lift. rewrite (HV _ _ _ E0 Lt). cbn [bind]. rewrite vset_in_range by lia. now left.
        -- apply always_ret. right. split; [reflexivity|]. apply orb_false_elim in C. destruct C as [_ C]. now apply Nat.eqb_neq in C.
      * intros t' HT. apply always_ret. cbn [fst snd]. split; [rewrite Hm, Nat.add_mod_idemp_l by lia; f_equal; lia|].
        assert (SUB : forall j, ~ in_run dim n (k + 1) j -> ~ in_run dim n k j /\ j <> m). { intros j X. split; [intros (q & Q1 & Q2); apply X; exists q; split; [lia|exact Q2]|]. intros ->. apply X. exists k. split; [lia|exact Hm]. }
        destruct HT as [->|[-> NK]].
        -- split; [rewrite upd_len; exact Lt|]. split; [intros j c Hc; destruct (Nat.eq_dec j m) as [->|N]; [rewrite upd_same by lia; left; congruence|rewrite upd_other by exact N; auto]|].
           split; [intros j c X Hc; destruct (SUB j X) as [Y N]; rewrite upd_other by exact N; auto|]. intros _. exists m, c0. split; [exact Ec0|]. rewrite upd_same by lia. reflexivity.
        -- split; [exact Lt|]. split; [exact A1|]. split; [intros j c X Hc; destruct (SUB j X) as [Y N]; auto|]. intros; contradiction.
  - intros [t m] (_ & Lt & A1 & _ & A3). cbn [fst snd] in *. apply always_ret. auto.
Qed.
End T.

Lemma vget_nth {A} (l : list A) i (z : A) : i < length l -> vget l i = Ok (nth i l z).
Proof. intros H. unfold vget. now rewrite (nth_error_nth' l z H). Qed.
Lemma vget_comp old k n : k < length old -> (forall x, In x old -> n < length x) -> at2 old k n = Ok (comp old k n).
Proof. intros H1 H2. unfold at2, comp. rewrite (vget_nth old k []) by exact H1. cbn [bind]. apply vget_nth. apply H2. now apply nth_In. Qed.
Lemma de_value_formula d dim old gb ri tmp m c : 1 <= de_variant d <= 10 -> (forall x, In x old -> length x = dim) -> length gb = dim -> five (length old) ri ->
  nth_error tmp m = Some c -> length tmp = dim ->
  de_value d old gb ri tmp m = Ok (de_formula (de_variant d) (de_F d) (nth m gb NaN) c (comp old (nth 0 ri 0) m) (comp old (nth 1 ri 0) m) (comp old (nth 2 ri 0) m) (comp old (nth 3 ri 0) m) (comp old (nth 4 ri 0) m)).
Proof.
  intros VAR LO LG (L5 & _ & R5) Et Lt. unfold de_value. assert (Hm : m < dim) by (rewrite <- Lt; apply nth_error_Some; congruence).
  assert (C : forall k, k < 5 -> bind (vget ri k) (fun a => at2 old a m) = Ok (comp old (nth k ri 0) m)).
  { intros k Hk. rewrite (vget_nth ri k 0) by lia. cbn [bind]. apply vget_comp; [apply R5; apply nth_In; lia|]. intros x Hx. now rewrite (LO x Hx). }
  rewrite !C by lia. rewrite (vget_nth gb m NaN) by lia. cbn [bind]. unfold vget at 1 2. rewrite Et. cbn [bind]. unfold de_formula.
  assert (HV : de_variant d = 1 \/ de_variant d = 6 \/ de_variant d = 2 \/ de_variant d = 7 \/ de_variant d = 3 \/ de_variant d = 8 \/ de_variant d = 4 \/ de_variant d = 9 \/ de_variant d = 5 \/ de_variant d = 10) by lia.
  destruct HV as [->|[->|[->|[->|[->|[->|[->|[->|[->| ->]]]]]]]]]; reflexivity.
Qed.
Lemma de_trial_run G (r : rng G) (RC : rng_contract r) d dim old gb ri i E : 1 <= de_variant d <= 10 -> 1 <= dim -> (forall x, In x old -> length x = dim) -> length gb = dim -> five (length old) ri -> i < length old ->
  always (de_trial r d dim old gb ri i) (fun t => length t = dim /\
    (forall m, m < dim -> nth m t NaN = de_mutant (de_variant d) (de_F d) old gb ri i m \/ nth m t NaN = comp old i m) /\
    (exists m, m < dim /\ nth m t NaN = de_mutant (de_variant d) (de_F d) old gb ri i m) /\
    (de_variant d <= 5 -> exists n L, n < dim /\ 1 <= L <= dim /\ forall m, m < dim ->
       (in_run dim n L m -> nth m t NaN = de_mutant (de_variant d) (de_F d) old gb ri i m) /\ (~ in_run dim n L m -> nth m t NaN = comp old i m))) E.
Proof.
  intros VAR HD LO LG F5 Hi. unfold de_trial. destruct (vget_in_range old i Hi) as (x & Ex & Nx). pose proof (LO x (nth_error_In _ _ Nx)) as Lx.
  eapply always_bind; [apply (always_vget _ _ x (fun v => v = x)); auto|]. intros t ->.
  eapply always_bind; [apply (draw_int_ok r RC 0 (Z.of_nat dim - 1)); lia|]. intros n Hn. cbv beta in Hn.
  set (mu := fun m c => de_formula (de_variant d) (de_F d) (nth m gb NaN) c (comp old (nth 0 ri 0) m) (comp old (nth 1 ri 0) m) (comp old (nth 2 ri 0) m) (comp old (nth 3 ri 0) m) (comp old (nth 4 ri 0) m)).
  assert (HV : forall t m c, nth_error t m = Some c -> length t = dim -> de_value d old gb ri t m = Ok (mu m c)) by (intros t m c A B; apply (de_value_formula d dim); auto).
  assert (CX : forall m, m < dim -> nth_error x m = Some (comp old i m)). { intros m Hm. unfold comp. rewrite (nth_error_nth old i [] Nx). apply nth_error_nth'. lia. }
  assert (MU : forall m, mu m (comp old i m) = de_mutant (de_variant d) (de_F d) old gb ri i m) by reflexivity.
  destruct (Nat.leb_spec (de_variant d) 5) as [C|C].
  - eapply always_weak; [apply (exp_loop_run r RC d dim mu (de_value d old gb ri) HV E dim (Z.to_nat n) x); lia| |auto].
    intros t (Lt & L & H1 & H2 & H). split; [exact Lt|].
    assert (DEC : forall m, in_run dim (Z.to_nat n) L m \/ ~ in_run dim (Z.to_nat n) L m).
    { intros m. destruct (existsb (fun k => Nat.eqb m ((Z.to_nat n + k) mod dim)) (seq 0 L)) eqn:B.
      - left. apply existsb_exists in B. destruct B as (k & Hk & B). apply in_seq in Hk. apply Nat.eqb_eq in B. exists k. split; [lia|exact B].
      - right. intros (k & Hk & ->). assert (existsb (fun k0 => Nat.eqb ((Z.to_nat n + k) mod dim) ((Z.to_nat n + k0) mod dim)) (seq 0 L) = true); [|congruence].
        apply existsb_exists. exists k. split; [apply in_seq; lia|apply Nat.eqb_refl]. }
    assert (K : forall m, m < dim -> (in_run dim (Z.to_nat n) L m -> nth m t NaN = de_mutant (de_variant d) (de_F d) old gb ri i m) /\ (~ in_run dim (Z.to_nat n) L m -> nth m t NaN = comp old i m)).
    { intros m Hm. destruct (H m _ (CX m Hm)) as [K1 K2]. split; intros X; apply nth_error_nth; [rewrite <- MU|]; auto. }
    split; [intros m Hm; destruct (DEC m); [left|right]; now apply K|]. split.
    + exists (Z.to_nat n). split; [lia|]. apply K; [lia|]. exists 0. split; [lia|]. rewrite Nat.add_0_r. symmetry. apply Nat.mod_small. lia.
    + intros _. exists (Z.to_nat n), L. split; [lia|]. split; [lia|]. exact K.
  - eapply always_weak; [apply (bin_loop_run r RC d dim mu (de_value d old gb ri) HV E (Z.to_nat n) x); lia| |auto].
    intros t (Lt & (m0 & c0 & Q1 & Q2) & H). split; [exact Lt|]. split; [|split; [|lia]].
    + intros m Hm. destruct (H m _ (CX m Hm)) as [K|K]; [left; rewrite <- MU|right]; now apply nth_error_nth.
    + assert (Hm : m0 < dim) by (rewrite <- Lx; apply nth_error_Some; congruence). exists m0. split; [exact Hm|]. assert (c0 = comp old i m0) by (rewrite (CX m0 Hm) in Q1; congruence). subst c0. rewrite <- MU. now apply nth_error_nth.
Qed.
