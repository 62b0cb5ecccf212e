From Coq Require Import List Bool Arith ZArith Lia Permutation.
From Verif Require Import Dbl DblFacts IntDbl Outcome BaseFacts StdSort SpecOrder MultiObj SpecMultiObj Problem SpecProblem Rng Generic SpecGeneric GenericFacts3
  SpecGenetic RmFacts GeneticOps GeneticFacts Population SpecPopulation PopulationFacts Algo SpecAlgo AlgoFacts AlgoFacts2 AlgSga SpecSga AlgSgaFacts4 AlgNsga2 SpecNsga2 AlgNsga2Facts AlgNsga2Facts5 SpecCmaes AlgMoead SpecMoead AlgMoeadFacts AlgMoeadFacts2 AlgMoeadGen.
Import ListNotations.
Lemma ends_rmap {S A B} {W : Prop} (f : A -> RM S B) (J : S -> Prop) (R : A -> B -> Prop) E l : (forall x s, In x l -> J s -> ends_w W (f x) s (fun b s' => J s' /\ R x b) E) ->
  forall s, J s -> ends_w W (rmap f l) s (fun bs s' => J s' /\ Forall2 R l bs) E.
Proof.
  induction l as [|x l IH]; intros H s Js; cbn [rmap]; [apply ends_ret; split; [exact Js|constructor]|].
  apply ends_bind. eapply ends_weak; [apply H; [now left|exact Js]| |auto]. intros b s1 [J1 Rb]. cbv beta. apply ends_bind.
  eapply ends_weak; [apply IH; [intros y t Hy; apply H; now right|exact J1]| |auto]. intros bs s2 [J2 Rs]. apply ends_ret. split; [exact J2|now constructor].
Qed.
Lemma firstn_S {A} (l : list A) i x : nth_error l i = Some x -> firstn (i + 1) l = firstn i l ++ [x].
Proof. revert i. induction l as [|y l IH]; intros [|i] H; cbn in *; try discriminate; [now injection H as ->|]. now rewrite (IH i H). Qed.

Section Run.
Context {G P : Type} (r : rng G) (RC : rng_contract r) (pw : dbl -> dbl -> dbl) (shuf : forall A, list A -> G -> list A * G) (SC : shuffle_contract shuf).
Context (fuel : nat) (a : moead_params) (bfe : option (problem -> list dbl -> outcome (list dbl))).
Context (p : problem) (EVL : evaluates bfe p) (PO : prob_obj p) (MP : mo_problem p) (NP : nat) (Box : list dbl -> Prop).
Context (BL : forall x, Box x -> length x = get_nx p).
Context (CH : forall X n p0 p1, (forall x, In x X -> Box x) -> n < length X -> p0 < length X -> p1 < length X -> always (moead_child r pw a p X n p0 p1) Box never).
Context (ws : list (list dbl)) (HW : weights_for (get_nf p) NP ws) (neigh : list (list nat)) (LN : length neigh = NP).
Context (HN : forall n nb, nth_error neigh n = Some nb -> nb <> [] /\ forall i, In i nb -> i < NP).
Context (DM : me_dec a <> OtherMethod) (NF : 0 < get_nf p).
Context (W : Prop) (SEL : forall nb whole g, In nb neigh -> ends_w W (select_parents r fuel NP nb whole) g (fun ps _ => 2 <= length ps /\ forall i, In i ps -> i < NP) never).
Notation step := (moead_step (P := P) (me_dec a) (me_limit a) (me_div a) Box ws neigh).
Notation fit := (fit (G := G) (P := P) p NP Box).

Lemma child_plan X n g : (forall x, In x X -> Box x) -> length X = NP -> n < NP ->
  ends_w W (mgen_child r pw fuel a p X neigh n) g (fun c _ => Box (fst c) /\ (snd c = true -> me_div a = true)) never.
Proof.
  intros BX LX Hn. unfold mgen_child. apply ends_bind. pose proof (draw01_any r RC never g) as D. unfold ends_w at 1. destruct (draw01 r g) as [[v|e| |] g1]; cbn [fst] in D; try contradiction; cbv zeta.
  set (whole := negb (dlt v (me_realb a) || negb (me_div a))). destruct (nth_ex neigh n ltac:(lia)) as (nb & Nn).
  apply ends_bind. eapply ends_lift_ok; [apply vget_ok; exact Nn|]. apply ends_bind. rewrite LN. eapply ends_weak; [apply (SEL nb whole); eapply nth_error_In; exact Nn| |intros e []]. intros ps g2 [LP HP]. cbv beta.
  destruct (vget_in_range ps 0 ltac:(lia)) as (p0 & E0 & N0). destruct (vget_in_range ps 1 ltac:(lia)) as (p1 & E1 & N1). apply nth_error_In in N0, N1. apply HP in N0, N1.
  apply ends_bind. eapply ends_lift_ok; [exact E0|]. apply ends_bind. eapply ends_lift_ok; [exact E1|]. apply ends_bind.
  pose proof (CH X n p0 p1 BX ltac:(lia) ltac:(lia) ltac:(lia) g2) as C. unfold ends_w at 1. destruct (moead_child r pw a p X n p0 p1 g2) as [[x|e| |] g3]; cbn [fst] in C; try contradiction.
  apply ends_ret. cbn [fst snd]. split; [exact C|]. unfold whole. destruct (me_div a); [reflexivity|]. rewrite orb_true_r. discriminate.
Qed.
Lemma seq_eval xs (g : G) (po : pop P) F : po_prob po = p -> Forall2 (evaluated p) xs F ->
  rmap peval xs (g, po) = (Ok F, (g, match xs with [] => po | _ => with_fevals po (wrap64 (po_fevals po + Z.of_nat (length xs))) end)).
Proof.
  intros EP EV. revert po EP. induction EV as [|x f xs F (Lx & Lf & U) EV IH]; intros po EP; [reflexivity|]. cbn [rmap]. unfold rbind at 1. unfold peval at 1. cbn [fst snd].
  pose proof (fitness_cases (po_prob po) (po_fevals po) x) as K. rewrite EP in K. destruct K as [(f' & EQ & U' & _ & _)|(o & EQ & NO)].
  - rewrite EP, EQ. rewrite U in U'. injection U' as <-. unfold rbind. rewrite (IH (with_fevals po (wrap64 (po_fevals po + 1))) EP). unfold rret. f_equal. f_equal.
    destruct xs as [|y xs]; [reflexivity|]. cbn [with_fevals po_prob po_fevals po_id po_x po_f po_cx po_cf po_rng]. unfold with_fevals. cbn [po_prob po_fevals po_id po_x po_f po_cx po_cf po_rng]. f_equal. rewrite wrap64_add. f_equal. cbn [length]. lia.
  - exfalso. unfold fitness, prob_check_dv, prob_check_fv, throw_if in EQ. rewrite Lx, Nat.eqb_refl in EQ. cbn [negb bind] in EQ. rewrite U in EQ. cbn [bind] in EQ. rewrite Lf, Nat.eqb_refl in EQ. cbn in EQ. injection EQ as <- _. discriminate.
Qed.
Lemma total_all xs : total_fitness p -> (forall x, In x xs -> length x = get_nx p) -> exists F, Forall2 (evaluated p) xs F.
Proof.
  clear. intros TF. induction xs as [|x xs IH]; intros H; [exists []; constructor|]. destruct (TF x (H x (or_introl eq_refl))) as (f & E). destruct IH as (F & EF); [intros y Hy; apply H; now right|]. exists (f :: F). now constructor.
Qed.
Lemma eval_ok k s0 z xs s : fit k s0 z s -> (forall x, In x xs -> length x = get_nx p) ->
  ends_w W (mgen_eval bfe xs) s (fun fs s' => fit (k + length xs) s0 z s' /\ Forall2 (evaluated p) xs fs /\ po_x (snd s') = po_x (snd s) /\ po_f (snd s') = po_f (snd s) /\ po_id (snd s') = po_id (snd s)) (fitness_throws p).
Proof.
  intros FT HX. unfold mgen_eval. unfold evaluates in EVL. destruct bfe as [ud|].
  - destruct EVL as [TF FB]. destruct (total_all xs TF HX) as (F & EF). destruct s as [g po]. destruct FT as (V & EP & EN & BX & Lz & EV). cbn [snd] in *.
    unfold ends_w. rewrite (eval_batch_eq ud p FB PO MP xs F g po EP EF). cbn [snd]. split; [|split; [exact EF|split; [reflexivity|split; reflexivity]]].
    split; [exact V|]. split; [exact EP|]. split; [exact EN|]. split; [exact BX|]. split; [exact Lz|]. unfold evals in *. cbn [snd with_fevals po_fevals].
    assert (K : forall u v b, wrap64 u = wrap64 v -> wrap64 (u + b) = wrap64 (v + b)) by (intros u v b E; rewrite <- (wrap64_add u), E; apply wrap64_add).
    rewrite <- (Z.add_0_r (wrap64 (po_fevals po + Z.of_nat (length xs)))), wrap64_add, Z.add_0_r, (K _ _ _ EV). f_equal. lia.
  - revert k s FT. induction xs as [|x xs IH]; intros k s FT; cbn [rmap].
    + apply ends_ret. rewrite Nat.add_0_r. split; [exact FT|]. split; [constructor|]. split; [reflexivity|split; reflexivity].
    + destruct FT as (V & EP & EN & BX & Lz & EV). apply ends_bind. apply (ends_peval p x); [exact EP|exact EVL|apply HX; now left|auto|]. intros f Ef. cbv beta. apply ends_bind.
      eapply ends_weak; [apply (IH ltac:(intros y Hy; apply HX; now right) (k + 1))| |auto].
      * split; [exact V|]. split; [exact EP|]. split; [exact EN|]. split; [exact BX|]. split; [exact Lz|]. apply evals_S, EV.
      * intros fs s2 (F2 & E2 & X2 & Y2 & Z2). apply ends_ret. cbn [length]. replace (k + S (length xs)) with (k + 1 + length xs) by lia. split; [exact F2|]. split; [now constructor|]. split; [exact X2|]. split; [exact Y2|exact Z2].
Qed.
Lemma place_ok k s0 sh plan fs z s i n x whole f : fit k s0 z s -> nth_error sh i = Some n -> n < NP -> nth_error plan i = Some (x, whole) -> nth_error fs i = Some f ->
  evaluated p x f -> Box x -> (whole = true -> me_div a = true) ->
  ends_w W (mgen_place shuf a ws neigh sh plan fs z i) s (fun z' s' => fit k s0 z' s' /\ step n z (snd s) z' (snd s')) (fitness_throws p).
Proof.
  intros (V & EP & EN & BX & Lz & EVs) Ni Hn Np Nf EVf Bx WD. unfold mgen_place. apply ends_bind. eapply ends_lift_ok; [apply vget_ok; exact Ni|]. apply ends_bind. eapply ends_lift_ok; [apply vget_ok; exact Nf|].
  apply ends_bind. eapply ends_lift_ok; [apply vget_ok; exact Np|]. cbv zeta. cbn [fst snd]. destruct (nth_ex neigh n ltac:(lia)) as (nb & Nn). destruct (HN n nb Nn) as [NB HB].
  assert (LF : length f = length z) by (rewrite Lz; apply EVf). pose proof (ideal_step z f LF) as LO. set (z' := moead_ideal z f) in *. assert (Lz' : length z' = get_nf p) by (rewrite (proj1 LO); exact Lz).
  apply ends_bind. destruct s as [g0 s1]. cbn [fst snd] in *. eapply ends_weak; [apply (insert_ok shuf SC a s1) with (nb := nb)| |intros e K; exact K].
  - exact V.
  - rewrite EP, EN. exact HW.
  - exact DM.
  - rewrite EP. exact NF.
  - rewrite EP. exact Lz'.
  - rewrite EP. exact EVf.
  - lia.
  - exact Nn.
  - rewrite EN. exact HB.
  - exact WD.
  - intros u s2 (R & (V2 & FE & OV & BT) & A1 & A2 & A3). apply ends_ret. pose proof OV as (O1 & O2 & O3 & O4 & _ & O6 & O7). split.
    + split; [exact V2|]. split; [rewrite O1; exact EP|]. split; [rewrite O2; exact EN|]. split; [|split; [exact Lz'|]].
      * intros y Hy. apply In_nth_error in Hy. destruct Hy as (j & Ej). destruct (in_dec Nat.eq_dec j R) as [K|K]; [rewrite (proj1 (O6 j K)) in Ej; injection Ej as <-; exact Bx|]. rewrite (proj1 (O7 j K)) in Ej. apply BX. eapply nth_error_In. exact Ej.
      * unfold evals in *. rewrite FE. exact EVs.
    + exists x, f, R, nb. split; [rewrite EP; exact EVf|]. split; [exact Bx|]. split; [exact LO|]. split; [exact OV|]. split; [intros j Hj; apply (BT j Hj)|]. split; [exact A1|]. split; [exact Nn|]. split; [exact A2|exact A3].
Qed.
Lemma steps_same ns z s s1 z' s' : po_prob s1 = po_prob s -> po_id s1 = po_id s -> po_x s1 = po_x s -> po_f s1 = po_f s -> ns <> [] ->
  moead_steps (P := P) (me_dec a) (me_limit a) (me_div a) Box ws neigh ns z s1 z' s' -> moead_steps (me_dec a) (me_limit a) (me_div a) Box ws neigh ns z s z' s'.
Proof.
  clear. intros E1 E2 E3 E4 NE H. remember s1 as t eqn:Et. revert NE Et. induction H as [z t|n ns z t z1 t1 z2 t2 H IH ST]; intros NE Et; [congruence|].
  destruct ns as [|m ns].
  - inversion H as [z0 t0 e1 e2 e3 e4 e5|n0 ns0 ? ? ? ? ? ? ? ? e1]; [|destruct ns0; discriminate e1]. subst. eapply ms_more; [apply ms_none|].
    destruct ST as (x & f & R & nb & A1 & A2 & A3 & (O1 & O2 & O3 & O4 & O5 & O6 & O7) & A5 & A6 & A7 & A8 & A9). exists x, f, R, nb. unfold overwrites, beaten in *. rewrite <- E1, <- E2, <- E3, <- E4. exact (conj A1 (conj A2 (conj A3 (conj (conj O1 (conj O2 (conj O3 (conj O4 (conj O5 (conj O6 O7)))))) (conj A5 (conj A6 (conj A7 (conj A8 A9)))))))).
  - eapply ms_more; [apply IH; [exact E1|exact E2|exact E3|exact E4|discriminate|exact Et]|exact ST].
Qed.
Lemma generation_ok k s0 st s : fit k s0 (snd st) s -> Permutation (seq 0 NP) (fst st) -> 0 < NP ->
  ends_w W (mgen_generation r pw shuf fuel a bfe ws neigh st) s
    (fun st' s' => Permutation (seq 0 NP) (fst st') /\ fit (k + NP) s0 (snd st') s' /\ moead_steps (me_dec a) (me_limit a) (me_div a) Box ws neigh (fst st') (snd st) (snd s) (snd st') (snd s')) (fitness_throws p).
Proof.
  intros FT PM H0. pose proof FT as (V & EP & EN & BX & Lz & EVs). pose proof V as (_ & (L1 & L2 & _) & _). unfold mgen_generation. apply ends_bind, ends_getp. apply ends_bind. apply ends_eng with (Q1 := fun sh => Permutation (seq 0 NP) sh).
  { intros g'. unfold rdraw. pose proof (SC nat (fst st) g') as H. destruct (shuf nat _ g') as [sh g'']. cbn [fst] in *. eapply perm_trans; eassumption. }
  intros sh g P2. assert (HB : forall n, In n sh -> n < NP) by (intros n Hn; apply (Permutation_in _ (Permutation_sym P2)), in_seq in Hn; lia).
  pose proof (Permutation_length P2) as PL. rewrite seq_length in PL. apply ends_bind. apply ends_eng_w. rewrite EP. cbn [fst snd].
  eapply ends_weak; [apply (ends_rmap (W := W) _ (fun _ : G => True) (fun n c => Box (fst c) /\ (snd c = true -> me_div a = true)) never sh)| |intros e []].
  { intros n g' Hn _. eapply ends_weak; [apply (child_plan (po_x (snd s)) n g' BX ltac:(lia) (HB n Hn))| |intros e []]. intros c g'' Hc. split; [exact I|exact Hc]. }
  { exact I. }
  intros plan g2 [_ HP]. cbv beta. apply ends_bind. eapply ends_weak; [apply (eval_ok k s0 (snd st) (map fst plan) (g2, snd s))| |auto].
  { exact FT. }
  { intros x Hx. apply in_map_iff in Hx. destruct Hx as (c & <- & Hc). apply BL. apply In_nth_error in Hc. destruct Hc as (i & Hi). destruct (nth_ex sh i) as (n & Nn); [rewrite (Forall2_len _ _ _ HP); apply nth_error_Some; congruence|]. exact (proj1 (Forall2_at _ _ _ HP i n c Nn Hi)). }
  intros fs s2 (F2 & EF & X2 & Y2 & Z2). cbv beta. apply ends_bind.
  pose proof (Forall2_len _ _ _ HP) as LP. pose proof (Forall2_len _ _ _ EF) as LF. rewrite map_length in LF. rewrite map_length in F2. rewrite <- LP, <- PL in F2.
  eapply ends_weak; [apply (ends_seq (W := W) (mgen_place shuf a ws neigh sh plan fs)
     (fun i z' s' => fit (k + NP) s0 z' s' /\ moead_steps (me_dec a) (me_limit a) (me_div a) Box ws neigh (firstn i sh) (snd st) (snd s2) z' (snd s')) (fitness_throws p))| |auto].
  - split; [exact F2|apply ms_none].
  - intros i z' s' Hi [F3 S3]. destruct (nth_ex sh i ltac:(lia)) as (n & Nn). destruct (nth_ex plan i ltac:(lia)) as ([x whole] & Np). destruct (nth_ex fs i ltac:(lia)) as (f & Nf).
    pose proof (Forall2_at _ _ _ HP i n _ Nn Np) as [Bx WD]. cbn [fst snd] in Bx, WD. assert (EVf : evaluated p x f) by (eapply (Forall2_at _ _ _ EF i); [rewrite nth_error_map, Np; reflexivity|exact Nf]).
    eapply ends_weak; [apply (place_ok (k + NP) s0 sh plan fs z' s' i n x whole f F3 Nn (HB n (nth_error_In _ _ Nn)) Np Nf EVf Bx WD)| |auto].
    intros z3 s3 [F4 S4]. split; [exact F4|]. rewrite (firstn_S sh i n Nn). eapply ms_more; eassumption.
  - intros z' s' [F3 S3]. apply ends_ret. cbn [fst snd]. rewrite Nat.add_0_l, firstn_all in S3. split; [exact P2|]. split; [exact F3|].
    eapply steps_same; [| | | | |exact S3]; try assumption; [|destruct sh; [cbn in PL; lia|discriminate]]. destruct F2 as (_ & EP2 & _). congruence.
Qed.
Lemma gens_ok s0 gens : 0 < NP -> forall k st s, fit k s0 (snd st) s -> Permutation (seq 0 NP) (fst st) ->
  ends_w W (rfold (fun st _ => mgen_generation r pw shuf fuel a bfe ws neigh st) st (seq 0 gens)) s
    (fun st' s' => fit (k + gens * NP) s0 (snd st') s' /\ moead_generations (me_dec a) (me_limit a) (me_div a) Box ws neigh NP gens (snd st) (snd s) (snd st') (snd s')) (fitness_throws p).
Proof.
  intros H0 k st s FT PM. eapply ends_weak; [apply (ends_seq (W := W) (fun st _ => mgen_generation r pw shuf fuel a bfe ws neigh st)
    (fun i st' s' => Permutation (seq 0 NP) (fst st') /\ fit (k + i * NP) s0 (snd st') s' /\ moead_generations (me_dec a) (me_limit a) (me_div a) Box ws neigh NP i (snd st) (snd s) (snd st') (snd s')) (fitness_throws p))| |auto].
  - split; [exact PM|]. rewrite Nat.mul_0_l, Nat.add_0_r. split; [exact FT|apply mg_none].
  - intros i st1 s1 _ (P1 & F1 & G1). eapply ends_weak; [apply (generation_ok (k + i * NP) s0 st1 s1 F1 P1 H0)| |auto]. intros st2 s2 (P2 & F2 & S2). split; [exact P2|].
    replace (k + (i + 1) * NP) with (k + i * NP + NP) by lia. split; [exact F2|]. rewrite Nat.add_1_r. eapply mg_more; eassumption.
  - intros st' s' (_ & H). exact H.
Qed.
End Run.
