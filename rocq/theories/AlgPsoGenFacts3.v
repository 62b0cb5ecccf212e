From Coq Require Import List Bool Arith ZArith Lia.
From Verif Require Import Dbl DblFacts Outcome BaseFacts StdSort Compare SpecOrder CompareFacts Problem SpecProblem ProblemFacts Rng Generic SpecGeneric GenericFacts GenericFacts3 SpecGenetic RmFacts GeneticOps GeneticFacts Population SpecPopulation PopulationFacts PopulationFacts3 Algo SpecAlgo AlgoFacts AlgoFacts2
  AlgSaFacts AlgSaFacts2 AlgSgaFacts4 AlgGwoFacts AlgGwoFacts2 SpecSwarm AlgNsga2 SpecNsga2 AlgNsga2Facts5 SpecCmaes AlgMoeadGen AlgMoeadGenFacts AlgMoeadGenFacts3 AlgPso SpecPso AlgPsoFacts AlgPsoFacts2 AlgPsoFacts3 AlgPsoGen SpecPsoGen AlgPsoGenFacts AlgPsoGenFacts2.
Import ListNotations.

Section S.
Context {G P : Type} (srt : sorter) (r : rng G) (reseed : problem -> Z -> problem) (bfe : option (problem -> list dbl -> outcome (list dbl))).
Lemma pgen_rejects (a : pso_params) V0 (s : G * pop P) : get_nc (po_prob (snd s)) <> 0 \/ get_nf (po_prob (snd s)) <> 1 \/ po_id (snd s) = [] -> pgen_evolve srt r reseed bfe a V0 s = (Throw InvalidArgument, s).
Proof.
  intros H. unfold pgen_evolve, rbind, getp. cbv beta iota zeta. destruct (Nat.eqb_spec (get_nc (po_prob (snd s))) 0) as [E1|E1]; cbn [negb]; [|reflexivity].
  destruct (Nat.eqb_spec (get_nf (po_prob (snd s))) 1) as [E2|E2]; cbn [negb]; [|reflexivity]. destruct (Nat.eqb_spec (length (po_id (snd s))) 0) as [Q|Q]; [reflexivity|]. exfalso. destruct H as [H|[H|H]]; [contradiction|contradiction|]. rewrite H in Q. now apply Q.
Qed.
Context (RC : rng_contract r).
Notation trivial := (fun _ : dbl => True).
Section At.
Context (a : pso_params) (V0 : list (list dbl)) (s : G * pop P) (p : problem) (CO : pso_construct a = Ok tt) (EPs : po_prob (snd s) = p) (V : valid_pop (snd s)) (EP : es_problem reseed bfe p) (NE : po_id (snd s) <> []) (HS : (Z.of_nat (length (po_id (snd s))) < 2 ^ 31)%Z)
  (HR : ring_fits a (length (po_id (snd s)))) (HV : speeds_fit a V0 (length (po_id (snd s))) (get_nx p)).
Lemma pgen_ok_nan : ends (pgen_evolve srt r reseed bfe a V0) s
    (fun V s' => pgen_run reseed (in_box_or_nan (p_lb p) (p_ub p)) (ps_gen a) (snd s) (snd s') /\ length V = length (po_id (snd s)) /\ forall v, In v V -> get_nx p <= length v) (pgen_fails reseed a p).
Proof.
  pose proof V as (PO & _). rewrite EPs in PO. destruct (construct_facts a CO) as (C1 & C2 & C3 & C4 & C5). set (n := length (po_id (snd s))) in *.
  assert (Hn : 0 < n) by (unfold n; destruct (po_id (snd s)); [congruence|cbn; lia]).
  assert (T : forall x : list dbl, Forall (fun _ => True) x) by (intros x; apply Forall_forall; auto).
  eapply ends_weak; [apply (AlgPsoGenFacts2.evolve_ok srt r RC reseed bfe a p n (pso_most a n) EP Hn (fun l u v => v = NaN \/ within l u v) trivial trivial trivial trivial) with (V0 := V0)| |auto]; auto.
  - intros i l u v x Nl Nu _ _. split; [auto|]. split; [auto|]. apply move_box. exact (prob_obj_ord p PO i l u Nl Nu).
  - intros i l u Nl Nu. apply wide; auto. exact (prob_obj_ord p PO i l u Nl Nu).
  - intros _. unfold pso_most. lia.
  - assert (2 ^ 31 < 2 ^ 64)%Z by reflexivity. lia.
  - unfold pso_most. lia.
  - intros V' s' (A & D & F). split; [exact A|]. split; [exact D|]. intros v Hv. now apply F.
Qed.
End At.
End S.

Section B.
Context {G P : Type} (srt : sorter) (r : rng G) (reseed : problem -> Z -> problem) (bfe : option (problem -> list dbl -> outcome (list dbl))) (RC : rng_contract r).
Lemma pgen_ok_box (a : pso_params) V0 (s : G * pop P) p : pso_valid a -> (ps_variant a = 6 -> dlt dzero (ps_omega a) = true) -> (Z.of_nat (ps_nparam a) < 2 ^ 32)%Z ->
  po_prob (snd s) = p -> valid_pop (snd s) -> es_problem reseed bfe p -> po_id (snd s) <> [] -> (Z.of_nat (length (po_id (snd s))) < 2 ^ 31)%Z ->
  ring_fits a (length (po_id (snd s))) -> speeds_fit a V0 (length (po_id (snd s))) (get_nx p) ->
  (forall l, In l (p_lb p) -> below_2p900 l) -> (forall u, In u (p_ub p) -> below_2p900 u) -> (forall x v, In x (po_x (snd s)) -> In v x -> below_2p900 v) -> (forall x v, In x V0 -> In v x -> below_2p900 v) ->
  ends (pgen_evolve srt r reseed bfe a V0) s (fun V s' => pgen_run reseed (in_box (p_lb p) (p_ub p)) (ps_gen a) (snd s) (snd s') /\ length V = length (po_id (snd s)) /\ forall v, In v V -> get_nx p <= length v) (pgen_fails reseed a p).
Proof.
  intros PV HO HP EPs V EP NE HS HR HV BL BU BX BV. pose proof V as (PO & _). rewrite EPs in PO. set (n := length (po_id (snd s))) in *.
  assert (Hn : 0 < n) by (unfold n; destruct (po_id (snd s)); [congruence|cbn; lia]). pose proof PV as (_ & _ & _ & M1 & M2 & VA & NT & NP).
  assert (M0 : dle (ps_max_vel a) dzero = false). { destruct (dle (ps_max_vel a) dzero) eqn:Q; [|reflexivity]. apply dle_dlt_false in Q. congruence. }
  assert (M3 : dgt (ps_max_vel a) done = false) by (unfold dgt; now apply dle_dlt_false).
  assert (B0 : forall k, (0 <= k)%Z -> bnd k dzero) by (intros k Hk; exists 0%Z; split; [reflexivity|rewrite Z.abs_0; apply Z.pow_nonneg; lia]).
  assert (ML : (Z.of_nat (pso_most a n) < 2 ^ 64)%Z). { unfold pso_most. rewrite !Nat2Z.inj_add, Nat2Z.inj_mul. pose proof p_small. pose proof p63. assert (Z.of_nat n * Z.of_nat (ps_nparam a) <= 2 ^ 31 * 2 ^ 32)%Z by (apply Z.mul_le_mono_nonneg; lia). lia. }
  eapply ends_weak; [apply (AlgPsoGenFacts2.evolve_ok srt r RC reseed bfe a p n (pso_most a n) EP Hn (fun l u v => within l u v) (bnd 1974) (bnd 1975) (fun v => v <> NaN) (fun v => v <> NaN)) with (V0 := V0)| |auto]; auto.
  - apply B0. lia.
  - discriminate.
  - intros v l x b r1 r2 _ H1 H2 H3 H4 H5 H6. now apply pull_nn.
  - intros s' u l x H1 H2 H3 H4. now apply sum_nn.
  - intros v s' k H6 H1 H2 H3. apply fips_nn; auto. lia.
  - intros i l u v x Nl Nu Gx Rv. apply move_bnd; auto; [exact (prob_obj_ord p PO i l u Nl Nu)|apply BL; eapply nth_error_In; eauto|apply BU; eapply nth_error_In; eauto].
  - intros i l u v Nl Nu W. assert (BW : bnd 1975 (pso_width a l u)). { unfold pso_width. apply bnd_mul_unit_r; [lia| |apply bnd_unit; [now apply dlt_dle|exact M2]]. change 1975%Z with (1974 + 1)%Z. apply bnd_sub; [lia|apply BU; eapply nth_error_In; eauto|apply BL; eapply nth_error_In; eauto]. }
    apply (bnd_within 1975 (dneg (pso_width a l u)) (pso_width a l u)); [now apply bnd_neg|exact BW|exact W].
  - intros i l u Nl Nu. apply wide; auto. exact (prob_obj_ord p PO i l u Nl Nu).
  - intros _. unfold pso_most. lia.
  - assert (2 ^ 31 < 2 ^ 64)%Z by (vm_compute; reflexivity). lia.
  - unfold pso_most. lia.
  - intros EM EL v Hv. split; [now apply HV|]. apply Forall_forall. intros w Hw. apply (bnd_weak 1974); [lia|]. now apply (BV v).
  - intros V' s' (A & D & F). split; [exact A|]. split; [exact D|]. intros v Hv. now apply F.
Qed.
End B.

(** ** A batch evaluator that does what the problem does changes nothing. *)
Section Same.
Context {G P : Type} (srt : sorter) (r : rng G) (reseed : problem -> Z -> problem) (ud : problem -> list dbl -> outcome (list dbl)) (RC : rng_contract r).
Lemma peval_eq q x f (g : G) (po : pop P) : po_prob po = q -> evaluated q x f -> peval x (g, po) = (Ok f, (g, with_fevals po (wrap64 (po_fevals po + 1)))).
Proof.
  intros EP (Lx & Lf & U). unfold peval. cbn [fst snd]. rewrite EP. unfold fitness, prob_check_dv, prob_check_fv, throw_if. rewrite Lx, Nat.eqb_refl. cbn [negb bind]. rewrite U. cbn [bind]. rewrite Lf, Nat.eqb_refl. reflexivity.
Qed.
Lemma pair_eval q X : forall Y F H (g : G) (po : pop P), po_prob po = q -> Forall2 (evaluated q) X F -> Forall2 (evaluated q) Y H -> length Y = length X ->
  rmap (fun c => rbind (peval (fst c)) (fun f => rbind (peval (snd c)) (fun h => rret (f, h)))) (combine X Y) (g, po) =
  (Ok (combine F H), (g, match X with [] => po | _ => with_fevals po (wrap64 (po_fevals po + Z.of_nat (2 * length X))) end)).
Proof.
  induction X as [|x X IH]; intros Y F H g po EP FX FY L; inversion FX as [|? f ? F' Ef Fr]; subst; (destruct Y as [|y Y]; [try discriminate L|try discriminate L]); inversion FY as [|? h ? H' Eh Hr]; subst; [reflexivity|].
  cbn [combine rmap]. unfold rbind at 1 2 3 4. cbn [fst snd]. rewrite (peval_eq _ x f g po eq_refl Ef). cbn iota. rewrite (peval_eq (po_prob po) y h g (with_fevals po (wrap64 (po_fevals po + 1))) eq_refl Eh). cbn iota. unfold rret at 1. cbn iota.
  cbn in L. match goal with |- context [rmap _ _ (g, ?q)] => rewrite (IH Y F' H' g q eq_refl Fr Hr ltac:(lia)) end. unfold rret. f_equal. f_equal. unfold with_fevals. cbn [po_prob po_fevals po_id po_x po_f po_cx po_cf po_rng]. destruct X as [|x2 X]; cbn [po_prob po_fevals po_id po_x po_f po_cx po_cf po_rng]; f_equal; rewrite wrap64_add; rewrite <- ?Z.add_assoc, ?wrap64_add; f_equal; cbn [length]; lia.
Qed.
Lemma rest_eq q X : forall F (g : G) (po : pop P), po_prob po = q -> Forall2 (evaluated q) X F -> rmap peval X (g, po) = (Ok F, (g, match X with [] => po | _ => with_fevals po (wrap64 (po_fevals po + Z.of_nat (length X))) end)).
Proof.
  induction X as [|x X IH]; intros F g po EP FX; inversion FX as [|? f ? F' Ef Fr]; subst; [reflexivity|]. cbn [rmap]. unfold rbind at 1 2. rewrite (peval_eq _ x f g po eq_refl Ef). cbn iota. rewrite (IH F' g (with_fevals po (wrap64 (po_fevals po + 1))) eq_refl Fr). unfold rret. f_equal. f_equal. unfold with_fevals. cbn [po_prob po_fevals po_id po_x po_f po_cx po_cf po_rng].
  destruct X as [|x2 X]; cbn [po_prob po_fevals po_id po_x po_f po_cx po_cf po_rng]; f_equal; rewrite ?wrap64_add; f_equal; cbn [length]; lia.
Qed.
Lemma bind_eq {Q A B} (m m' : RM Q A) (f f' : A -> RM Q B) t : m t = m' t -> (forall v t', m t = (Ok v, t') -> f v t' = f' v t') -> rbind m f t = rbind m' f' t.
Proof. intros E H. unfold rbind. rewrite <- E. destruct (m t) as [[v|e| |] t']; try reflexivity. now apply H. Qed.
Context (a : pso_params) (V0 : list (list dbl)) (s : G * pop P) (p : problem) (CO : pso_construct a = Ok tt) (EPs : po_prob (snd s) = p) (V : valid_pop (snd s)) (EP : es_problem reseed (Some ud) p) (NE : po_id (snd s) <> []) (HS : (Z.of_nat (length (po_id (snd s))) < 2 ^ 31)%Z)
  (HR : ring_fits a (length (po_id (snd s)))) (HV : speeds_fit a V0 (length (po_id (snd s))) (get_nx p)).
Notation n := (length (po_id (snd s))).
Notation sh := (shape a p n (pso_most a n) (fun _ => True)).
Notation st := (state (G := G) (P := P) reseed p (snd s)).
Lemma evaluate_same sw ks k t : sh sw -> st ks k t -> 0 < n -> pgen_evaluate r reseed (Some ud) sw t = pgen_evaluate r reseed None sw t.
Proof.
  intros SH ST Hn. pose proof SH as (LX & FX & LL & FL & _). pose proof ST as (V1 & EQ & SF & _). rewrite Forall_forall in FX, FL. destruct (at_seeds reseed (Some ud) p EP ks SF) as (PO & NX & NC & NF & NS & (TF & FB)).
  assert (XN : forall (T : Type) (u v : T), match sw_X sw with [] => u | _ => v end = v) by (intros; destruct (sw_X sw); [cbn in LX; lia|reflexivity]).
  unfold pgen_evaluate. apply bind_eq; [reflexivity|]. intros ? ? E0. injection E0 as <- <-. destruct (u_set_seed (p_udp (po_prob (snd t)))) eqn:ES.
  - apply bind_eq; [reflexivity|]. intros sd t1 ED. assert (S1 : snd t1 = snd t) by (unfold eng in ED; destruct (draw_int r 0 (2 ^ 32 - 1) (fst t)); injection ED as _ <-; reflexivity).
    apply bind_eq; [reflexivity|]. intros [] t2 EPp. unfold pset_problem in EPp. injection EPp as <-. assert (SF' : seeds_for p (ks ++ [sd])) by (intros D; rewrite EQ, NS in ES; congruence). destruct (at_seeds reseed (Some ud) p EP _ SF') as (PO' & NX' & NC' & NF' & NS' & (TF' & FB')).
    assert (EQ' : reseed (po_prob (snd t)) sd = fold_left reseed (ks ++ [sd]) p) by (rewrite EQ, fold_left_app; reflexivity). rewrite EQ'. set (q := fold_left reseed (ks ++ [sd]) p) in *.
    destruct (total_all q (sw_X sw) TF') as (F & EF); [intros x Hx; rewrite NX'; apply (FX x Hx)|]. destruct (total_all q (sw_lbX sw) TF') as (H & EH); [intros x Hx; rewrite NX'; apply (FL x Hx)|].
    set (po := {| po_prob := q; po_fevals := po_fevals (snd t1); po_id := po_id (snd t1); po_x := po_x (snd t1); po_f := po_f (snd t1); po_cx := po_cx (snd t1); po_cf := po_cf (snd t1); po_rng := po_rng (snd t1) |}).
    assert (EB : pgen_eval_both (G := G) (Some ud) (sw_X sw) (sw_lbX sw) (fst t1, po) = pgen_eval_both None (sw_X sw) (sw_lbX sw) (fst t1, po)).
    { unfold pgen_eval_both, rbind at 1 2. rewrite (batch1 q PO' NC' NF' ud (sw_X sw) F (fst t1) po FB' eq_refl EF). rewrite (batch1 q PO' NC' NF' ud (sw_lbX sw) H (fst t1) (with_fevals po (wrap64 (po_fevals po + Z.of_nat (length (sw_X sw))))) FB' eq_refl EH). unfold rbind at 1. rewrite (pair_eval q (sw_X sw) (sw_lbX sw) F H (fst t1) po eq_refl EF EH ltac:(lia)). unfold rret.
      assert (CB : map fst (combine F H) = F /\ map snd (combine F H) = H). { assert (LFH : length F = length H) by (rewrite <- (Forall2_len _ _ _ EF), <- (Forall2_len _ _ _ EH); lia). clear -LFH. revert H LFH. induction F as [|f F IH]; intros [|h H] L; try discriminate; [auto|]. cbn. destruct (IH H ltac:(cbn in L; lia)) as [A B]. now rewrite A, B. }
      destruct CB as [-> ->]. rewrite XN. f_equal. f_equal. unfold with_fevals. cbn [po_prob po_fevals po_id po_x po_f po_cx po_cf po_rng]. f_equal. rewrite wrap64_add. f_equal. lia. }
    apply bind_eq; [exact EB|]. reflexivity.
  - apply bind_eq; [|reflexivity]. unfold mgen_eval. destruct t as [g po]. cbn [snd] in *. destruct (total_all _ (sw_X sw) TF) as (F & EF); [intros x Hx; rewrite NX; apply (FX x Hx)|].
    rewrite (batch1 _ PO NC NF ud (sw_X sw) F g po FB EQ EF), (rest_eq _ (sw_X sw) F g po EQ EF), XN. reflexivity.
Qed.
Notation trivial := (fun _ : dbl => True).
Lemma pgen_same : same_run (pgen_evolve srt r reseed (Some ud) a V0 s) (pgen_evolve srt r reseed None a V0 s).
Proof.
  pose proof V as (PO & _ & _). rewrite EPs in PO. destruct (construct_facts a CO) as (C1 & C2 & C3 & C4 & C5).
  assert (Hn : 0 < n) by (destruct (po_id (snd s)); [congruence|cbn; lia]). pose proof V as (_ & (S1 & S2 & SX & SF & _) & _). rewrite EPs in SX, SF.
  assert (T : forall x : list dbl, Forall (fun _ => True) x) by (intros x; apply Forall_forall; auto).
  assert (FX : Forall (point p trivial) (po_x (snd s))) by (apply Forall_forall; intros x Hx; split; [now apply SX|apply T]).
  assert (GVs : ps_memory a = true -> length V0 = n -> forall v, In v V0 -> get_nx p <= length v /\ Forall trivial v) by (intros; split; [now apply HV|apply T]).
  assert (HM : forall i l u v x, nth_error (p_lb p) i = Some l -> nth_error (p_ub p) i = Some u -> True -> True -> True /\ True /\ (snd (pso_move1 a l u v x) = NaN \/ within l u (snd (pso_move1 a l u v x)))).
  { intros i l u v x Nl Nu _ _. split; [auto|]. split; [auto|]. apply move_box. exact (prob_obj_ord p PO i l u Nl Nu). }
  assert (HW : forall i l u, nth_error (p_lb p) i = Some l -> nth_error (p_ub p) i = Some u -> ok_real (dneg (pso_width a l u)) (pso_width a l u) -> dle (dneg (pso_width a l u)) (pso_width a l u) = true) by (intros i l u Nl Nu; apply wide; auto; exact (prob_obj_ord p PO i l u Nl Nu)).
  assert (M4 : ps_ntype a = 4 -> n * ps_nparam a <= pso_most a n) by (intros _; unfold pso_most; lia). assert (MP : ps_ntype a = 4 -> 1 <= ps_nparam a) by auto.
  unfold pgen_evolve. apply same_bind; [apply same_refl|]. intros u s1 E. injection E as <- <-. cbv zeta. rewrite EPs.
  destruct (negb (Nat.eqb (get_nc p) 0)); [apply same_refl|]. destruct (negb (Nat.eqb (get_nf p) 1)); [apply same_refl|]. destruct (Nat.eqb n 0); [apply same_refl|].
  apply same_bind; [apply same_refl|]. intros V1 t1 E1.
  assert (Q1 : snd t1 = snd s /\ length V1 = n /\ forall v, In v V1 -> get_nx p <= length v /\ Forall trivial v).
  { pose proof (speeds_ok r RC a p n (pso_most a n) PO Hn trivial (fun _ _ _ _ _ _ _ => I) HW M4 MP V0 GVs (fst s)) as K. unfold eng in E1. destruct (pso_speeds r a n p V0 (fst s)) as [o g]. injection E1 as -> <-. split; [reflexivity|exact K]. }
  destruct Q1 as (E1' & LV & FV). apply same_bind; [apply same_refl|]. intros [[nb bn] bf] t2 E2.
  assert (TOP : ends (pso_topology srt r a n) t1 (fun t s' => snd s' = snd t1 /\ let '(nb, bn, bf) := t in length nb = n /\ (uses_nb a -> nb_ok n (pso_most a n) nb) /\ point p trivial bn /\ (ps_ntype a = 1 \/ ps_ntype a = 4 -> length bf = 1)) (pgen_fails reseed a p)).
  { apply (AlgPsoGenFacts2.topology_ok srt r RC reseed (Some ud) a p n (pso_most a n) EP Hn trivial); auto; try (rewrite E1'; auto; fail); try (unfold pso_most; lia). }
  pose proof (ends_at _ _ _ _ _ _ TOP E2) as (E2' & LN & HN & PB & HBF). rewrite E1' in E2'.
  apply same_bind; [|intros ? ? _; apply same_refl].
  apply (same_fold _ _ (fun sw t => exists m, inv reseed a p n (pso_most a n) (fun l u v => v = NaN \/ within l u v) trivial trivial (snd s) m sw t)).
  - intros sw g t (m & ks & LK & ST & SH & SP & MM). unfold pgen_generation. apply same_bind; [apply same_refl|]. intros sw1 t3 E3.
    assert (Q3 : snd t3 = snd t /\ sh sw1 /\ length (sw_V sw1) = n /\ forall v, In v (sw_V sw1) -> get_nx p <= length v /\ Forall trivial (firstn (get_nx p) v) /\ Forall trivial (skipn (get_nx p) v)).
    { pose proof (speed_loop r RC reseed a p n (pso_most a n) Hn trivial trivial trivial trivial I (fun _ _ _ _ _ _ _ _ _ _ _ _ _ => I) (fun _ _ _ _ _ _ _ _ => I) (fun _ _ _ _ _ _ _ => I) sw SH SP (fst t)) as K. unfold eng in E3. destruct (rfold (pgen_speed r a p) sw (seq 0 n) (fst t)) as [o g']. injection E3 as -> <-. split; [reflexivity|]. destruct K as (K1 & _ & _ & _ & K2). auto. }
    destruct Q3 as (E3' & SH1 & LV1 & HV1). destruct (move_loop reseed (Some ud) a p n (pso_most a n) EP Hn (fun l u v => v = NaN \/ within l u v) trivial trivial trivial HM sw1 SH1 LV1 HV1) as (sw2 & E4 & SH2 & _).
    apply same_bind; [apply same_refl|]. intros sw2' t4 E5. unfold rlift in E5. rewrite E4 in E5. injection E5 as <- <-. apply same_bind; [|intros [fs sw3] t5 _; apply same_refl].
    rewrite (evaluate_same sw2 ks (m * per_gen p n) t3 SH2); [apply same_refl| |exact Hn]. unfold state. rewrite E3'. exact ST.
  - intros sw g t sw' t' (m & IV) E3. exists (m + 1).
    refine (ends_at _ _ _ _ _ _ (AlgPsoGenFacts2.generation_ok r RC reseed (Some ud) a p n (pso_most a n) EP Hn (fun l u v => v = NaN \/ within l u v) trivial trivial trivial trivial I (fun _ _ _ _ _ _ _ _ _ _ _ _ _ => I) (fun _ _ _ _ _ _ _ _ => I) (fun _ _ _ _ _ _ _ => I) HM M4 MP (snd s) m sw g t eq_refl _ _ IV) E3); lia.
  - exists 0, []. split; [destruct (u_set_seed _); reflexivity|]. split; [split; [rewrite E2'; exact V|]; split; [rewrite E2'; exact EPs|]; split; [intros _; reflexivity|]; rewrite E2'; do 3 (split; [reflexivity|]); apply evals_0|].
    split; [unfold shape; cbn [sw_V sw_X sw_lbX sw_lbf sw_bn sw_bf sw_nb]; split; [lia|]; split; [exact FX|]; split; [lia|]; split; [exact FX|]; split; [lia|]; split; [apply Forall_forall; intros f Hf; rewrite (SF f Hf); destruct (at_0 reseed (Some ud) p EP) as (_ & _ & Q); exact Q|]; auto|].
    split; [split; [exact LV|exact FV]|]. cbv delta [mem] beta zeta. cbn [sw_lbX sw_lbf]. intros i x f x' f' A B C D. assert (x' = x) by congruence. assert (f' = f) by congruence. subst x' f'. split; intros _; [auto|]. split; [auto|]. split; [auto|]. split; [congruence|discriminate].
Qed.
End Same.
