From Coq Require Import List Bool Arith ZArith Lia Permutation.
From Verif Require Import Dbl DblFacts IntDbl Outcome BaseFacts StdSort Compare SpecOrder CompareFacts DominanceFacts MultiObj SpecMultiObj FndsFacts CrowdFacts MultiObjFacts MultiObjFacts2 MultiObjFacts3 Problem SpecProblem Rng Generic SpecGeneric GenericFacts GenericFacts3
  SpecGenetic RmFacts GeneticOps GeneticFacts GeneticFacts2 GeneticFacts3 Population SpecPopulation PopulationFacts ProblemFacts ProblemFacts2 Algo SpecAlgo AlgoFacts AlgoFacts2 AlgDeFacts AlgSaFacts AlgSga SpecSga AlgSgaFacts2 AlgSgaFacts3 AlgSgaFacts4 AlgSgaFacts6 AlgNsga2 SpecNsga2 AlgNsga2Facts AlgNsga2Facts2 AlgNsga2Facts3.
Import ListNotations.

Lemma half_iff o z : dge (Fin z) (Fin o) || dlt (Fin z) (Fin 0) = false <-> (dle (Fin 0) (Fin z) = true /\ dlt (Fin z) (Fin o) = true).
Proof.
  rewrite dle_fin, dlt_fin, orb_false_iff. unfold dge. rewrite dle_false_fin. cbn [dlt]. rewrite Z.ltb_ge. tauto.
Qed.
Lemma cr_iff cr : dge cr done || dlt cr dzero = false <-> (cr = NaN \/ (dle dzero cr = true /\ dlt cr done = true)).
Proof.
  destruct cr as [| |z|].
  - split; [now left|reflexivity].
  - split; [discriminate|]. intros [H|[H _]]; discriminate.
  - change dzero with (Fin 0). unfold done. rewrite half_iff. split; [now right|]. intros [H|H]; [discriminate|exact H].
  - split; [discriminate|]. intros [H|[_ H]]; discriminate.
Qed.
Lemma nsga2_constructor gen cr eta_c m eta_m a : nsga2_construct gen cr eta_c m eta_m = Ok a <->
  a = mknsga2 gen cr eta_c m eta_m /\ (cr = NaN \/ (dle dzero cr = true /\ dlt cr done = true)) /\ not_outside done dhundred eta_c /\ not_outside dzero done m /\ not_outside done dhundred eta_m.
Proof.
  unfold nsga2_construct. pose proof (outside_iff done dhundred eta_c done_nn' dhundred_nn) as H2. pose proof (outside_iff dzero done m dzero_nn done_nn') as H3. pose proof (outside_iff done dhundred eta_m done_nn' dhundred_nn) as H4.
  pose proof (cr_iff cr) as H1.
  destruct (dge cr done || dlt cr dzero). { split; [discriminate|]. intros (_ & A & _). apply H1 in A. discriminate. }
  destruct (dlt m dzero || dgt m done). { split; [discriminate|]. intros (_ & _ & _ & A & _). apply H3 in A. discriminate. }
  destruct (dlt eta_c done || dgt eta_c dhundred). { split; [discriminate|]. intros (_ & _ & A & _). apply H2 in A. discriminate. }
  destruct (dlt eta_m done || dgt eta_m dhundred). { split; [discriminate|]. intros (_ & _ & _ & _ & A). apply H4 in A. discriminate. }
  split.
  - intros E. injection E as <-. split; [reflexivity|]. split; [now apply H1|]. split; [now apply H2|]. split; [now apply H3|now apply H4].
  - intros (-> & _). reflexivity.
Qed.

Section R.
Context {G P : Type} (r : rng G) (RC : rng_contract r) (srt : sorter) (HS : sort_contract srt) (pw : dbl -> dbl -> dbl) (shuf : forall A, list A -> G -> list A * G) (SC : shuffle_contract shuf) (a : nsga2_params).

Lemma nsga2_rejects bfe (s : G * pop P) : ~ (mo_problem (po_prob (snd s)) /\ mo_size (length (po_id (snd s)))) -> nsga2_evolve r srt pw shuf a bfe s = (Throw InvalidArgument, s).
Proof.
  clear. intros H. unfold nsga2_evolve, rbind, getp. cbv zeta. set (p := po_prob (snd s)) in *. set (n := length (po_id (snd s))) in *. destruct (some_bound_is_equal (p_lb p) (p_ub p)) eqn:EB; [reflexivity|]. destruct (u_set_seed (p_udp p)) eqn:SS; [reflexivity|].
  destruct (Nat.eqb_spec (get_nc p) 0) as [NC|NC]; [|reflexivity]. cbn [negb]. destruct (Nat.ltb_spec (get_nf p) 2) as [NF|NF]; [reflexivity|]. destruct (Nat.ltb_spec n 5) as [N5|N5]; [reflexivity|]. cbn [orb].
  destruct (Nat.eqb_spec (n mod 4) 0) as [N4|N4]; [|reflexivity]. exfalso. apply H. split; [split; [exact SS|]; split; [exact NC|]; split; [exact NF|now apply some_equal_iff]|]. split; [exact N5|]. apply Nat.mod_divides in N4; [exact N4|lia].
Qed.

(** ** What the operators keep *)
Definition mo_box (p : problem) (H : Prop) (x : list dbl) : Prop := length x = get_nx p /\ (H -> in_box_or_nan (p_lb p) (p_ub p) x).
Lemma varies_box p (H : Prop) : prob_obj p -> Forall is_double (p_lb p) -> Forall is_double (p_ub p) -> varies r pw a p (mo_box p H).
Proof.
  intros PO DL DU. destruct (prob_obj_lens p PO) as [LL LU]. pose proof (prob_obj_bounds p PO) as GB.
  set (Okg := fun i v => H -> forall l u, nth_error (p_lb p) i = Some l -> nth_error (p_ub p) i = Some u -> v = NaN \/ within l u v).
  assert (HO : forall i l u v, nth_error (p_lb p) i = Some l -> nth_error (p_ub p) i = Some u -> v = NaN \/ within l u v -> Okg i v) by (intros i l u v N1 N2 K _ l' u' N1' N2'; congruence).
  assert (EQ : forall x, mo_box p H x <-> okx (p_lb p) Okg x).
  { intros x. split.
    - intros [L B]. split; [congruence|]. intros i v Nv K l u Nl Nu. destruct (B K) as (_ & _ & Q). eauto.
    - intros [L B]. split; [congruence|]. intros K. split; [congruence|]. split; [congruence|]. intros i l u v Nl Nu Nv. exact (B i v Nv K l u Nl Nu). }
  split.
  - intros x y Hx Hy. eapply always_weak; [apply (sbx_keeps r RC pw (p_lb p) (p_ub p) (p_nix p) GB Okg HO); apply EQ; assumption| |auto]. intros cs [A B]. split; now apply EQ.
  - intros c Hc. eapply always_weak; [apply (mutation_keeps r RC pw (p_lb p) (p_ub p) (p_nix p) GB Okg HO c (ns_m a) (ns_eta_m a) (mo_fails p) DL DU); [now apply EQ|intros K; right; split; [reflexivity|exact K]]| |auto]. intros x Hx. now apply EQ.
  - intros x [L _]. exact L.
Qed.
Lemma eta_ok eta : within done dhundred eta -> nonneg eta /\ isfinite eta = true.
Proof.
  clear. intros [E1 E2]. split.
  - unfold nonneg. eapply dle_trans; [|exact E1]. reflexivity.
  - unfold dhundred in E2. rewrite d_of_Z_int in E2 by reflexivity. destruct eta; try reflexivity; discriminate.
Qed.
Lemma varies_tame p : pow_contract pw -> prob_obj p -> Forall is_double (p_lb p) -> Forall is_double (p_ub p) -> moderate_bounds p -> within done dhundred (ns_eta_c a) -> within done dhundred (ns_eta_m a) -> varies r pw a p (tame p).
Proof.
  intros PC PO DL DU MB EC EM. destruct (prob_obj_lens p PO) as [LL LU]. pose proof (prob_obj_bounds p PO) as GB. destruct (eta_ok _ EM) as [M1 M2]. split.
  - intros x y Tx Ty. exact (sbx_tame r RC pw (mksga 0 (ns_cr a) (ns_eta_c a) done done 1 SBX Polynomial Tournament) PC p x y PO MB EC Tx Ty).
  - intros c Tc. destruct MB as [ML MU]. apply (mutation_impl_ok r RC pw PC c (p_lb p) (p_ub p) (p_nix p) (ns_m a) (ns_eta_m a) (mo_fails p) GB DL DU Tc ML MU M1 M2). intros K. right. split; [reflexivity|exact K].
  - intros x ((L & _) & _). congruence.
Qed.

Lemma nsga2_evolve_any (s : G * pop P) p : po_prob (snd s) = p -> valid_pop (snd s) -> mo_problem p -> fitness_defined p -> mo_size (length (po_id (snd s))) -> Forall is_double (p_lb p) -> Forall is_double (p_ub p) ->
  ends (nsga2_evolve r srt pw shuf a None) s
    (fun _ s' => valid_pop (snd s') /\ mo_generations p (mo_box p (forall x, In x (po_x (snd s)) -> in_box_or_nan (p_lb p) (p_ub p) x)) (ns_gen a) (snd s) (snd s') /\ evals (ns_gen a * length (po_id (snd s))) (snd s) (snd s')) (mo_fails p).
Proof.
  intros EP V MP FD MS DL DU. pose proof V as (PO & (_ & _ & Fx & _) & _). rewrite EP in PO. apply (nsga2_evolve_ok r RC srt HS pw shuf SC a p _ s (varies_box p _ PO DL DU) EP V MP FD MS).
  intros x Hx. split; [rewrite <- EP; now apply Fx|]. intros H. now apply H.
Qed.
Lemma mo_generations_pre p (Pre : list dbl -> Prop) n (s s' : pop P) : mo_generations p Pre n s s' -> (n = 0 -> s' = s) /\ (0 < n -> valid_pop s' -> exists s1 born, mo_generations p Pre (n - 1) s s1 /\ mo_step p Pre s1 born s').
Proof. clear. intros H. inversion H; subst; split; try lia; auto; intros. replace (S n0 - 1) with n0 by lia. eauto. Qed.
Lemma nsga2_evolve_tame (s : G * pop P) p : pow_contract pw -> po_prob (snd s) = p -> valid_pop (snd s) -> mo_problem p -> fitness_defined p -> mo_size (length (po_id (snd s))) -> Forall is_double (p_lb p) -> Forall is_double (p_ub p) ->
  moderate_bounds p -> within done dhundred (ns_eta_c a) -> within done dhundred (ns_eta_m a) -> (forall x, In x (po_x (snd s)) -> tame p x) ->
  ends (nsga2_evolve r srt pw shuf a None) s
    (fun _ s' => valid_pop (snd s') /\ mo_generations p (tame p) (ns_gen a) (snd s) (snd s') /\ evals (ns_gen a * length (po_id (snd s))) (snd s) (snd s')) (mo_fails p).
Proof.
  intros PC EP V MP FD MS DL DU MB EC EM HT. pose proof V as (PO & _). rewrite EP in PO. exact (nsga2_evolve_ok r RC srt HS pw shuf SC a p _ s (varies_tame p PC PO DL DU MB EC EM) EP V MP FD MS HT).
Qed.

(** ** Batch evaluation *)
Lemma peval_eq p x f (g : G) (po : pop P) : po_prob po = p -> evaluated p x f -> peval x (g, po) = (Ok f, (g, with_fevals po (wrap64 (po_fevals po + 1)))).
Proof.
  clear. intros <- (L & LF & U). unfold peval, fitness, prob_check_dv, prob_check_fv, throw_if. cbn [fst snd]. rewrite L, Nat.eqb_refl. cbn [negb bind]. rewrite U. cbn [bind]. rewrite LF, Nat.eqb_refl. reflexivity.
Qed.
Definition grown (c0 : Z) (n : nat) (c : Z) : Prop := wrap64 c = wrap64 (c0 + Z.of_nat n) /\ (0 < n -> c = wrap64 c).
Lemma wrap_idem z : wrap64 (wrap64 z) = wrap64 z. Proof. clear. unfold wrap64. apply Z.mod_mod. discriminate. Qed.
Lemma two_eq p (Pre : list dbl -> Prop) (m : RM G (list dbl * list dbl)) st g (po : pop P) : (forall x, Pre x -> length x = get_nx p) -> total_fitness p -> po_prob po = p -> always m (fun cs => Pre (fst cs) /\ Pre (snd cs)) (mo_fails p) ->
  match m g with
  | (Ok c, g') => exists f1 f2, evaluated p (fst c) f1 /\ evaluated p (snd c) f2 /\ nsga2_two m st (g, po) = (Ok (fst st ++ [fst c; snd c], snd st ++ [f1; f2]), (g', with_fevals po (wrap64 (wrap64 (po_fevals po + 1) + 1))))
  | (Throw e, _) => fst (nsga2_two m st (g, po)) = Throw e
  | _ => False
  end.
Proof.
  clear. intros VL TF EP Hm. specialize (Hm g). unfold nsga2_two, rbind, eng. cbn [fst snd]. destruct (m g) as [[c|e| |] g']; cbn [fst] in Hm; try contradiction; [|reflexivity].
  destruct Hm as [P1 P2]. destruct (TF (fst c) (VL _ P1)) as (f1 & E1). destruct (TF (snd c) (VL _ P2)) as (f2 & E2). exists f1, f2. split; [exact E1|]. split; [exact E2|].
  rewrite (peval_eq p _ f1 g' po EP E1), (peval_eq p _ f2 g' (with_fevals po (wrap64 (po_fevals po + 1))) EP E2). reflexivity.
Qed.
Lemma seq_bat p Pre X rk sh1 sh2 : varies r pw a p Pre -> total_fitness p -> (forall x, In x X -> Pre x) -> ranked (length X) rk -> shuffled (length X) sh1 -> shuffled (length X) sh2 ->
  forall qs, (forall h, In h qs -> 4 * h + 3 < length X) -> forall tmp st g (po : pop P), po_prob po = p ->
  match rfold (nsga2_bat r pw a X (p_lb p) (p_ub p) (p_nix p) rk sh1 sh2) tmp qs g with
  | (Ok tmp', g') => exists new F c, tmp' = tmp ++ new /\ length new = 4 * length qs /\ Forall2 (evaluated p) new F /\ grown (po_fevals po) (4 * length qs) c /\
      rfold (nsga2_seq r pw a X (p_lb p) (p_ub p) (p_nix p) rk sh1 sh2) st qs (g, po) = (Ok (fst st ++ new, snd st ++ F), (g', with_fevals po c))
  | (Throw e, _) => fst (rfold (nsga2_seq (P := P) r pw a X (p_lb p) (p_ub p) (p_nix p) rk sh1 sh2) st qs (g, po)) = Throw e
  | _ => False
  end.
Proof.
  intros VA TF HX RK S1 S2. induction qs as [|h qs IH]; intros Hq tmp st g po EP.
  - cbn [rfold]. unfold rret. exists [], [], (po_fevals po). rewrite !app_nil_r. split; [reflexivity|]. split; [reflexivity|]. split; [constructor|]. split; [split; [cbn; f_equal; lia|cbn; lia]|]. destruct st, po; reflexivity.
  - pose proof (fun sh K => pair_ok r RC pw a p Pre X rk sh (4 * h) VA HX RK K (Hq h (or_introl eq_refl))) as PK. cbn [rfold].
    set (f := nsga2_bat r pw a X (p_lb p) (p_ub p) (p_nix p) rk sh1 sh2) in *. set (f' := nsga2_seq r pw a X (p_lb p) (p_ub p) (p_nix p) rk sh1 sh2) in *. unfold rbind at 1 2. unfold f at 1, nsga2_bat, rbind.
    pose proof (two_eq p Pre _ st g po (va_len _ _ _ _ _ VA) TF EP (PK sh1 S1)) as T1. set (m1 := nsga2_pair r pw a X (p_lb p) (p_ub p) (p_nix p) (fst rk) (snd rk) sh1 (4 * h)) in *. set (m2 := nsga2_pair r pw a X (p_lb p) (p_ub p) (p_nix p) (fst rk) (snd rk) sh2 (4 * h)) in *.
    destruct (m1 g) as [[c|e| |] g1] eqn:Em1; try contradiction.
    2:{ unfold rbind, f', nsga2_seq. fold m1 m2. unfold rbind. destruct (nsga2_two m1 st (g, po)) as [o t]. cbn [fst] in T1. rewrite T1. reflexivity. }
    destruct T1 as (f1 & f2 & V1 & V2 & T1). set (st1 := (fst st ++ [fst c; snd c], snd st ++ [f1; f2])) in *. set (po1 := with_fevals po (wrap64 (wrap64 (po_fevals po + 1) + 1))) in *.
    pose proof (two_eq p Pre m2 st1 g1 po1 (va_len _ _ _ _ _ VA) TF EP (PK sh2 S2)) as T2. destruct (m2 g1) as [[d|e| |] g2] eqn:Em2; try contradiction.
    2:{ unfold rbind, f' at 1, nsga2_seq. fold m1 m2. unfold rbind. rewrite T1. destruct (nsga2_two m2 st1 (g1, po1)) as [o t]. cbn [fst] in T2. rewrite T2. reflexivity. }
    destruct T2 as (f3 & f4 & V3 & V4 & T2). set (st2 := (fst st1 ++ [fst d; snd d], snd st1 ++ [f3; f4])) in *. set (po2 := with_fevals po1 (wrap64 (wrap64 (po_fevals po1 + 1) + 1))) in *. unfold rret at 1.
    assert (ES : f' st h (g, po) = (Ok st2, (g2, po2))) by (unfold f', nsga2_seq; fold m1 m2; unfold rbind; rewrite T1; exact T2).
    specialize (IH (fun k Hk => Hq k (or_intror Hk)) (tmp ++ [fst c; snd c; fst d; snd d]) st2 g2 po2 EP). fold f f' in IH.
    destruct (rfold f (tmp ++ [fst c; snd c; fst d; snd d]) qs g2) as [[tmp'|e| |] g3]; try contradiction.
    + destruct IH as (new & F & k & -> & LN & EV & GR & EQ). exists ([fst c; snd c; fst d; snd d] ++ new), ([f1; f2; f3; f4] ++ F), k. split; [now rewrite <- app_assoc|]. split; [cbn [app length]; lia|]. split; [exact (Forall2_cons _ _ V1 (Forall2_cons _ _ V2 (Forall2_cons _ _ V3 (Forall2_cons _ _ V4 EV))))|]. split.
      * destruct GR as [G1 G2]. split.
        -- rewrite G1. unfold po2, po1. cbn [with_fevals po_fevals]. repeat (rewrite <- ?Z.add_assoc, wrap64_add). f_equal. cbn [length]. lia.
        -- intros _. destruct qs as [|q qs]; [|apply G2; cbn; lia]. assert (K : k = po_fevals po2) by exact (eq_sym (f_equal (fun q => po_fevals (snd (snd q))) EQ)). rewrite K. unfold po2. cbn [with_fevals po_fevals]. now rewrite wrap_idem.
      * rewrite ES, EQ. unfold st2, st1. cbn [fst snd]. rewrite <- !app_assoc. reflexivity.
    + rewrite ES. exact IH.
Qed.
End R.
