From Coq Require Import List Bool Arith ZArith Lia.
From Verif Require Import Dbl DblFacts IntDbl Outcome BaseFacts StdSort SpecOrder Problem SpecProblem ProblemFacts Rng Generic SpecGeneric GenericFacts GenericFacts2 GenericFacts3 SpecGenetic RmFacts
  GeneticOps GeneticFacts Population SpecPopulation PopulationFacts Algo SpecAlgo AlgoFacts AlgoFacts2 NotPop SpecLocal AlgCompass AlgCompassFacts AlgCompassFacts2 AlgSa AlgSaFacts AlgExamples.
Import ListNotations.

Lemma plain_nobj p : prob_obj p -> get_nf p = 1 -> p_nobj p = 1.
Proof. intros PO H. destruct (prob_obj_facts p PO) as (_ & A & _ & B). unfold get_nf, get_nc in *. lia. Qed.
Section S.
Context {G P : Type} (r r2 : rng G) (srt : sorter) (sel rep : policy) (pw : dbl -> dbl -> dbl) (ex : dbl -> dbl).
Context (Ts Tf : dbl) (n_T_adj n_range_adj bin_size : nat) (start_range : dbl).
Lemma sa_rejects (s : G * pop P) : get_nc (po_prob (snd s)) <> 0 \/ get_nf (po_prob (snd s)) <> 1 \/ u_set_seed (p_udp (po_prob (snd s))) = true \/ po_id (snd s) = [] ->
  sa_evolve r r2 srt sel rep pw ex Ts Tf n_T_adj n_range_adj bin_size start_range s = (Throw InvalidArgument, s).
Proof.
  intros H. unfold sa_evolve, rbind, getp. cbv beta iota zeta. destruct (Nat.eqb_spec (get_nc (po_prob (snd s))) 0) as [E1|E1]; cbn [negb]; [|reflexivity].
  destruct (Nat.eqb_spec (get_nf (po_prob (snd s))) 1) as [E2|E2]; cbn [negb]; [|reflexivity].
  destruct (u_set_seed _); [reflexivity|]. destruct H as [H|[H|[H|H]]]; [contradiction|contradiction|discriminate|]. rewrite H. reflexivity.
Qed.
Context (RC : rng_contract r) (RC2 : rng_contract r2).
Lemma sa_ok (s : G * pop P) p : po_prob (snd s) = p -> valid_pop (snd s) -> plain_single p -> fitness_defined p -> po_id (snd s) <> [] ->
  sa_construct Ts Tf n_T_adj n_range_adj start_range = Ok tt -> ex NaN = NaN -> Forall is_double (p_lb p) -> Forall is_double (p_ub p) -> boxed (snd s) -> (Z.of_nat bin_size * Z.of_nat (get_nx p) < 2 ^ 31)%Z ->
  ends (sa_evolve r r2 srt sel rep pw ex Ts Tf n_T_adj n_range_adj bin_size start_range) s
    (fun _ s' => valid_pop (snd s') /\ boxed (snd s') /\ exists i x f T, chosen srt sel (snd s) i /\ nth_error (po_x (snd s)) i = Some x /\ nth_error (po_f (snd s)) i = Some f /\
       tried p (in_box (p_lb p) (p_ub p)) (x, f) T /\ length T = n_T_adj * n_range_adj * bin_size * get_nx p /\ evals (length T) (snd s) (snd s') /\
       (obj f = NaN -> exists c, snd s' = with_fevals (snd s) c) /\
       (obj f <> NaN -> exists j x' f', chosen srt rep (snd s) j /\ one_replaced (snd s) (snd s') j x' f' /\ best_of (x, f) T (x', f')))
    (fun e => fails p e \/ (e = InvalidArgument /\ (bad_index sel (snd s) \/ bad_index rep (snd s)))).
Proof.
  intros EP V (NC & NF & NS) FD NE CC EX DL DU BX BN. apply sa_construct_iff in CC. destruct CC as (_ & (C1 & C2) & _). pose proof V as (PO & (S1 & S2 & Fx & Ff & _) & _). rewrite EP in *. pose proof (plain_nobj p PO NF) as NO.
  assert (RK : forall t : pop P, po_prob t = p -> ranked srt t) by (intros t E; unfold ranked; rewrite E, NC; intros X; inversion X).
  unfold sa_evolve. apply ends_bind, ends_getp. cbv zeta. rewrite EP, NC, NF, NS. cbn [Nat.eqb negb].
  destruct (Nat.eqb_spec (length (po_id (snd s))) 0) as [X|_]; [apply length_zero_iff_nil in X; contradiction|].
  apply ends_bind. apply (select_ok r2 RC2); auto; [rewrite EP; exact NO|]. intros i x f g CH Nx Nf. cbn [fst snd].
  assert (Lx : length x = get_nx p) by (apply Fx; eapply nth_error_In; eauto). assert (Lf : length f = 1) by (rewrite <- NF; apply Ff; eapply nth_error_In; eauto).
  assert (Bx : in_box (p_lb p) (p_ub p) x) by (rewrite <- EP; apply BX; eapply nth_error_In; eauto).
  assert (SR : exists z, (start_range = Fin z /\ 0 < z)%Z).
  { destruct start_range as [| |z|]; [discriminate C1|discriminate C1| |rewrite done_fin in C2; discriminate C2]. exists z. split; [reflexivity|]. unfold dzero in C1. now apply dlt_fin in C1. }
  set (st0 := {| sa_new := x; sa_old := x; sa_fold := f; sa_bestx := x; sa_bestf := f; sa_step := repeat start_range (get_nx p); sa_acp := repeat 0%Z (get_nx p); sa_T := Ts |}).
  apply ends_bind. eapply ends_weak; [apply (sa_all_ok r RC pw ex EX Ts n_T_adj n_range_adj bin_size start_range p PO NF FD DL DU SR BN x f Lx Lf Bx _ [] st0 (g, snd s) EP)| |auto].
  - unfold st0, sinv, binv. cbn [sa_new sa_old sa_fold sa_bestx sa_bestf sa_step sa_acp]. split; [reflexivity|]. split; [now left|]. split; [constructor|].
    split; [apply Forall_forall; intros v Hv; apply repeat_spec in Hv; subst v; split; [apply dlt_dle; exact C1|apply dle_refl; destruct SR as (z & -> & _); discriminate]|]. rewrite !repeat_length. split; [reflexivity|]. split; [reflexivity|].
    split; [apply Forall_forall; intros v Hv; apply repeat_spec in Hv; subst v; lia|]. destruct (obj f) eqn:E; [left; auto| | |]; right; (split; [discriminate|]); (split; [|apply dle_refl; congruence]); split; try (now left); cbn [snd]; (split; [apply dle_refl; congruence|]); intros q [].
  - intros st s1 (T & (Q & ET & LQ) & (_ & _ & TR & _ & _ & _ & _ & BI) & (c & Es) & EV). cbn [snd fst] in Es, EV. rewrite app_nil_r in ET. subst Q.
    assert (V1 : valid_pop (snd s1)) by (rewrite Es; apply valid_fevals; exact V). assert (EP1 : po_prob (snd s1) = p) by (rewrite Es; exact EP).
    assert (LT : length T = n_T_adj * n_range_adj * bin_size * get_nx p) by (rewrite LQ; nia). unfold binv in BI.
    assert (LB : length (sa_bestf st) = 1 /\ (obj f <> NaN -> length (sa_bestx st) = get_nx p /\ in_box (p_lb p) (p_ub p) (sa_bestx st))).
    { destruct BI as [(A & _ & B)|(A & (B & _) & _)]; [split; [congruence|contradiction]|]. destruct (tried_in p _ (x, f) T _ Lx ltac:(cbn [snd]; lia) Bx TR B) as (K1 & K2 & K3). cbn [fst snd] in *. split; [lia|auto]. }
    apply ends_bind. eapply ends_lift_ok; [apply obj_vget; exact (proj1 LB)|]. apply ends_bind. eapply ends_lift_ok; [apply obj_vget; exact Lf|].
    destruct BI as [(A & _ & B)|(A & B & _)].
    + rewrite B, A. change (dle NaN NaN) with false. cbv iota. apply ends_ret. split; [exact V1|]. split; [rewrite Es; exact BX|]. exists i, x, f, T. repeat (split; [assumption|]). rewrite LQ. split; [exact EV|]. split; [intros _; exists c; exact Es|contradiction].
    + destruct (proj2 LB A) as [LX BXX]. destruct B as (B1 & B2 & B3). cbn [snd] in B2. rewrite B2.
      eapply replace_ok with (r := r2); auto; try (rewrite EP1; auto; lia); [rewrite Es; exact NE| |].
      * intros (k & -> & Hk). right. split; [reflexivity|]. right. exists k. split; [reflexivity|]. rewrite Es in Hk. exact Hk.
      * intros j g2 s' CJ (O1 & O2 & O3 & O4) FE V'. cbn [snd]. rewrite Es in *. split; [exact V'|]. split.
        { intros y Hy. rewrite O1. cbn [po_prob with_fevals]. rewrite EP. rewrite O3 in Hy. apply in_upd in Hy. destruct Hy as [->|Hy]; [exact BXX|]. rewrite <- EP. apply BX. exact Hy. }
        exists i, x, f, T. repeat (split; [assumption|]). split; [unfold evals in *; rewrite FE, LQ; exact EV|]. split; [contradiction|]. intros _. exists j, (sa_bestx st), (sa_bestf st). split; [exact CJ|]. split; [split; [exact O1|]; auto|]. split; [exact B1|]. split; [exact B2|exact B3].
Qed.
End S.

(** ** Select the worst, replace the best *)
Definition two_pop : pop (list Z) :=
  {| po_prob := alg_problem; po_fevals := 2; po_id := [7; 8]%Z; po_x := [[Fin 0; Fin 0]; [Fin 2; Fin 2]]; po_f := [[Fin 0]; [Fin 4]]; po_cx := [Fin 0; Fin 0]; po_cf := [Fin 0]; po_rng := [] |}.
Lemma two_pop_valid : valid_pop two_pop.
Proof.
  split; [exact alg_problem_obj|]. split; [|right; split; reflexivity]. split; [reflexivity|]. split; [reflexivity|].
  split; [intros x [<-|[<-|[]]]; reflexivity|]. split; [intros x [<-|[<-|[]]]; reflexivity|]. intros i [<-|[<-|[]]]; lia.
Qed.
Lemma sa_small : sa_construct (Fin 2) (Fin 1) 1 1 (Fin 1) = Ok tt.
Proof. apply sa_construct_iff. rewrite done_fin. repeat split; try lia; try reflexivity. Qed.
Lemma sa_mixed_refuted : exists (s : list Z * pop (list Z)) s', valid_pop (snd s) /\ sa_construct (Fin 2) (Fin 1) 1 1 (Fin 1) = Ok tt /\
  sa_evolve stream_rng stream_rng (@isort) PWorst PBest (fun _ _ => done) (fun x => x) (Fin 2) (Fin 1) 1 1 0 (Fin 1) s = (Ok tt, s') /\
  po_f (snd s) = [[Fin 0]; [Fin 4]] /\ po_f (snd s') = [[Fin 4]; [Fin 4]].
Proof.
  set (m := sa_evolve stream_rng stream_rng (@isort) PWorst PBest (fun _ _ => done) (fun x => x) (Fin 2) (Fin 1) 1 1 0 (Fin 1) ([], two_pop)).
  assert (E1 : fst m = Ok tt) by (vm_compute; reflexivity). assert (E2 : po_f (snd (snd m)) = [[Fin 4]; [Fin 4]]) by (vm_compute; reflexivity).
  exists ([], two_pop), (snd m). split; [exact two_pop_valid|]. split; [exact sa_small|]. split; [fold m; rewrite <- E1; apply surjective_pairing|]. split; [reflexivity|exact E2].
Qed.
