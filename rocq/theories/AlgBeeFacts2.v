From Coq Require Import List Bool Arith ZArith Lia.
From Verif Require Import Dbl DblFacts IntDbl Outcome BaseFacts StdSort Problem SpecProblem ProblemFacts Rng Generic SpecGeneric GenericFacts GenericFacts2 GenericFacts3 SpecGenetic RmFacts
  GeneticOps GeneticFacts Population SpecPopulation PopulationFacts Algo SpecAlgo AlgoFacts AlgoFacts2 AlgSaFacts AlgSaFacts2 AlgBee AlgBeeFacts AlgExamples.
Import ListNotations.

(** ** The two meanings of the box *)
Section I.
Context (p : problem) (PO : prob_obj p).
Lemma near_nan x y c a b l u phi : in_box_or_nan (p_lb p) (p_ub p) x -> in_box_or_nan (p_lb p) (p_ub p) y -> length x = get_nx p -> length y = get_nx p -> within (dneg done) done phi ->
   nth_error x c = Some a -> nth_error y c = Some b -> nth_error (p_lb p) c = Some l -> nth_error (p_ub p) c = Some u -> in_box_or_nan (p_lb p) (p_ub p) (upd x c (bee_clamp l u (dadd a (dmul phi (dsub a b))))).
Proof.
  intros (L1 & L2 & H) _ _ _ _ Ha _ Hl Hu. split; [now rewrite upd_len|]. split; [now rewrite upd_len|]. intros i l' u' v A B C. destruct (Nat.eq_dec i c) as [->|N].
  - rewrite upd_same in C by (apply nth_error_Some; congruence). injection C as <-. rewrite Hl in A. injection A as <-. rewrite Hu in B. injection B as <-.
    destruct (dadd a (dmul phi (dsub a b))) as [| |z|] eqn:E; [left; apply clamp_nan| | |]; right; (apply clamp_within; [apply (prob_obj_ord p PO c l u Hl Hu)|discriminate]).
  - rewrite upd_other in C by exact N. now apply (H i).
Qed.
Lemma near_box x y c a b l u phi : (forall l, In l (p_lb p) -> below_2p1019 l) -> (forall u, In u (p_ub p) -> below_2p1019 u) ->
   in_box (p_lb p) (p_ub p) x -> in_box (p_lb p) (p_ub p) y -> length x = get_nx p -> length y = get_nx p -> within (dneg done) done phi ->
   nth_error x c = Some a -> nth_error y c = Some b -> nth_error (p_lb p) c = Some l -> nth_error (p_ub p) c = Some u -> in_box (p_lb p) (p_ub p) (upd x c (bee_clamp l u (dadd a (dmul phi (dsub a b))))).
Proof.
  intros BL BU (L1 & L2 & H) (_ & _ & Hy) _ _ Hphi Ha Hb Hl Hu. split; [now rewrite upd_len|]. split; [now rewrite upd_len|]. intros i l' u' v A B C. destruct (Nat.eq_dec i c) as [->|N].
  - rewrite upd_same in C by (apply nth_error_Some; congruence). injection C as <-. rewrite Hl in A. injection A as <-. rewrite Hu in B. injection B as <-.
    apply clamp_within; [apply (prob_obj_ord p PO c l u Hl Hu)|]. assert (Bl : bnd 2093 l) by (apply BL; eapply nth_error_In; eauto). assert (Bu : bnd 2093 u) by (apply BU; eapply nth_error_In; eauto).
    assert (Ba : bnd 2093 a) by (apply (bnd_within 2093 l u); auto; apply (H c); auto). assert (Bb : bnd 2093 b) by (apply (bnd_within 2093 l u); auto; apply (Hy c); auto).
    assert (U : bnd 1074 done) by (exists one_z; split; [reflexivity|unfold one_z; rewrite Z.abs_eq; [lia|apply Z.pow_nonneg; lia]]).
    assert (Bp : bnd 1074 phi) by (apply (bnd_within 1074 (dneg done) done); [now apply bnd_neg|exact U|exact Hphi]).
    apply (bnd_not_nan 2095). change 2095%Z with (2094 + 1)%Z. apply bnd_add; [lia|apply (bnd_weak 2093); [lia|exact Ba]|]. apply bnd_mul_unit; [lia|exact Bp|]. change 2094%Z with (2093 + 1)%Z. apply bnd_sub; [lia| |]; assumption.
  - rewrite upd_other in C by exact N. now apply (H i).
Qed.
Lemma box_or_nan x : in_box (p_lb p) (p_ub p) x -> in_box_or_nan (p_lb p) (p_ub p) x.
Proof. intros (A & B & H). split; [exact A|]. split; [exact B|]. intros i l u v X Y Z. right. now apply (H i). Qed.
End I.

Section S.
Context {G P : Type} (r : rng G) (limit : Z) (fuel gen : nat).
Lemma bee_rejects (s : G * pop P) : ~ plain_single (po_prob (snd s)) \/ length (po_id (snd s)) < 2 -> bee_evolve r limit fuel gen s = (Throw InvalidArgument, s).
Proof.
  intros H. unfold bee_evolve, rbind, getp, plain_single in *. cbv beta iota zeta. destruct (Nat.eqb_spec (get_nc (po_prob (snd s))) 0) as [E1|E1]; cbn [negb]; [|reflexivity].
  destruct (Nat.eqb_spec (get_nf (po_prob (snd s))) 1) as [E2|E2]; cbn [negb]; [|reflexivity]. destruct (u_set_seed _); [reflexivity|]. destruct (Nat.ltb_spec (length (po_id (snd s))) 2); [reflexivity|]. exfalso. destruct H as [H|H]; [apply H; auto|lia].
Qed.
Lemma bee_zero (s : G * pop P) : plain_single (po_prob (snd s)) -> 2 <= length (po_id (snd s)) -> gen = 0 -> bee_evolve r limit fuel gen s = (Ok tt, s).
Proof.
  intros (E1 & E2 & E3) H ->. unfold bee_evolve, rbind, getp. cbv beta iota zeta. rewrite E1, E2, E3. cbn [Nat.eqb negb seq rfold]. destruct (Nat.ltb_spec (length (po_id (snd s))) 2); [lia|]. reflexivity.
Qed.
Context (RC : rng_contract r).
Definition bee_post (Box : list dbl -> Prop) (p : problem) (s s' : pop P) : Prop :=
  valid_pop s' /\ (forall x, In x (po_x s') -> Box x) /\ replaced (fun x f x' f' => evaluated p x' f' /\ Box x') s s' /\ evals (gen * (2 * length (po_id s))) s s' /\
  ((Z.of_nat ((gen - 1) * (2 * length (po_id s))) < limit)%Z -> replaced (fun x f x' f' => evaluated p x' f' /\ Box x' /\ dlt (obj f') (obj f) = true) s s').
Lemma bee_ok_nan (s : G * pop P) p : po_prob (snd s) = p -> valid_pop (snd s) -> plain_single p -> fitness_defined p -> 2 <= length (po_id (snd s)) ->
  (forall x, In x (po_x (snd s)) -> in_box_or_nan (p_lb p) (p_ub p) x) ->
  ends_if_fuel (bee_evolve r limit fuel gen) s (fun _ s' => bee_post (in_box_or_nan (p_lb p) (p_ub p)) p (snd s) (snd s')) (fails p).
Proof.
  intros EP V (NC & NF & NS) FD HN BX. pose proof V as (PO & _). rewrite EP in PO.
  eapply ends_weak; [apply (bee_gens_ok r RC limit p (in_box_or_nan (p_lb p) (p_ub p)) PO NF FD (near_nan p PO) (box_or_nan p) fuel gen s NC NS EP V); [now apply Forall_forall|exact HN]| |auto].
  intros _ s' (A & B & C). split; [exact A|]. split; [now apply Forall_forall|exact C].
Qed.
Lemma bee_ok_box (s : G * pop P) p : po_prob (snd s) = p -> valid_pop (snd s) -> plain_single p -> fitness_defined p -> 2 <= length (po_id (snd s)) ->
  (forall l, In l (p_lb p) -> below_2p1019 l) -> (forall u, In u (p_ub p) -> below_2p1019 u) -> (forall x, In x (po_x (snd s)) -> in_box (p_lb p) (p_ub p) x) ->
  ends_if_fuel (bee_evolve r limit fuel gen) s (fun _ s' => bee_post (in_box (p_lb p) (p_ub p)) p (snd s) (snd s')) (fails p).
Proof.
  intros EP V (NC & NF & NS) FD HN BL BU BX. pose proof V as (PO & _). rewrite EP in PO.
  eapply ends_weak; [apply (bee_gens_ok r RC limit p (in_box (p_lb p) (p_ub p)) PO NF FD (fun x y c a b l u phi => near_box p PO x y c a b l u phi BL BU) (fun x H => H) fuel gen s NC NS EP V); [now apply Forall_forall|exact HN]| |auto].
  intros _ s' (A & B & C). split; [exact A|]. split; [now apply Forall_forall|exact C].
Qed.
Lemma bee_hangs (s : G * pop P) p f : po_prob (snd s) = p -> valid_pop (snd s) -> plain_single p -> fitness_defined p -> 2 <= length (po_id (snd s)) ->
  (forall x, In x (po_x (snd s)) -> in_box_or_nan (p_lb p) (p_ub p) x) -> In f (po_f (snd s)) -> obj f = NaN -> 0 < gen ->
  ends_if_fuel (bee_evolve r limit fuel gen) s (fun _ _ => False) (fails p).
Proof.
  intros EP V (NC & NF & NS) FD HN BX Hf Nf Hg. pose proof V as (PO & _). rewrite EP in PO.
  apply (bee_nan r RC limit p (in_box_or_nan (p_lb p) (p_ub p)) PO NF FD (near_nan p PO) (box_or_nan p) fuel gen f); auto. now apply Forall_forall.
Qed.
End S.

(** ** A scout replaces the best individual and the cache goes stale *)
Definition scout_stream : list Z := [0;0;1; 0;0;1; 0;0;0;1; 0;0;0;1;   0;0;1; 1;1; 0;0;0;0; 0;0;0;1]%Z.
Lemma two_pop_in_box : forall x, In x (po_x two_pop) -> in_box (p_lb alg_problem) (p_ub alg_problem) x.
Proof. intros x [<-|[<-|[]]]; apply box2; split; reflexivity. Qed.
Lemma scout_run_is : exists st s', rfold (fun st _ => bee_gen stream_rng 1 10 2 st) (mkbees (po_x two_pop) (po_f two_pop) [0; 0]%Z) (seq 0 2) (scout_stream, two_pop) = (Ok st, s') /\
  b_fit st = [[Fin 0]; [Fin 2]] /\ po_f (snd s') = [[Fin 20]; [Fin 2]].
Proof.
  set (m := rfold _ _ _ _).
  assert (E : (fun m => (match fst m with Ok st => Some (b_fit st) | _ => None end, po_f (snd (snd m)))) m = (Some [[Fin 0]; [Fin 2]], [[Fin 20]; [Fin 2]])) by (vm_compute; reflexivity).
  clearbody m. cbv beta in E. destruct m as [[st| | |] s']; cbn [fst snd] in E; try discriminate E. injection E as E1 E2. eauto.
Qed.
Lemma bee_stale_refuted : exists (s : list Z * pop (list Z)) st s', valid_pop (snd s) /\ po_prob (snd s) = alg_problem /\
  rfold (fun st _ => bee_gen stream_rng 1 10 2 st) (mkbees (po_x (snd s)) (po_f (snd s)) [0; 0]%Z) (seq 0 2) s = (Ok st, s') /\
  b_fit st = [[Fin 0]; [Fin 2]] /\ po_f (snd s') = [[Fin 20]; [Fin 2]].
Proof.
  destruct scout_run_is as (st & s' & E & E1 & E2). exists (scout_stream, two_pop), st, s'. split; [exact two_pop_valid|]. split; [reflexivity|]. split; [exact E|]. split; [exact E1|exact E2].
Qed.
Lemma bee_scout_refuted : exists (s : list Z * pop (list Z)) s', valid_pop (snd s) /\ po_prob (snd s) = alg_problem /\
  bee_evolve stream_rng 1 10 2 s = (Ok tt, s') /\ po_f (snd s) = [[Fin 0]; [Fin 4]] /\ po_f (snd s') = [[Fin 20]; [Fin 2]].
Proof.
  destruct scout_run_is as (st & s' & E & E1 & E2). exists (scout_stream, two_pop), s'. split; [exact two_pop_valid|]. split; [reflexivity|]. split; [|split; [reflexivity|exact E2]].
  unfold bee_evolve, rbind at 1, getp. cbv beta iota zeta. cbn [snd]. change (get_nc (po_prob two_pop)) with 0. change (get_nf (po_prob two_pop)) with 1. change (length (po_id two_pop)) with 2. cbn [Nat.eqb negb Nat.ltb Nat.leb].
  change (u_set_seed (p_udp (po_prob two_pop))) with false. cbv iota. unfold rbind. change (repeat 0%Z 2) with [0; 0]%Z. rewrite E. reflexivity.
Qed.
Definition nan_pop : pop (list Z) :=
  {| po_prob := alg_problem; po_fevals := 2; po_id := [7; 8]%Z; po_x := [[Fin 0; Fin 0]; [Fin 2; Fin 2]]; po_f := [[Fin 0]; [NaN]]; po_cx := [Fin 0; Fin 0]; po_cf := [Fin 0]; po_rng := [] |}.
Lemma nan_pop_valid : valid_pop nan_pop.
Proof.
  split; [exact alg_problem_obj|]. split; [|right; split; reflexivity]. split; [reflexivity|]. split; [reflexivity|].
  split; [intros x [<-|[<-|[]]]; reflexivity|]. split; [intros x [<-|[<-|[]]]; reflexivity|]. intros i [<-|[<-|[]]]; lia.
Qed.
Lemma bee_construct_iff limit : (bee_construct limit = Throw InvalidArgument <-> limit = 0%Z) /\ (bee_construct limit = Ok tt <-> limit <> 0%Z).
Proof. unfold bee_construct. destruct (Z.eqb_spec limit 0); split; split; intros; congruence. Qed.
Lemma most_tried_max trial : trial <> [] -> exists mi t, most_tried trial (length trial) = Ok mi /\ nth_error trial mi = Some t /\ (forall x, In x trial -> (x <= t)%Z).
Proof.
  intros H. destruct (mtried_ok trial (length trial) eq_refl) as (mi & t & A & _ & B & C); [destruct trial; [congruence|cbn; lia]|]. exists mi, t. auto.
Qed.
