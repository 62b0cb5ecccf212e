From Coq Require Import String List Bool Arith ZArith Lia Permutation.
From Verif Require Import Dbl DblFacts IntDbl Outcome BaseFacts StdSort SpecOrder Compare CompareFacts Problem SpecProblem ProblemFacts Rng Generic SpecGeneric GenericFacts GenericFacts3 SpecGenetic RmFacts
  GeneticOps GeneticFacts Constrained SpecConstrained ConstrainedFacts ConstrainedFacts2 Population SpecPopulation PopulationFacts PopulationFacts3 Algo SpecAlgo AlgoFacts AlgoFacts2 NotPop SpecLocal AlgCompass AlgCompassFacts AlgExamples.
Import ListNotations.

Lemma cs_construct_iff start stop red : cs_construct start stop red = Ok tt <-> (dlt dzero start = true /\ dle start done = true) /\ dlt stop start = true /\ (dlt dzero red = true /\ dlt red done = true).
Proof.
  unfold cs_construct, dgt, dge. rewrite done_fin. unfold dzero.
  destruct start as [| |a|]; [split; [intros H; cbn in H; discriminate|intros ((H & _) & _); discriminate]|split; [intros H; cbn in H; discriminate|intros ((H & _) & _); discriminate]| |split; [intros H; discriminate|intros ((_ & H) & _); discriminate]].
  destruct (dlt (Fin one_z) (Fin a)) eqn:A1; cbn [orb].
  { split; [discriminate|]. intros ((_ & H) & _). apply dle_dlt_false in H. congruence. }
  apply dlt_false_dle in A1; [|discriminate|discriminate].
  destruct (dle (Fin a) (Fin 0)) eqn:A2; cbn [orb].
  { split; [discriminate|]. intros ((H & _) & _). apply dle_dlt_false in A2. congruence. }
  assert (A3 : dlt (Fin 0) (Fin a) = true).
  { destruct (dlt (Fin 0) (Fin a)) eqn:X; [reflexivity|]. apply dlt_false_dle in X; [congruence|discriminate|discriminate]. }
  cbn [isnan]. destruct stop as [| |b|].
  - split; [|intros (_ & H & _); discriminate]. intros H. change (dlt (Fin one_z) NaN || dle (Fin a) NaN || isnan NaN) with true in H. discriminate.
  - change (dlt (Fin one_z) MInf || dle (Fin a) MInf || isnan MInf) with false. cbv iota.
    destruct red as [| |c|]; [split; [discriminate|intros (_ & _ & H & _); discriminate]|split; [discriminate|intros (_ & _ & H & _); discriminate]| |split; [discriminate|intros (_ & _ & _ & H); discriminate]].
    destruct (dle (Fin one_z) (Fin c)) eqn:C1; cbn [orb]; [split; [discriminate|intros (_ & _ & _ & H); apply dle_dlt_false in C1; congruence]|].
    destruct (dle (Fin c) (Fin 0)) eqn:C2; cbn [orb isnan]; [split; [discriminate|intros (_ & _ & H & _); apply dle_dlt_false in C2; congruence]|].
    split; [|reflexivity]. intros _. split; [auto|]. split; [reflexivity|]. split.
    + destruct (dlt (Fin 0) (Fin c)) eqn:X; [reflexivity|]. apply dlt_false_dle in X; [congruence|discriminate|discriminate].
    + destruct (dlt (Fin c) (Fin one_z)) eqn:X; [reflexivity|]. apply dlt_false_dle in X; [congruence|discriminate|discriminate].
  - assert (B : (dlt (Fin one_z) (Fin b) || dle (Fin a) (Fin b) || isnan (Fin b))%bool = negb (dlt (Fin b) (Fin a))).
    { apply dle_fin in A1. cbn [isnan]. rewrite orb_false_r. unfold dle, dlt, deq. destruct (Z.ltb_spec one_z b), (Z.ltb_spec a b), (Z.eqb_spec a b), (Z.ltb_spec b a); try reflexivity; lia. }
    rewrite B. destruct (dlt (Fin b) (Fin a)); cbn [negb]; [|split; [discriminate|intros (_ & H & _); discriminate]].
    destruct red as [| |c|]; [split; [discriminate|intros (_ & _ & H & _); discriminate]|split; [discriminate|intros (_ & _ & H & _); discriminate]| |split; [discriminate|intros (_ & _ & _ & H); discriminate]].
    destruct (dle (Fin one_z) (Fin c)) eqn:C1; cbn [orb]; [split; [discriminate|intros (_ & _ & _ & H); apply dle_dlt_false in C1; congruence]|].
    destruct (dle (Fin c) (Fin 0)) eqn:C2; cbn [orb isnan]; [split; [discriminate|intros (_ & _ & H & _); apply dle_dlt_false in C2; congruence]|].
    split; [|reflexivity]. intros _. split; [auto|]. split; [reflexivity|]. split.
    + destruct (dlt (Fin 0) (Fin c)) eqn:X; [reflexivity|]. apply dlt_false_dle in X; [congruence|discriminate|discriminate].
    + destruct (dlt (Fin c) (Fin one_z)) eqn:X; [reflexivity|]. apply dlt_false_dle in X; [congruence|discriminate|discriminate].
  - split; [intros H; discriminate|intros (_ & H & _); discriminate].
Qed.
Lemma cs_construct_throws start stop red : cs_construct start stop red = Ok tt \/ cs_construct start stop red = Throw InvalidArgument.
Proof. unfold cs_construct. destruct (_ || _)%bool; auto. destruct (_ || _)%bool; auto. destruct (_ || _)%bool; auto. Qed.
Lemma cs_constructor start stop red :
  (cs_construct start stop red = Ok tt <-> (dlt dzero start = true /\ dle start done = true) /\ dlt stop start = true /\ (dlt dzero red = true /\ dlt red done = true)) /\
  (cs_construct start stop red = Ok tt \/ cs_construct start stop red = Throw InvalidArgument).
Proof. split; [apply cs_construct_iff|apply cs_construct_throws]. Qed.

Section C.
Context {G P : Type} (r : rng G) (RC : rng_contract r) (srt : sorter) (sel rep : policy) (max_fevals : Z) (start stop red : dbl).
Lemma cs_rejects fuel (s : G * pop P) : p_nobj (po_prob (snd s)) <> 1 \/ u_set_seed (p_udp (po_prob (snd s))) = true \/ po_id (snd s) = [] ->
  cs_evolve r srt sel rep max_fevals start stop red fuel s = (Throw InvalidArgument, s).
Proof.
  intros H. unfold cs_evolve, rbind, getp. cbv beta iota zeta. destruct (Nat.eqb_spec (p_nobj (po_prob (snd s))) 1) as [E1|E1]; cbn [negb]; [|reflexivity].
  destruct (u_set_seed _); [reflexivity|]. destruct H as [H|[H|H]]; [contradiction|discriminate|]. rewrite H. reflexivity.
Qed.
Lemma cs_nothing fuel (s : G * pop P) : p_nobj (po_prob (snd s)) = 1 -> u_set_seed (p_udp (po_prob (snd s))) = false -> po_id (snd s) <> [] ->
  cs_evolve r srt sel rep 0 start stop red fuel s = (Ok tt, s).
Proof. intros E1 E2 E3. unfold cs_evolve, rbind, getp. cbv beta iota zeta. rewrite E1, E2. destruct (po_id (snd s)); [contradiction|]. reflexivity. Qed.

Lemma cs_any fuel (s : G * pop P) p : po_prob (snd s) = p -> valid_pop (snd s) -> p_nobj p = 1 -> u_set_seed (p_udp p) = false -> fitness_defined p -> po_id (snd s) <> [] -> ranked srt (snd s) ->
  cs_construct start stop red = Ok tt -> (0 < max_fevals)%Z -> (max_fevals + 2 * Z.of_nat (get_nx p) < 2 ^ 32)%Z -> (max_fevals < Z.of_nat fuel)%Z ->
  ends (cs_evolve r srt sel rep max_fevals start stop red fuel) s
    (fun _ s' => valid_pop (snd s') /\ exists i j x f x' f' n, chosen srt sel (snd s) i /\ nth_error (po_x (snd s)) i = Some x /\ nth_error (po_f (snd s)) i = Some f /\
       descends p (fun _ => True) (x, f) (x', f') /\ chosen srt rep (snd s) j /\ one_replaced (snd s) (snd s') j x' f' /\
       evals n (snd s) (snd s') /\ (Z.of_nat n <= max_fevals + 2 * Z.of_nat (get_nx p))%Z /\ ((Z.of_nat n <= max_fevals)%Z -> local_optimum p stop red x' f'))
    (fun e => fitness_throws p e \/ (e = InvalidArgument /\ (bad_index sel (snd s) \/ bad_index rep (snd s)))).
Proof.
  intros EP V NO NS FD NE RK CC M1 M2 HF. apply cs_construct_iff in CC. destruct CC as (_ & SS & _). pose proof V as (PO & _). rewrite EP in PO.
  eapply ends_weak; [apply (cs_evolve_gen r RC srt sel rep max_fevals start stop red p (fun _ => True) (fun _ => True) PO NO FD); auto| |auto].
  intros _ s' (V' & i & j & x & f & x' & f' & n & A1 & A2 & A3 & A4 & _ & A5 & A6 & A7 & A8 & A9). split; [exact V'|]. exists i, j, x, f, x', f', n. repeat (split; [assumption|]).
  intros H. destruct (A9 H) as (nr & _ & X). exists nr. exact X.
Qed.
Lemma cs_boxed fuel (s : G * pop P) p : po_prob (snd s) = p -> valid_pop (snd s) -> p_nobj p = 1 -> u_set_seed (p_udp p) = false -> fitness_defined p -> po_id (snd s) <> [] -> ranked srt (snd s) ->
  cs_construct start stop red = Ok tt -> (0 < max_fevals)%Z -> (max_fevals + 2 * Z.of_nat (get_nx p) < 2 ^ 32)%Z -> (max_fevals < Z.of_nat fuel)%Z ->
  dle dzero stop = true -> finite_bounds (p_lb p) (p_ub p) -> Forall is_double (p_lb p) -> Forall is_double (p_ub p) -> boxed (snd s) ->
  ends (cs_evolve r srt sel rep max_fevals start stop red fuel) s
    (fun _ s' => boxed (snd s') /\ exists i j x f x' f', chosen srt sel (snd s) i /\ nth_error (po_x (snd s)) i = Some x /\ nth_error (po_f (snd s)) i = Some f /\
       descends p (in_box (p_lb p) (p_ub p)) (x, f) (x', f') /\ chosen srt rep (snd s) j /\ one_replaced (snd s) (snd s') j x' f')
    (fun e => fitness_throws p e \/ (e = InvalidArgument /\ (bad_index sel (snd s) \/ bad_index rep (snd s)))).
Proof.
  intros EP V NO NS FD NE RK CC M1 M2 HF S0 [FL FU] DL DU BX. apply cs_construct_iff in CC. destruct CC as ((C1 & C2) & SS & (C3 & C4)). pose proof V as (PO & _). rewrite EP in PO.
  assert (POS : forall nr, dgt nr stop = true -> dlt dzero nr = true).
  { unfold dgt. intros nr H. destruct stop as [| |z|], nr as [| |w|]; try discriminate; try reflexivity. unfold dlt, dzero in *. apply dle_fin in S0. apply Z.ltb_lt in H. apply Z.ltb_lt. lia. }
  eapply ends_weak; [apply (cs_evolve_gen r RC srt sel rep max_fevals start stop red p (in_box (p_lb p) (p_ub p)) (bnd 1074) PO NO FD); auto| |auto].
  - intros nr x i v BN SN (X1 & X2 & X3) _ (l & u & c & A & B & C & D). split; [rewrite upd_len; exact X1|]. split; [rewrite upd_len; exact X2|]. intros k l' u' w A' B' C'. destruct (Nat.eq_dec k i) as [->|N].
    + rewrite upd_same in C' by (apply nth_error_Some; congruence). assert (Wc : SpecGeneric.within l u c) by (eapply X3; eauto).
      rewrite Forall_forall in DL, DU. destruct (move_within l u nr c) as [W1 W2]; auto; [apply DL; eapply nth_error_In; eauto|apply DU; eapply nth_error_In; eauto|apply FL; eapply nth_error_In; eauto|apply FU; eapply nth_error_In; eauto|].
      replace l' with l by congruence. replace u' with u by congruence. replace w with v by congruence. destruct D as [->| ->]; assumption.
    + rewrite upd_other in C' by exact N. eapply X3; eauto.
  - intros nr B _. apply bnd_mul_unit_r; [lia|exact B|]. apply bnd_unit; [apply dlt_dle; exact C3|apply dlt_dle; exact C4].
  - intros x Hx. rewrite <- EP. now apply BX.
  - apply bnd_unit; [apply dlt_dle; exact C1|exact C2].
  - intros _ s' (V' & i & j & x & f & x' & f' & n & A1 & A2 & A3 & A4 & B4 & A5 & A6 & _). split; [|exists i, j, x, f, x', f'; repeat (split; [assumption|]); exact A6].
    destruct A6 as (Q1 & Q2 & Q3 & Q4). intros y Hy. rewrite Q1, EP. rewrite Q3 in Hy. apply upd_in in Hy. destruct Hy as [->|Hy]; [exact B4|]. rewrite <- EP. now apply BX.
Qed.
End C.

(** ** Examples *)
Definition zero_pop : pop (list Z) :=
  {| po_prob := alg_problem; po_fevals := 1; po_id := [7]%Z; po_x := [[Fin 0; Fin 0]]; po_f := [[Fin 0]]; po_cx := [Fin 0; Fin 0]; po_cf := [Fin 0]; po_rng := [] |}.
Lemma zero_pop_valid : valid_pop zero_pop.
Proof.
  split; [exact alg_problem_obj|]. split; [|right; split; reflexivity]. split; [reflexivity|]. split; [reflexivity|].
  split; [intros x [<-|[]]; reflexivity|]. split; [intros x [<-|[]]; reflexivity|]. intros i [<-|[]]. lia.
Qed.
Lemma cs_small : cs_construct (Fin 2) (Fin 1) (Fin 1) = Ok tt.
Proof. vm_compute. reflexivity. Qed.
Lemma cs_cap_refuted : exists (s : list Z * pop (list Z)) start stop red max fuel s', valid_pop (snd s) /\ cs_construct start stop red = Ok tt /\
  cs_evolve stream_rng (@isort) PBest PBest max start stop red fuel s = (Ok tt, s') /\ (po_fevals (snd s') - po_fevals (snd s) > max)%Z.
Proof.
  set (m := cs_evolve stream_rng (@isort) PBest PBest 1 (Fin 2) (Fin 1) (Fin 1) 2 ([], zero_pop)).
  assert (E1 : fst m = Ok tt) by (vm_compute; reflexivity). assert (E2 : po_fevals (snd (snd m)) = 5%Z) by (vm_compute; reflexivity).
  exists ([], zero_pop), (Fin 2), (Fin 1), (Fin 1), 1%Z, 2, (snd m). split; [exact zero_pop_valid|]. split; [exact cs_small|]. split; [fold m; rewrite <- E1; apply surjective_pairing|].
  rewrite E2. reflexivity.
Qed.
Lemma alg_doubles : Forall is_double (p_lb alg_problem) /\ Forall is_double (p_ub alg_problem).
Proof.
  assert (H : forall k, (0 <= k < 2 ^ 53)%Z -> is_double (Fin k)).
  { intros k Hk. assert (2 ^ 53 < ovf_z)%Z by (unfold ovf_z; apply Z.pow_lt_mono_r; lia). exists k, 0%Z. rewrite Z.pow_0_r. repeat split; lia. }
  split; repeat (apply Forall_cons; [apply H; lia|]); apply Forall_nil.
Qed.
Lemma alg_finite : finite_bounds (p_lb alg_problem) (p_ub alg_problem).
Proof. split; intros l [<-|[<-|[]]]; reflexivity. Qed.
Lemma alg_ranked srt : ranked srt alg_pop.
Proof. intros H. cbn in H. lia. Qed.

(** ** A negative stop range: NaN *)
Lemma box1 (l u a : dbl) : SpecGeneric.within l u a -> in_box [l] [u] [a].
Proof. intros H. split; [reflexivity|]. split; [reflexivity|]. intros [|i] l' u' v A B C; cbn in A, B, C; [congruence|destruct i; discriminate]. Qed.
Lemma not_boxed1 {P} (s : pop P) : po_x s = [[NaN]] -> length (p_lb (po_prob s)) = 1 -> length (p_ub (po_prob s)) = 1 -> ~ boxed s.
Proof.
  intros E2 E3 E4 H. specialize (H [NaN]). rewrite E2 in H. destruct (H (or_introl eq_refl)) as (_ & _ & X).
  destruct (p_lb (po_prob s)) as [|l ls]; [discriminate|]. destruct (p_ub (po_prob s)) as [|u us]; [discriminate|].
  destruct (X 0 l u NaN eq_refl eq_refl eq_refl) as [Y _]. destruct l; discriminate Y.
Qed.
Definition nan_fit (x : list dbl) : outcome (list dbl) := match x with [a] => Ok [if isnan a then Fin 0 else Fin 1] | _ => Throw (UserExn 1) end.
Definition wide_udp (f : list dbl -> outcome (list dbl)) : udp :=
  {| u_fitness := f; u_lb := [dneg dbl_max]; u_ub := [dbl_max]; u_nobj := 1; u_nec := 0; u_nic := 0; u_nix := 0;
     u_batch := None; u_gradient := None; u_gs := None; u_hessians := None; u_hs := None; u_set_seed := false; u_ts := TSbasic |}.
Definition wide_problem f : problem :=
  {| p_udp := wide_udp f; p_lb := [dneg dbl_max]; p_ub := [dbl_max]; p_nobj := 1; p_nec := 0; p_nic := 0; p_nix := 0; p_ctol := []; p_gs_dim := 1; p_hs_dim := [1]%Z |}.
Lemma wide_gen f : construct (wide_udp f) = Ok (wide_problem f).
Proof. vm_compute. reflexivity. Qed.
Definition wide_pop : pop (list Z) :=
  {| po_prob := wide_problem nan_fit; po_fevals := 1; po_id := [7]%Z; po_x := [[Fin 0]]; po_f := [[Fin 1]]; po_cx := [Fin 0]; po_cf := [Fin 1]; po_rng := [] |}.
Lemma cs_nan_refuted : exists (s : list Z * pop (list Z)) start stop red s', valid_pop (snd s) /\ boxed (snd s) /\ finite_bounds (p_lb (po_prob (snd s))) (p_ub (po_prob (snd s))) /\ cs_construct start stop red = Ok tt /\
  cs_evolve stream_rng (@isort) PBest PBest 2 start stop red 3 s = (Ok tt, s') /\ ~ boxed (snd s').
Proof.
  set (m := cs_evolve stream_rng (@isort) PBest PBest 2 (Fin 1) (dneg done) (Fin 1) 3 ([], wide_pop)).
  assert (E1 : fst m = Ok tt) by (vm_compute; reflexivity). assert (E2 : po_x (snd (snd m)) = [[NaN]]) by (vm_compute; reflexivity).
  exists ([], wide_pop), (Fin 1), (dneg done), (Fin 1), (snd m). split.
  { split; [exact (obj_new _ _ (wide_gen nan_fit))|]. split; [|right; split; reflexivity]. split; [reflexivity|]. split; [reflexivity|].
    split; [intros x [<-|[]]; reflexivity|]. split; [intros x [<-|[]]; reflexivity|]. intros i [<-|[]]. lia. }
  split. { intros x [<-|[]]. apply box1; split; vm_compute; reflexivity. }
  split; [split; intros l [<-|[]]; vm_compute; reflexivity|]. split; [vm_compute; reflexivity|]. split; [fold m; rewrite <- E1; apply surjective_pairing|].
  apply not_boxed1; [exact E2|vm_compute; reflexivity|vm_compute; reflexivity].
Qed.
Lemma policy_string_ok t : match policy_of_string t with
  | Ok pol => (t = "best" /\ pol = PBest) \/ (t = "worst" /\ pol = PWorst) \/ (t = "random" /\ pol = PRandom)
  | Throw e => e = InvalidArgument /\ t <> "best" /\ t <> "worst" /\ t <> "random" | _ => False end%string.
Proof.
  unfold policy_of_string. destruct (String.eqb_spec t "best"); [auto|]. destruct (String.eqb_spec t "worst"); [auto|]. destruct (String.eqb_spec t "random"); auto 6.
Qed.
Lemma descent_example : descends alg_problem (fun _ => True) ([Fin 2; Fin 2], [Fin 4]) ([Fin 1; Fin 2], [Fin 3]).
Proof.
  eapply desc_step; [apply desc_stay| |exact I|vm_compute; reflexivity]. split; [reflexivity|]. split; [reflexivity|]. vm_compute. reflexivity.
Qed.
