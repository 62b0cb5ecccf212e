(** Packaging of the multi-objective facts as used by the property file. *)
From Coq Require Import List Bool Arith ZArith Lia Permutation.
From Verif Require Import Dbl DblFacts Outcome StdSort BaseFacts Compare MultiObj Weights SpecOrder SpecMultiObj SpecDiscrepancy
  CompareFacts DominanceFacts FndsFacts MultiObjFacts CrowdFacts MultiObjFacts2 DecomposeFacts Discrepancy DiscrepancyFacts WeightsFacts.
Import ListNotations.

Lemma comparators_meaning a b :
  (less_than_f a b = true <-> better a b) /\ (greater_than_f a b = true <-> better b a) /\ (equal_to_f a b = true <-> a = b).
Proof. split; [apply less_than_f_spec|]. split; [rewrite greater_than_f_flip; apply less_than_f_spec|apply equal_to_f_spec]. Qed.

Lemma better_strict_weak_order a b c :
  ~ better a a /\
  (better a b -> ~ better b a) /\
  (better a b -> better b c -> better a c) /\
  (~ better a b /\ ~ better b a <-> a = b) /\
  (num_lt a b -> better a b) /\ (a <> NaN -> better a NaN) /\ ~ better NaN a.
Proof.
  split; [apply better_irrefl|]. split; [apply better_asym|]. split; [apply better_trans|]. split.
  - split; [intros [H1 H2]; destruct (better_total a b) as [|[|]]; tauto|]. intros ->. split; apply better_irrefl.
  - split; [destruct a, b; simpl; auto|]. split; [destruct a; simpl; auto|]. destruct a; simpl; auto.
Qed.

Lemma comparators_sort_precondition (A : Type) (key : A -> dbl) (l : list A) :
  strict_weak_on (fun x y => less_than_f (key x) (key y)) l /\ strict_weak_on (fun x y => greater_than_f (key x) (key y)) l.
Proof. split; [apply ltf_key_swo|apply gtf_key_swo]. Qed.

Lemma dominates_spo a b c : ~ dominates a a /\ (dominates a b -> ~ dominates b a) /\ (dominates a b -> dominates b c -> dominates a c).
Proof. split; [apply dominates_irrefl|]. split; [apply dominates_asym|apply dominates_trans]. Qed.

Lemma fnds_rejects pts :
  (length pts < 2 -> fast_non_dominated_sorting pts = Throw InvalidArgument) /\
  (2 <= length pts -> ~ uniform pts (length (nth 0 pts [])) -> fast_non_dominated_sorting pts = Throw InvalidArgument).
Proof.
  split; [|apply fnds_ragged]. intros H. unfold fast_non_dominated_sorting. destruct (Nat.ltb_spec (length pts) 2); [reflexivity|lia].
Qed.

Lemma select_best_not_dominated srt pts M N sel i j : sort_contract srt -> uniform pts M -> 2 <= M -> 2 <= length pts ->
  select_best_N_mo srt pts N = Ok sel -> In i sel -> j < length pts -> ~ In j sel -> ~ dom_idx pts j i.
Proof.
  intros C U HM HN E Hi Hj Hn D. destruct (select_best_ok srt pts M N C U HM) as (sel' & E' & (_ & Hlt & _ & Hk & _)).
  rewrite E in E'. inversion E'; subst sel'. clear E'.
  destruct (fnds_ok pts M U HN) as (r & _ & FD & _).
  assert (Hall : forall i, i < length pts -> exists k, In i (nth k (fr_fronts r) [])).
  { intros x Hx. assert (In x (concat (fr_fronts r))).
    { eapply Permutation_in; [apply (fd_perm _ _ FD)|]. apply in_seq; lia. }
    apply in_nth_concat in H. destruct H as (k & _ & H). eauto. }
  destruct (Hall i (Hlt i Hi)) as (ki & Hki).
  destruct (fd_earlier _ _ FD ki i j Hki D) as (kj & Hlt' & Hkj).
  pose proof (Hk (fr_fronts r) ki kj i j FD Hi Hj Hn Hki Hkj). lia.
Qed.

Lemma crowding_extremes pts M r : 2 <= length pts -> regular_front pts M -> crowding_spec pts M r ->
  (forall p v, nth_error r p = Some v -> nonneg v) /\
  (forall j, j < M -> exists a b, nth_error r a = Some PInf /\ nth_error r b = Some PInf /\
     a < length pts /\ b < length pts /\
     forall p, p < length pts -> not_worse (val pts a j) (val pts p j) /\ not_worse (val pts p j) (val pts b j)).
Proof. intros HN R CS. exact (crowding_nonneg pts M HN R M r CS (Nat.le_refl M)). Qed.

Lemma crowding_degenerate : exists pts r, uniform pts 2 /\ 2 <= length pts /\ crowding_distance isort pts = Ok r /\ In NaN r.
Proof.
  exists [[Fin 1; Fin 1]; [Fin 1; Fin 1]; [Fin 1; Fin 1]], [PInf; NaN; PInf].
  split; [intros p Hp; simpl in Hp; intuition (subst; reflexivity)|]. split; [simpl; lia|].
  split; [vm_compute; reflexivity|]. right; left; reflexivity.
Qed.

Lemma crowding_example_regular : regular_front [[Fin 1; Fin 4]; [Fin 2; Fin 2]; [Fin 3; Fin 3]; [Fin 4; Fin 1]] 2.
Proof.
  intros j Hj. split.
  - intros p Hp. simpl in Hp. destruct j as [|[|]]; try lia;
    destruct p as [|[|[|[|]]]]; try lia; eexists; (split; [vm_compute; reflexivity|vm_compute; discriminate]).
  - exists 0, 1. split; [simpl; lia|]. split; [simpl; lia|]. destruct j as [|[|]]; try lia; vm_compute; discriminate.
Qed.

Lemma nadir_single p : nadir [p] = Throw InvalidArgument.
Proof. reflexivity. Qed.

Lemma weights_rejected srt binom fuel hp draw nf nw m : nw < nf \/ nf < 2 \/ m = WOther ->
  decomposition_weights srt binom fuel hp draw nf nw m = Throw InvalidArgument.
Proof.
  intros H. unfold decomposition_weights. destruct (Nat.ltb_spec nw nf); [reflexivity|]. destruct (Nat.ltb_spec nf 2); [reflexivity|].
  destruct H as [|[|]]; try lia. subst; reflexivity.
Qed.

Lemma grid_not_canonical : exists binom ws w, binomial_exact binom /\
  decomposition_weights isort binom 10 (fun _ => []) (fun _ _ => NaN) 2 2 WGrid = Ok ws /\
  nth_error ws 0 = Some w /\ ~ canonical 2 0 w.
Proof.
  exists (fun n k => d_of_Z (choose (Z.to_nat n) (Z.to_nat k))). eexists _, _. split.
  { intros n k _. rewrite !Nat2Z.id. reflexivity. }
  split; [vm_compute; reflexivity|]. split; [reflexivity|]. intros [_ H]. specialize (H 0 ltac:(lia)). vm_compute in H. discriminate.
Qed.

Lemma weighted_unfold f w z : length w = length f -> length z = length f -> length f <> 0 ->
  decompose_objectives f w z Weighted = Ok [dec_weighted dzero f w].
Proof. intros L1 L2 L0. unfold decompose_objectives. rewrite L1, L2, Nat.eqb_refl. destruct (Nat.eqb_spec (length f) 0); [contradiction|reflexivity]. Qed.
Lemma tcheb_unfold f w z : length w = length f -> length z = length f -> length f <> 0 ->
  decompose_objectives f w z Tchebycheff = Ok [dec_tcheb dzero f w z].
Proof. intros L1 L2 L0. unfold decompose_objectives. rewrite L1, L2, Nat.eqb_refl. destruct (Nat.eqb_spec (length f) 0); [contradiction|reflexivity]. Qed.

Lemma weighted_monotone a b w z : length w = length a -> length b = length a -> length z = length a -> length a <> 0 ->
  Forall nonneg w -> (forall i x y, nth_error a i = Some x -> nth_error b i = Some y -> dle x y = true) ->
  exists ra rb, decompose_objectives a w z Weighted = Ok [ra] /\ decompose_objectives b w z Weighted = Ok [rb] /\ le_or_nan ra rb.
Proof.
  intros Lw Lb Lz L0 Fw H. rewrite !weighted_unfold by lia. eexists _, _. split; [reflexivity|]. split; [reflexivity|].
  apply dec_weighted_mono; auto; try lia. right; right; reflexivity.
Qed.

Lemma weighted_not_nan f w z : length w = length f -> length z = length f -> length f <> 0 ->
  Forall (fun x => exists k, x = Fin k /\ (0 <= k)%Z) f -> Forall (fun x => exists k, x = Fin k /\ (0 <= k)%Z) w ->
  exists r, decompose_objectives f w z Weighted = Ok [r] /\ nonneg r.
Proof. intros L1 L2 L0 Ff Fw. rewrite weighted_unfold by assumption. eexists. split; [reflexivity|]. apply dec_weighted_nonneg; auto. reflexivity. Qed.

Lemma tchebycheff_max f w z : length w = length f -> length z = length f -> length f <> 0 ->
  exists r, decompose_objectives f w z Tchebycheff = Ok [r] /\ nonneg r /\
    (r = Fin 0 \/ exists i fi wi zi, nth_error f i = Some fi /\ nth_error w i = Some wi /\ nth_error z i = Some zi /\ r = tcheb_term fi wi zi) /\
    (forall i fi wi zi, nth_error f i = Some fi -> nth_error w i = Some wi -> nth_error z i = Some zi -> dlt r (tcheb_term fi wi zi) = false).
Proof.
  intros L1 L2 L0. rewrite tcheb_unfold by assumption. eexists. split; [reflexivity|].
  destruct (dec_tcheb_spec f w z dzero L1 L2 ltac:(discriminate)) as (R1 & R2 & R3 & R4).
  split; [|split; [exact R3|exact R4]]. set (r := dec_tcheb dzero f w z) in *. unfold nonneg.
  destruct r as [| |x|]; try congruence; try discriminate; [|reflexivity]. apply dle_fin. apply Z.ltb_ge in R2. exact R2.
Qed.

Lemma decompose_zero_at_reference f w : length w = length f -> length f <> 0 ->
  Forall (fun x => exists z, x = Fin z /\ is_double x) f -> Forall (fun x => isfinite x = true) w ->
  decompose_objectives f w f Tchebycheff = Ok [Fin 0] /\
  (dlt (Fin 0) (dsqrt (weight_norm2 (Fin 0) w)) = true -> decompose_objectives f w f BI = Ok [Fin 0]).
Proof.
  intros L L0 Ff Fw. split; [|intros H; apply bi_at_reference; assumption].
  rewrite tcheb_unfold by auto. rewrite dec_tcheb_zero; auto.
  eapply Forall_impl; [|exact Ff]. intros x (z & -> & _). reflexivity.
Qed.

Lemma tchebycheff_underflow : exists f w z, f <> z /\ Forall is_double (f ++ w ++ z) /\ decompose_objectives f w z Tchebycheff = Ok [Fin 0].
Proof.
  exists [Fin 1], [Fin 1], [Fin 0]. split; [discriminate|]. split; [|vm_compute; reflexivity].
  assert (is_double (Fin 1)) by (exists 1%Z, 0%Z; repeat split; try reflexivity; vm_compute; congruence).
  assert (is_double (Fin 0)) by (exists 0%Z, 0%Z; repeat split; try reflexivity; vm_compute; congruence).
  repeat constructor; assumption.
Qed.
