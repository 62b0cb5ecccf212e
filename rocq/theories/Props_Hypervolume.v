(** Hypervolumes: C39 - C44. *)
From Coq Require Import List ZArith Lia.
From Verif Require Import Dbl IntDbl Outcome StdSort BaseFacts Hypervolume SpecHypervolume HvFacts HvFacts5 HvFacts6.
Import ListNotations.
Local Open Scope Z_scope.

(** The example used below: three points in three dimensions, dominating a volume of 20. *)
Definition ex3 : list (list Z) := [[0;2;3];[3;1;0];[2;3;1]].
Example ex3_acceptable : acceptable [4;4;4] ex3.
Proof. split; [discriminate|]. intros p [<-|[<-|[<-|[]]]]; (split; [repeat constructor; lia|discriminate]). Qed.
Example ex3_representable : representable 1000 ex3.
Proof. intros p z [<-|[<-|[<-|[]]]] Hz; cbn in Hz; intuition lia. Qed.

(** C39: for points with integer coordinates and exact arithmetic, hv2d's result is
    the area dominated by the points and bounded by the reference point, for every
    sorting routine that honours std::sort's contract. *)
Theorem C39_hv2d : forall m srt pts r, sort_contract srt -> length r = 2%nat -> bounded_by r pts ->
  exists v, hv2d_compute (Zar m) srt true pts r = Ok v /\ volume (dominated pts r) v.
Proof. exact (fun m srt pts r HS => hv2d_volume m srt HS r pts). Qed.
Print Assumptions C39_hv2d.

Example C39_example : hv2d_compute (Zar 1000) (@isort) true [[0;3];[2;1];[1;2];[2;2]] [4;4] = Ok 9.
Proof. reflexivity. Qed.

(** C40: WFG, in every dimension, with any stop dimension that it accepts. *)
Theorem C40_wfg : forall m srt stop pts r, sort_contract srt -> suits (WFG stop) (length r) -> acceptable r pts -> representable m pts ->
  exists v, hv_obj_compute (Zar m) srt (WFG stop) pts r = Ok v /\ volume (dominated pts r) v.
Proof. exact (fun m srt stop => obj_compute m srt (WFG stop)). Qed.
Print Assumptions C40_wfg.

Example C40_example : suits (WFG 2) 4 /\ hv_obj_compute (Zar 1000) (@isort) (WFG 2) [[0;1;2;3];[3;2;1;0];[1;1;1;3];[2;2;2;2]] [4;4;4;4] = Ok 55.
Proof. split; [cbn; lia|vm_compute; reflexivity]. Qed.

(** C41: the three-dimensional sweep. *)
Theorem C41_hv3d : forall m srt pts r, sort_contract srt -> suits HV3D (length r) -> acceptable r pts -> representable m pts ->
  exists v, hv_obj_compute (Zar m) srt HV3D pts r = Ok v /\ volume (dominated pts r) v.
Proof. exact (fun m srt => obj_compute m srt HV3D). Qed.
Print Assumptions C41_hv3d.

Example C41_example : acceptable [4;4;4] ex3 /\ representable 1000 ex3 /\ hv_obj_compute (Zar 1000) (@isort) HV3D ex3 [4;4;4] = Ok 20.
Proof. split; [exact ex3_acceptable|]. split; [exact ex3_representable|vm_compute; reflexivity]. Qed.

(** The algorithm that the class selects by itself. *)
Theorem C41_default_algorithm : forall m srt pts r, sort_contract srt -> (2 <= length r)%nat -> acceptable r pts -> representable m pts ->
  exists v, hv_obj_compute (Zar m) srt (best_alg r) pts r = Ok v /\ volume (dominated pts r) v.
Proof. exact (fun m srt pts r HS D => obj_compute m srt (best_alg r) pts r HS (best_suits r D)). Qed.
Print Assumptions C41_default_algorithm.

Example C41_default_example : hv_obj_compute (Zar 1000) (@isort) (best_alg [4;4;4]) ex3 [4;4;4] = Ok 20 /\
  hv_obj_compute (Zar 1000) (@isort) (best_alg [4;4;4;4;4]) [[0;1;2;3;1];[1;1;1;1;3]] [4;4;4;4;4] = Ok 135.
Proof. split; vm_compute; reflexivity. Qed.

(** C42: exclusive(i) is the volume that only point i dominates, for the three
    algorithms; an index out of range is rejected. *)
Theorem C42_exclusive : forall m srt a i pts r, sort_contract srt -> suits a (length r) -> acceptable r pts -> representable m pts ->
  ((i < length pts)%nat -> exists v, hv_obj_exclusive (Zar m) srt a i pts r = Ok v /\ volume (only_dominated_by i pts r) v) /\
  ((length pts <= i)%nat -> hv_obj_exclusive (Zar m) srt a i pts r = Throw InvalidArgument).
Proof. exact obj_exclusive. Qed.
Print Assumptions C42_exclusive.

Example C42_exclusive_example : map (fun i => hv_obj_exclusive (Zar 1000) (@isort) HV3D i ex3 [4;4;4]) [0;1;2;3]%nat =
  [Ok 5; Ok 8; Ok 2; Throw InvalidArgument].
Proof. vm_compute. reflexivity. Qed.

(** contributions() with WFG lists these volumes for all points. *)
Theorem C42_wfg_contributions : forall m srt stop pts r, sort_contract srt -> suits (WFG stop) (length r) -> acceptable r pts -> representable m pts ->
  exists c, hv_obj_contributions (Zar m) srt (WFG stop) pts r = Ok c /\ exact_contributions pts r c.
Proof. exact obj_contributions_wfg. Qed.
Print Assumptions C42_wfg_contributions.

(** So does the default implementation that an algorithm inherits, with any of the
    compute methods. *)
Theorem C42_inherited_contributions : forall m srt a pts r, sort_contract srt -> suits a (length r) -> acceptable r pts -> representable m pts ->
  exists c, hv_contributions (Zar m) (alg_compute (Zar m) srt a) pts r = Ok c /\ exact_contributions pts r c.
Proof. exact (fun m srt a pts r HS SU AC => contributions_base m srt HS a r pts SU (proj1 AC) (fun p Hp => proj1 (proj2 AC p Hp))). Qed.
Print Assumptions C42_inherited_contributions.

Theorem C42_contributions_nonnegative : forall pts r c, exact_contributions pts r c -> forall v, In v c -> 0 <= v.
Proof. exact exact_nonneg. Qed.
Print Assumptions C42_contributions_nonnegative.

Example C42_contributions_example : hv_obj_contributions (Zar 1000) (@isort) (WFG 2) ex3 [4;4;4] = Ok [5; 8; 2] /\
  hv_contributions (Zar 1000) (alg_compute (Zar 1000) (@isort) HV3D) ex3 [4;4;4] = Ok [5; 8; 2].
Proof. split; vm_compute; reflexivity. Qed.

Theorem C42_extreme_contributors : forall m srt stop pts r, sort_contract srt -> suits (WFG stop) (length r) -> acceptable r pts -> representable m pts ->
  exists c k k', hv_obj_contributions (Zar m) srt (WFG stop) pts r = Ok c /\
    hv_obj_least (Zar m) srt (WFG stop) pts r = Ok k /\ attains Z.le c k /\
    hv_obj_greatest (Zar m) srt (WFG stop) pts r = Ok k' /\ attains Z.ge c k'.
Proof. exact obj_least_wfg. Qed.
Print Assumptions C42_extreme_contributors.

Example C42_extreme_example : hv_obj_least (Zar 1000) (@isort) (WFG 2) ex3 [4;4;4] = Ok 2%nat /\ hv_obj_greatest (Zar 1000) (@isort) (WFG 2) ex3 [4;4;4] = Ok 1%nat.
Proof. split; vm_compute; reflexivity. Qed.

(** The contributions methods of hv3d and hv2d (HyCon3D) are wrong for some point
    sets in which two points share their first coordinate, even when no point
    dominates another. *)
Theorem C42_hv3d_contributions_refuted : exists pts r c,
  antichain pts /\ acceptable r pts /\ length r = 3%nat /\ representable 1000 pts /\
  hv_obj_contributions (Zar 1000) (@isort) HV3D pts r = Ok c /\ ~ exact_contributions pts r c.
Proof. exact hv3d_contributions_wrong. Qed.
Print Assumptions C42_hv3d_contributions_refuted.

Theorem C42_hv2d_contributions_refuted : exists pts r c k v,
  acceptable r pts /\ length r = 2%nat /\ representable 1000 pts /\
  hv_obj_contributions (Zar 1000) (@isort) HV2D pts r = Ok c /\ ~ exact_contributions pts r c /\
  hv_obj_exclusive (Zar 1000) (@isort) HV2D k pts r = Ok v /\ nth_error c k <> Some v.
Proof. exact hv2d_contributions_wrong. Qed.
Print Assumptions C42_hv2d_contributions_refuted.

Example C42_correct_values : hv_obj_contributions (Zar 1000) (@isort) (WFG 2) [[1;3;0];[1;1;1];[0;0;2]] [4;4;4] = Ok [3;6;14].
Proof. vm_compute. reflexivity. Qed.

(** C43: if every point of the first set is weakly dominated by a point of the second
    one, the second one's hypervolume is not smaller, whichever algorithms computed
    the two.  Applied in both directions this gives equality for reordered or repeated
    points, for additional dominated points, and between the algorithms. *)
Theorem C43_monotone : forall m srt a a' r pts pts' v v', sort_contract srt ->
  suits a (length r) -> suits a' (length r) -> acceptable r pts -> acceptable r pts' -> representable m pts -> representable m pts' ->
  weakly_dominated_by pts' pts ->
  alg_compute (Zar m) srt a pts r = Ok v -> alg_compute (Zar m) srt a' pts' r = Ok v' -> v <= v'.
Proof.
  exact (fun m srt a a' r pts pts' v v' HS S1 S2 A1 A2 =>
    compute_mono m srt HS a a' r pts pts' v v' S1 S2 (proj1 A1) (proj1 A2) (fun p Hp => proj1 (proj2 A1 p Hp)) (fun p Hp => proj1 (proj2 A2 p Hp))).
Qed.
Print Assumptions C43_monotone.

Theorem C43_same_set : forall m srt a a' r pts pts' v v', sort_contract srt ->
  suits a (length r) -> suits a' (length r) -> acceptable r pts -> acceptable r pts' -> representable m pts -> representable m pts' ->
  (forall p, In p pts <-> In p pts') ->
  alg_compute (Zar m) srt a pts r = Ok v -> alg_compute (Zar m) srt a' pts' r = Ok v' -> v = v'.
Proof. exact compute_same_set. Qed.
Print Assumptions C43_same_set.

Theorem C43_dominated_point : forall m srt a r pts p q v v', sort_contract srt ->
  suits a (length r) -> acceptable r pts -> acceptable r (p :: pts) -> representable m (p :: pts) ->
  In q pts -> Forall2 Z.le q p ->
  alg_compute (Zar m) srt a pts r = Ok v -> alg_compute (Zar m) srt a (p :: pts) r = Ok v' -> v = v'.
Proof. exact compute_dominated_point. Qed.
Print Assumptions C43_dominated_point.

Example C43_example : map (fun a => alg_compute (Zar 1000) (@isort) a ex3 [4;4;4]) [HV3D; WFG 2; WFG 3] = [Ok 20; Ok 20; Ok 20] /\
  alg_compute (Zar 1000) (@isort) HV3D ([3;2;3] :: rev ex3 ++ ex3) [4;4;4] = Ok 20 /\
  alg_compute (Zar 1000) (@isort) HV3D ([0;1;3] :: ex3) [4;4;4] = Ok 23.
Proof. split; [|split]; vm_compute; reflexivity. Qed.

(** C44: construction succeeds exactly for well-formed point sets. *)
Theorem C44_construct : forall pts,
  hv_construct disnan pts = Ok pts /\ well_formed pts \/ hv_construct disnan pts = Throw InvalidArgument /\ ~ well_formed pts.
Proof. exact construct_cases. Qed.
Print Assumptions C44_construct.

(** From a population: also, no constraints and at least two objectives. *)
Theorem C44_construct_from_population : forall nc nobj pts,
  hv_construct_pop disnan nc nobj pts = Ok pts /\ (nc = 0 /\ 2 <= nobj)%nat /\ well_formed pts \/
  hv_construct_pop disnan nc nobj pts = Throw InvalidArgument /\ ~ ((nc = 0 /\ 2 <= nobj)%nat /\ well_formed pts).
Proof. exact construct_pop_cases. Qed.
Print Assumptions C44_construct_from_population.

(** The reference point is accepted exactly when it has the points' dimension, the
    dimension the algorithm needs, no coordinate less than a point's, and differs from
    every point somewhere. *)
Theorem C44_reference_point : forall a pts r, well_formed pts ->
  hv_verify Dar a pts r = Ok tt /\ dimension_ok a (length r) /\ (forall p, In p pts -> length p = length r /\ strictly_below r p) \/
  hv_verify Dar a pts r = Throw InvalidArgument /\ ~ (dimension_ok a (length r) /\ (forall p, In p pts -> length p = length r /\ strictly_below r p)).
Proof. exact verify_doubles. Qed.
Print Assumptions C44_reference_point.

Example C44_example :
  hv_construct disnan [[dint 1; dint 2]; [dint 3; dint 0]] = Ok [[dint 1; dint 2]; [dint 3; dint 0]] /\
  hv_construct disnan [[dint 1; dint 2]; [dint 3]] = Throw InvalidArgument /\
  hv_construct disnan [[dint 1; NaN]] = Throw InvalidArgument /\
  hv_verify Dar HV2D [[dint 1; dint 2]; [dint 3; dint 0]] [dint 3; dint 2] = Ok tt /\
  hv_verify Dar HV2D [[dint 1; dint 2]; [dint 3; dint 0]] [dint 2; dint 5] = Throw InvalidArgument.
Proof. repeat split; vm_compute; reflexivity. Qed.

(** refpoint(offset) is the greatest coordinates plus the offset, and with a positive
    offset is accepted, in exact arithmetic ... *)
Theorem C44_refpoint : forall m pts off d, pts <> [] -> (forall p, In p pts -> length p = d) ->
  length (hv_refpoint (Zar m) pts off) = d /\
  forall i v, nth_error (hv_refpoint (Zar m) pts off) i = Some v -> column_max pts i (v - off).
Proof. exact refpoint_Z. Qed.
Print Assumptions C44_refpoint.

Theorem C44_refpoint_accepted : forall m pts off d, (1 <= d)%nat -> 0 < off -> pts <> [] -> (forall p, In p pts -> length p = d) ->
  acceptable (hv_refpoint (Zar m) pts off) pts.
Proof. exact refpoint_acceptable. Qed.
Print Assumptions C44_refpoint_accepted.

Example C44_refpoint_example : hv_refpoint (Zar 1000) ex3 1 = [4;4;4].
Proof. reflexivity. Qed.

(** ... but not in double arithmetic, where the offset can be absorbed. *)
Theorem C44_refpoint_doubles_refuted : exists pts off, well_formed pts /\ dlt dzero off = true /\
  hv_verify Dar HV2D pts (hv_refpoint Dar pts off) = Throw InvalidArgument.
Proof. exact refpoint_rejected. Qed.
Print Assumptions C44_refpoint_doubles_refuted.

(** A reference point with a NaN coordinate passes the verification. *)
Theorem C44_nan_reference_refuted : exists pts r, well_formed pts /\ In NaN r /\
  hv_verify Dar HV2D pts r = Ok tt /\ hv_obj_compute Dar (@isort) HV2D pts r = Ok NaN.
Proof. exact nan_reference_accepted. Qed.
Print Assumptions C44_nan_reference_refuted.
