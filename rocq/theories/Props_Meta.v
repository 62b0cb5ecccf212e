(** Properties C26-C28: the meta-problems translate, unconstrain and decompose.
    Only statements, non-vacuity examples and assumption listings. *)
From Coq Require Import List Bool Arith ZArith Lia.
From Verif Require Import Dbl DblFacts Outcome Constrained SpecConstrained MultiObj Problem Bfe SpecProblem SpecGeneric MetaProblems SpecMeta MetaFacts MetaFacts2 MetaFacts3 MetaFacts4 MetaFacts5.
Import ListNotations.

(** C26. Construction: the translation must have the size of a decision vector; the bounds
    are shifted by it and everything else is the inner problem's. [ck] tells debug from
    release builds. *)
Theorem C26_constructor : forall ck p t, real_problem p ->
  (length t <> get_nx p -> translate_udp ck p t = Throw InvalidArgument) /\
  (length t = get_nx p -> exists u, translate_udp ck p t = Ok u /\ shifted dadd (p_lb p) t (u_lb u) /\ shifted dadd (p_ub p) t (u_ub u) /\
     u_nobj u = p_nobj p /\ u_nec u = p_nec p /\ u_nic u = p_nic p /\ u_nix u = p_nix p /\
     u_gs u = u_gs (p_udp p) /\ u_hs u = u_hs (p_udp p) /\ u_ts u = u_ts (p_udp p) /\ u_set_seed u = u_set_seed (p_udp p)).
Proof. exact translate_construct. Qed.
Print Assumptions C26_constructor.

(** Fitness, gradient and Hessians at x are the inner ones at x - t. *)
Theorem C26_evaluation : forall ck p t u x, translate_udp ck p t = Ok u -> length x = get_nx p ->
  exists y, shifted dsub x t y /\ forall c, u_fitness u x = fst (fitness p c y) /\
    (forall g, u_gradient u = Some g -> g x = fst (gradient p c y)) /\ (forall h, u_hessians u = Some h -> h x = fst (hessians p c y)).
Proof. exact translate_evaluate. Qed.
Print Assumptions C26_evaluation.
(** The same through the problem built from it. *)
Theorem C26_outer_problem : forall ck p t u q c x, real_problem p -> translate_udp ck p t = Ok u -> construct u = Ok q ->
  get_nx q = get_nx p /\ get_nf q = get_nf p /\ p_nobj q = p_nobj p /\ p_nec q = p_nec p /\ p_nic q = p_nic p /\ p_nix q = p_nix p /\
  (length x <> get_nx p -> fst (fitness q c x) = Throw InvalidArgument) /\
  (length x = get_nx p -> exists y, shifted dsub x t y /\ fst (fitness q c x) = fst (fitness p 0 y)).
Proof. exact translate_outer. Qed.
Print Assumptions C26_outer_problem.
Theorem C26_nan_rejected : forall ck p t u, real_problem p -> translate_udp ck p t = Ok u -> In NaN t -> construct u = Throw InvalidArgument.
Proof. exact translate_nan. Qed.
Print Assumptions C26_nan_rejected.

(** Batch evaluation is elementwise evaluation. *)
Theorem C26_batch : forall ck p t u f, real_problem p -> translate_udp ck p t = Ok u -> u_batch (p_udp p) = Some f -> batch_consistent p f ->
  exists g, u_batch u = Some g /\ forall xs fs, Forall (fun x => length x = get_nx p) xs -> Forall2 (fun x v => u_fitness u x = Ok v) xs fs -> g (concat xs) = Ok (concat fs).
Proof. exact translate_batches. Qed.
Print Assumptions C26_batch.

(** The box law, where the arithmetic is exact: all numbers are multiples of one power of
    two with quotients below 2^51. *)
Theorem C26_box : forall a lb ub lb' ub' t x y, (0 <= a <= 2040)%Z -> length lb = length ub ->
  Forall (on_grid a 51) lb -> Forall (on_grid a 51) ub -> Forall (on_grid a 51) t -> Forall (on_grid a 51) x ->
  shifted dadd lb t lb' -> shifted dadd ub t ub' -> shifted dsub x t y -> in_box lb' ub' x <-> in_box lb ub y.
Proof. exact translate_box. Qed.
Print Assumptions C26_box.
Theorem C26_zero_translation : forall x t y, Forall is_double x -> Forall (eq dzero) t -> shifted dsub x t y -> y = x.
Proof. exact translate_zero. Qed.
Print Assumptions C26_zero_translation.
(** With rounding the box law fails. *)
Theorem C26_box_rounding_refuted : exists lb ub t x lb' ub' y, Forall is_double lb /\ Forall is_double ub /\ Forall is_double t /\ Forall is_double x /\
  shifted dadd lb t lb' /\ shifted dadd ub t ub' /\ shifted dsub x t y /\ in_box lb' ub' x /\ ~ in_box lb ub y.
Proof. exact box_rounding. Qed.
Print Assumptions C26_box_rounding_refuted.
Example C26_nonvacuous : real_problem ex_con_p /\ (exists b, u_batch (p_udp ex_con_p) = Some b /\ batch_consistent ex_con_p b) /\
  exists u, translate_udp true ex_con_p [Fin 2] = Ok u /\ is_ok (construct u) = true /\ u_lb u = [Fin (-6)] /\ u_ub u = [Fin 10] /\
    u_fitness u [Fin 5] = Ok [Fin 3; Fin 3; Fin 3; Fin (-1)] /\ on_grid 0 51 (Fin 5) /\
    translate_udp true ex_con_p [] = Throw InvalidArgument.
Proof.
  split; [exact ex_con_real|]. split; [exact ex_con_batch|]. eexists. split; [reflexivity|]. split; [vm_compute; reflexivity|].
  split; [vm_compute; reflexivity|]. split; [vm_compute; reflexivity|]. split; [vm_compute; reflexivity|]. split; [exists 5%Z; split; [reflexivity|lia]|reflexivity].
Qed.

(** C27. Construction. *)
Theorem C27_constructor : forall p m w,
  (unconstrain_args p m w -> exists u, unconstrain_udp p m w = Ok u /\ u_lb u = p_lb p /\ u_ub u = p_ub p /\ u_nix u = p_nix p /\
     u_nobj u = (if umethod_eqb m IgnoreO then 1 else p_nobj p) /\ u_nec u = 0 /\ u_nic u = 0 /\ u_ts u = u_ts (p_udp p) /\
     u_gradient u = None /\ u_hessians u = None) /\
  (~ unconstrain_args p m w -> unconstrain_udp p m w = Throw InvalidArgument).
Proof. exact unconstrain_accepts. Qed.
Print Assumptions C27_constructor.
Theorem C27_size : forall p m w u x f, real_problem p -> finite_all (p_ctol p) -> unconstrain_udp p m w = Ok u -> fst (fitness p 0 x) = Ok f ->
  exists v, u_fitness u x = Ok v /\ length v = u_nobj u.
Proof. exact unconstrain_size. Qed.
Print Assumptions C27_size.
(** Feasible points keep their objectives; ignore_o gives zero. *)
Theorem C27_feasible : forall p m w u x f, real_problem p -> finite_all (p_ctol p) -> unconstrain_udp p m w = Ok u -> fst (fitness p 0 x) = Ok f -> Forall is_double f ->
  feasible_f p f -> u_fitness u x = Ok (if umethod_eqb m IgnoreO then [dzero] else firstn (p_nobj p) f).
Proof. exact unconstrain_feasible. Qed.
Print Assumptions C27_feasible.
Theorem C27_infeasible : forall p m w u x f, real_problem p -> finite_all (p_ctol p) -> unconstrain_udp p m w = Ok u -> fst (fitness p 0 x) = Ok f ->
  ~ feasible_f p f ->
  match m with
  | Death => u_fitness u x = Ok (repeat dbl_max (p_nobj p))
  | Kuri => exists n, n_satisfied p f n /\ n < get_nc p /\ u_fitness u x = Ok (repeat (kuri_penalty n (get_nc p)) (p_nobj p))
  | UWeighted => u_fitness u x = Ok (map (fun v => dadd v (weighted_violation p w f)) (firstn (p_nobj p) f))
  | IgnoreC => u_fitness u x = Ok (firstn (p_nobj p) f)
  | IgnoreO => u_fitness u x = Ok [total_violation p f]
  | UnknownMethod => False
  end.
Proof. exact unconstrain_infeasible. Qed.
Print Assumptions C27_infeasible.
(** The kuri penalty is positive, at most the largest double, and does not increase when
    more constraints are satisfied. *)
Theorem C27_kuri_range : forall n nc, n < nc -> (Z.of_nat nc < 2 ^ 53)%Z -> dlt dzero (kuri_penalty n nc) = true /\ dle (kuri_penalty n nc) dbl_max = true.
Proof. exact kuri_range. Qed.
Print Assumptions C27_kuri_range.
Theorem C27_kuri_antitone : forall n n' nc, n <= n' -> n' < nc -> (Z.of_nat nc < 2 ^ 53)%Z -> dle (kuri_penalty n' nc) (kuri_penalty n nc) = true.
Proof. exact kuri_antitone. Qed.
Print Assumptions C27_kuri_antitone.
(** With non-negative weights the weighted method never improves an objective. *)
Theorem C27_weighted_ge : forall p w u x f v, real_problem p -> finite_all (p_ctol p) -> unconstrain_udp p UWeighted w = Ok u -> fst (fitness p 0 x) = Ok f ->
  Forall is_double f -> finite_all f -> finite_all w -> (forall k, In k w -> dle dzero k = true) -> u_fitness u x = Ok v ->
  forall i a b, i < p_nobj p -> nth_error f i = Some a -> nth_error v i = Some b -> dle a b = true.
Proof. exact weighted_ge. Qed.
Print Assumptions C27_weighted_ge.
(** Batch evaluation is elementwise evaluation, but undefined for ignore_o with several objectives. *)
Theorem C27_batch : forall p m w u b, real_problem p -> finite_all (p_ctol p) -> unconstrain_udp p m w = Ok u -> u_batch (p_udp p) = Some b -> batch_consistent p b ->
  exists g, u_batch u = Some g /\ forall xs vs, Forall2 (fun x v => u_fitness u x = Ok v) xs vs ->
    (m <> IgnoreO \/ p_nobj p = 1 -> g (concat xs) = Ok (concat vs)) /\
    (m = IgnoreO -> 2 <= p_nobj p -> xs <> [] -> g (concat xs) = UB).
Proof. exact unconstrain_batches. Qed.
Print Assumptions C27_batch.
Theorem C27_ignore_o_batch_refuted : exists p u g x v, real_problem p /\ unconstrain_udp p IgnoreO [] = Ok u /\ u_fitness u x = Ok v /\ u_batch u = Some g /\
  (exists b, u_batch (p_udp p) = Some b /\ batch_consistent p b) /\ g x = UB.
Proof. exact batch_ub. Qed.
Print Assumptions C27_ignore_o_batch_refuted.
(** "zero only on feasible points" fails by underflow. *)
Theorem C27_ignore_o_zero_refuted : exists p u x f, real_problem p /\ unconstrain_udp p IgnoreO [] = Ok u /\ fst (fitness p 0 x) = Ok f /\ ~ feasible_f p f /\ u_fitness u x = Ok [dzero].
Proof. exact ignore_o_underflow. Qed.
Print Assumptions C27_ignore_o_zero_refuted.
Example C27_nonvacuous : real_problem ex_con_p /\ finite_all (p_ctol ex_con_p) /\ unconstrain_args ex_con_p Death [] /\ unconstrain_args ex_con_p UWeighted [done; done] /\
  fst (fitness ex_con_p 0 [dzero]) = Ok [dzero; Fin 3; dzero; Fin (-1)] /\ feasible_f ex_con_p [dzero; Fin 3; dzero; Fin (-1)] /\
  fst (fitness ex_con_p 0 [Fin 1]) = Ok [Fin 1; Fin 3; Fin 1; Fin (-1)] /\ ~ feasible_f ex_con_p [Fin 1; Fin 3; Fin 1; Fin (-1)] /\
  unconstrain_fitness ex_con_p UWeighted [done; done] [Fin 1] = Ok [Fin 2; Fin 4].
Proof.
  split; [exact ex_con_real|]. split; [exact ex_con_tol|]. split; [apply ex_con_args; auto|]. split; [split; [discriminate|]; split; [discriminate|reflexivity]|].
  split; [reflexivity|]. split; [exact ex_con_feasible|]. split; [reflexivity|]. split; [exact ex_con_infeasible|]. vm_compute. reflexivity.
Qed.

(** C28. Construction. *)
Theorem C28_constructor : forall p w z m,
  (decompose_args p w z m -> decompose_check p w z m = Ok tt) /\ (~ decompose_args p w z m -> decompose_check p w z m = Throw InvalidArgument).
Proof. exact decompose_accepts. Qed.
Print Assumptions C28_constructor.
(** The documentation asks for positive weights; zero is accepted. *)
Theorem C28_positive_weights_refuted : exists p w z m, real_problem p /\ decompose_check p w z m = Ok tt /\ In dzero w.
Proof. exact zero_weight. Qed.
Print Assumptions C28_positive_weights_refuted.
(** After any calls xs the reference point is the running minimum of the fitnesses computed. *)
Theorem C28_running_ideal : forall p w m z0 xs, real_problem p -> decompose_args p w z0 m ->
  exists seen, seen_by p xs seen /\ running_min z0 seen (snd (decompose_calls p w m true z0 xs)).
Proof. exact decompose_history. Qed.
Print Assumptions C28_running_ideal.
(** The next call returns the decomposition at the updated reference point; a failing one
    reports the inner error and leaves the reference point alone. *)
Theorem C28_next_call : forall p w m z0 xs x, real_problem p -> decompose_args p w z0 m ->
  let z := snd (decompose_calls p w m true z0 xs) in let (r, z') := decompose_fitness p w m true z x in
  (forall f, fst (fitness p 0 x) = Ok f -> r = decompose_objectives f w z' m /\ exists v, r = Ok [v]) /\
  ((forall f, fst (fitness p 0 x) <> Ok f) -> r = fst (fitness p 0 x) /\ z' = z).
Proof. exact decompose_next. Qed.
Print Assumptions C28_next_call.
Theorem C28_fixed_reference : forall p w m z0 xs, snd (decompose_calls p w m false z0 xs) = z0 /\
  forall x f, fst (fitness p 0 x) = Ok f -> decompose_fitness p w m false z0 x = (decompose_objectives f w z0 m, z0).
Proof. exact decompose_static. Qed.
Print Assumptions C28_fixed_reference.
Example C28_nonvacuous : real_problem ex_bi_p /\ decompose_args ex_bi_p [done; dzero] [dzero; dzero] Tchebycheff /\
  snd (decompose_calls ex_bi_p [done; dzero] Tchebycheff true [Fin 6; Fin 5] [[Fin 7]; [Fin (-1)]; [Fin 3]]) = [Fin 3; Fin 2] /\
  snd (decompose_calls ex_bi_p [done; dzero] Tchebycheff false [Fin 6; Fin 5] [[Fin 7]; [Fin (-1)]; [Fin 3]]) = [Fin 6; Fin 5].
Proof. split; [exact ex_bi_real|]. split; [exact zero_weight_args|]. split; vm_compute; reflexivity. Qed.
