From Coq Require Import List Bool Arith ZArith Lia Sorting.Sorted.
From Verif Require Import Dbl DblFacts Outcome BaseFacts Problem SpecProblem ProblemFacts ProblemFacts2 Bfe.
Import ListNotations.

(** ** Construction, as an equivalence *)
Lemma construct_iff u : ((exists p, construct u = Ok p) <-> good_udp u) /\ (~ good_udp u -> construct u = Throw InvalidArgument) /\
  (forall p, construct u = Ok p -> built u p).
Proof.
  destruct (construct_spec u) as [(p & E & G & B)|[E N]]; rewrite E.
  - split; [split; eauto|]. split; [tauto|]. intros q [= <-]. exact B.
  - split; [split; [intros (p & X); discriminate|tauto]|]. split; [reflexivity|discriminate].
Qed.

(** ** The cached sizes and the patterns returned later *)
Lemma construct_dims u p : construct u = Ok p ->
  p_gs_dim p = match u_gs u with Some s => Z.of_nat (length s) | None => (Z.of_nat (get_nx p) * Z.of_nat (get_nf p))%Z end /\
  match u_hs u with
  | Some l => p_hs_dim p = map (fun h => Z.of_nat (length h)) l
  | None => exists d, hess_dense_dim (Z.of_nat (get_nx p)) = Ok d /\ p_hs_dim p = repeat d (get_nf p)
  end.
Proof.
  intros C. destruct (construct_spec u) as [(p' & E & G & B)|[E N]]; [|congruence].
  rewrite C in E. inversion E; subst p'. clear E. destruct B as (_ & _ & _ & _ & _ & _ & _ & BX & BF & _). rewrite BX, BF.
  destruct G as (G0 & G1 & _). unfold construct in C. destruct (Nat.ltb (length (u_lb u)) (u_nix u)); [discriminate|].
  destruct (check_problem_bounds (u_lb u) (u_ub u) (u_nix u)) as [[]| | |]; try discriminate. cbn [bind] in C.
  destruct (Nat.eqb (u_nobj u) 0); [discriminate|]. destruct (u64max / 3 <? Z.of_nat (u_nobj u))%Z; [discriminate|].
  destruct (u64max / 3 <? Z.of_nat (u_nec u))%Z; [discriminate|]. destruct (u64max / 3 <? Z.of_nat (u_nic u))%Z; [discriminate|].
  cbv zeta in C. assert (NF : u_nobj u + u_nic u + u_nec u = u_nobj u + u_nec u + u_nic u) by lia. rewrite NF in C. clear NF.
  match type of C with bind ?x _ = _ => destruct x as [d| | |] eqn:E1; try discriminate end. cbn [bind] in C.
  match type of C with bind ?x _ = _ => destruct x as [d'| | |] eqn:E2; try discriminate end. cbn [bind] in C.
  inversion C; subst p; cbn. clear C. split.
  - destruct (u_gs u) as [s|].
    + destruct (check_gradient_sparsity _ _ s); try discriminate. cbn in E1. congruence.
    + destruct (grad_dense_spec (Z.of_nat (length (u_lb u))) (Z.of_nat (u_nobj u + u_nec u + u_nic u))) as [[E P]|[E P]]; try lia; congruence.
  - destruct (u_hs u) as [l|].
    + destruct (check_hessians_sparsity _ _ l); try discriminate. cbn in E2. congruence.
    + destruct (hess_dense_dim (Z.of_nat (length (u_lb u)))) as [q| | |] eqn:Q; try discriminate. cbn in E2. exists q. split; congruence.
Qed.

Lemma gradient_sparsity_spec u p : construct u = Ok p -> exists s, gradient_sparsity p = Ok s /\
  good_gradient_pattern (get_nf p) (get_nx p) s /\ p_gs_dim p = Z.of_nat (length s) /\
  match u_gs u with Some s' => s = s' | None => forall a, In a s <-> fst a < get_nf p /\ snd a < get_nx p end.
Proof.
  intros C. destruct (construct_dims u p C) as [D _]. destruct (construct_spec u) as [(p' & E & G & B)|[E N]]; [|congruence].
  rewrite C in E. inversion E; subst p'. clear E. destruct B as (BU & _ & _ & _ & _ & _ & _ & BX & BF & _).
  unfold gradient_sparsity. rewrite BU. destruct G as (_ & _ & _ & _ & _ & G & _). rewrite <- BX, <- BF in G. destruct (u_gs u) as [s|].
  - destruct (check_gradient_spec (get_nf p) (get_nx p) s) as [[E P]|[E P]]; [|contradiction].
    exists s. rewrite E. cbn [bind]. rewrite D, Z.eqb_refl. cbn. auto.
  - eexists. split; [reflexivity|]. split; [apply dense_gradient_good|]. split; [|intros a; apply in_dense_gradient].
    rewrite D, dense_gradient_length. lia.
Qed.
Lemma mfold_unit_ok {A} (f : A -> outcome unit) l : (forall a, In a l -> f a = Ok tt) -> mfold (fun _ a => f a) tt l = Ok tt.
Proof. induction l as [|a l IH]; intros H; [reflexivity|]. cbn. rewrite (H a (or_introl eq_refl)). cbn. apply IH. intros; apply H; right; assumption. Qed.
Lemma hessians_sparsity_spec u p : construct u = Ok p -> (u_hs u = None -> (Z.of_nat (get_nx p) <= 2 ^ 32)%Z) ->
  exists l, hessians_sparsity p = Ok l /\ length l = get_nf p /\ (forall s, In s l -> good_hessian_pattern (get_nx p) s) /\
    p_hs_dim p = map (fun s => Z.of_nat (length s)) l /\
    match u_hs u with Some l' => l = l' | None => forall s a, In s l -> In a s <-> fst a < get_nx p /\ snd a <= fst a end.
Proof.
  intros C W. destruct (construct_dims u p C) as [_ D]. destruct (construct_spec u) as [(p' & E & G & B)|[E N]]; [|congruence].
  rewrite C in E. inversion E; subst p'. clear E. destruct B as (BU & _ & _ & _ & _ & _ & _ & BX & BF & _).
  unfold hessians_sparsity. rewrite BU. destruct G as (G0 & _ & _ & _ & _ & _ & G). cbv zeta in G. rewrite <- BX, <- BF in G. destruct (u_hs u) as [l|].
  - destruct (check_hessians_spec (get_nf p) (get_nx p) l) as [[E P]|[E P]]; [|contradiction].
    exists l. rewrite E. cbn [bind]. rewrite mfold_unit_ok; cbn [bind].
    + split; [reflexivity|]. split; [apply P|]. split; [apply P|]. split; [exact D|reflexivity].
    + intros i Hi. apply in_seq in Hi. rewrite D, map_length in Hi. unfold vget, sparsity in *.
      destruct (nth_error l i) as [h|] eqn:Eh; [|apply nth_error_None in Eh; lia]. cbn [bind].
      rewrite D. rewrite (map_nth_error _ _ _ Eh). cbn [bind]. rewrite Z.eqb_refl. reflexivity.
  - assert (NX : 0 < get_nx p). { destruct G0 as (X & _). rewrite BX. destruct (u_lb u); [contradiction|cbn; lia]. }
    destruct D as (d & Ed & Dd). assert (ZX : (0 < Z.of_nat (get_nx p))%Z) by lia. pose proof (hess_dense_exact _ _ ZX Ed) as X. specialize (W eq_refl). apply X in W.
    pose proof (dense_hessian_length (get_nx p)) as L.
    unfold dense_hessians. eexists. split; [reflexivity|]. split; [apply repeat_length|].
    split; [intros s Hs; apply repeat_spec in Hs; subst; apply dense_hessian_good|]. split.
    + rewrite Dd. assert (d = Z.of_nat (length (dense_hessian (get_nx p)))) as -> by nia. clear.
      induction (get_nf p) as [|n IH]; [reflexivity|]. cbn [repeat map]. now rewrite IH.
    + intros s a Hs. apply repeat_spec in Hs. subst. apply in_dense_hessian.
Qed.

(** ** gradient and hessians *)
Lemma gradient_spec p c x r c' : gradient p c x = (r, c') ->
  (forall g, r = Ok g <-> length x = get_nx p /\ (exists ug, u_gradient (p_udp p) = Some ug /\ ug x = Ok g) /\ Z.of_nat (length g) = p_gs_dim p) /\
  (length x <> get_nx p -> r = Throw InvalidArgument) /\
  (length x = get_nx p -> u_gradient (p_udp p) = None -> r = Throw NotImplemented) /\
  c' = match r with Ok _ => wrap64 (c + 1) | _ => c end.
Proof.
  unfold gradient, prob_check_dv, throw_if. destruct (Nat.eqb_spec (length x) (get_nx p)) as [E|E]; cbn [negb bind].
  2: { intros [= <- <-]. repeat split; try discriminate; try congruence. intros (H & _). congruence. }
  destruct (u_gradient (p_udp p)) as [ug|] eqn:U; cbn [bind].
  2: { intros [= <- <-]. repeat split; try discriminate; try congruence. intros (_ & (ug & H & _) & _). congruence. }
  destruct (ug x) as [g|e| |] eqn:Eg; cbn [bind].
  2,3,4: intros [= <- <-]; repeat split; try discriminate; try congruence; intros (_ & (ug' & H & H') & _); congruence.
  destruct (Z.eqb_spec (Z.of_nat (length g)) (p_gs_dim p)) as [F|F]; cbn [negb bind]; intros [= <- <-]; repeat split; try discriminate; try congruence.
  - exists ug. split; congruence.
  - intros (_ & (ug' & H & H') & _). congruence.
  - intros (_ & (ug' & H & H') & K). congruence.
Qed.
Lemma check_hessians_vector_spec p hs : length (p_hs_dim p) = get_nf p ->
  (check_hessians_vector p hs = Ok tt /\ map (fun h => Z.of_nat (length h)) hs = p_hs_dim p) \/
  (check_hessians_vector p hs = Throw InvalidArgument /\ map (fun h => Z.of_nat (length h)) hs <> p_hs_dim p).
Proof.
  intros L. unfold check_hessians_vector. destruct (Nat.eqb_spec (length hs) (get_nf p)) as [E|E]; cbn [negb].
  2: { right. split; [reflexivity|]. intros X. apply E. rewrite <- L, <- X, map_length. reflexivity. }
  destruct (mfold_unit_spec (fun i => bind (vget hs i) (fun h => bind (vget (p_hs_dim p) i) (fun d => throw_if (negb (Z.of_nat (length h) =? d)%Z) InvalidArgument)))
    (fun i => nth_error (map (fun h => Z.of_nat (length h)) hs) i = nth_error (p_hs_dim p) i) (seq 0 (length hs))) as [[R P]|[R P]].
  - intros i Hi. apply in_seq in Hi. unfold vget. destruct (nth_error hs i) as [h|] eqn:Eh; [|apply nth_error_None in Eh; lia]. cbn [bind].
    destruct (nth_error (p_hs_dim p) i) as [d|] eqn:Ed; [|apply nth_error_None in Ed; lia]. cbn [bind]. rewrite (map_nth_error _ _ _ Eh).
    unfold throw_if. destruct (Z.eqb_spec (Z.of_nat (length h)) d) as [->|N]; cbn [negb]; [left; auto|right; split; [reflexivity|congruence]].
  - left. split; [exact R|]. apply list_ext_error. intros i. destruct (le_lt_dec (length hs) i) as [H|H].
    + rewrite (proj2 (nth_error_None _ _)) by (rewrite map_length; lia). symmetry. apply nth_error_None. lia.
    + apply P. apply in_seq. lia.
  - right. split; [exact R|]. intros X. apply P. intros i _. now rewrite X.
Qed.
Lemma hessians_spec p c x r c' : length (p_hs_dim p) = get_nf p -> hessians p c x = (r, c') ->
  (forall h, r = Ok h <-> length x = get_nx p /\ (exists uh, u_hessians (p_udp p) = Some uh /\ uh x = Ok h) /\ map (fun q => Z.of_nat (length q)) h = p_hs_dim p) /\
  (length x <> get_nx p -> r = Throw InvalidArgument) /\
  (length x = get_nx p -> u_hessians (p_udp p) = None -> r = Throw NotImplemented) /\
  c' = match r with Ok _ => wrap64 (c + 1) | _ => c end.
Proof.
  intros LD. unfold hessians, prob_check_dv, throw_if. destruct (Nat.eqb_spec (length x) (get_nx p)) as [E|E]; cbn [negb bind].
  2: { intros [= <- <-]. repeat split; try discriminate; try congruence. intros (H & _). congruence. }
  destruct (u_hessians (p_udp p)) as [ug|] eqn:U; cbn [bind].
  2: { intros [= <- <-]. repeat split; try discriminate; try congruence. intros (_ & (ug & H & _) & _). congruence. }
  destruct (ug x) as [g|e| |] eqn:Eg; cbn [bind].
  2,3,4: intros [= <- <-]; repeat split; try discriminate; try congruence; intros (_ & (ug' & H & H') & _); congruence.
  destruct (check_hessians_vector_spec p g LD) as [[F P]|[F P]]; rewrite F; cbn [bind]; intros [= <- <-]; repeat split; try discriminate; try congruence.
  - exists ug. split; congruence.
  - intros (_ & (ug' & H & H') & _). congruence.
  - intros (_ & (ug' & H & H') & K). congruence.
Qed.

(** ** Tolerances *)
Lemma set_c_tol_spec p t :
  (set_c_tol p t = Ok (set_ctol_field p t) /\ length t = get_nc p /\ (forall v, In v t -> dge v dzero = true)) \/
  (set_c_tol p t = Throw InvalidArgument /\ ~ (length t = get_nc p /\ (forall v, In v t -> dge v dzero = true))).
Proof.
  unfold set_c_tol. destruct (Nat.eqb_spec (length t) (get_nc p)) as [E|E]; cbn [negb]; [|right; split; [reflexivity|tauto]].
  destruct (mfold_unit_spec (fun t => if isnan t then Throw InvalidArgument else if dlt t dzero then Throw InvalidArgument else Ok tt) (fun v => dge v dzero = true) t) as [[R P]|[R P]].
  - intros v _. destruct v as [| |z|].
    + right; split; [reflexivity|discriminate].
    + right; split; [reflexivity|discriminate].
    + cbn [isnan]. change (dlt (Fin z) dzero) with (z <? 0)%Z. change (dge (Fin z) dzero) with ((0 <? z) || (0 =? z))%Z.
      rewrite orb_true_iff, Z.ltb_lt, Z.eqb_eq. destruct (Z.ltb_spec z 0) as [H|H]; [right|left]; (split; [reflexivity|lia]).
    + left; split; reflexivity.
  - rewrite R. left. auto.
  - rewrite R. right. split; [reflexivity|tauto].
Qed.

(** ** The dense Hessian size, at the level of problems *)
Definition big_udp (n : nat) : udp :=
  {| u_fitness := fun _ => Ok [dzero]; u_lb := repeat dzero n; u_ub := repeat dzero n; u_nobj := 1; u_nec := 0; u_nic := 0; u_nix := 0;
     u_batch := None; u_gradient := None; u_gs := None; u_hessians := None; u_hs := None; u_set_seed := false; u_ts := TSbasic |}.
Lemma big_udp_good n : 0 < n -> (Z.of_nat n < 2 ^ 64 - 1)%Z -> (Z.of_nat n / 2 * (Z.of_nat n + 1) < 2 ^ 64)%Z -> good_udp (big_udp n).
Proof.
  intros P H1 H2. unfold good_udp, big_udp, good_bounds. cbn [u_lb u_ub u_nobj u_nec u_nic u_gs u_hs u_nix]. rewrite repeat_length.
  split; [split|].
  - destruct n; [lia|discriminate].
  - split; [reflexivity|]. split.
    + intros i l u A B. apply nth_error_In, repeat_spec in A. apply nth_error_In, repeat_spec in B. subst. split; [discriminate|]. split; [discriminate|reflexivity].
    + split; [lia|]. intros i l u H A. assert (A2 : nth_error (repeat dzero n) i <> None) by congruence. apply nth_error_Some in A2. rewrite repeat_length in A2. lia.
  - split; [lia|]. split; [lia|]. split; [lia|]. split; [lia|]. split; [lia|]. split; assumption.
Qed.
Lemma hessian_size_refuted : exists u p d l, construct u = Ok p /\ u_hs u = None /\
  nth_error (p_hs_dim p) 0 = Some d /\ hessians_sparsity p = Ok l /\ forall s, nth_error l 0 = Some s -> d <> Z.of_nat (length s).
Proof.
  set (n := Z.to_nat (2 ^ 32 + 1)). assert (Zn : (Z.of_nat n = 2 ^ 32 + 1)%Z) by (unfold n; rewrite Z2Nat.id; lia).
  clearbody n. destruct (construct_spec (big_udp n)) as [(p & E & _ & B)|[_ N]].
  2: { exfalso. apply N. apply big_udp_good; [lia|lia|rewrite Zn; reflexivity]. }
  destruct (construct_dims _ _ E) as [_ D]. cbn [u_hs big_udp] in D. destruct D as (d & Ed & Dd).
  destruct B as (BU & _ & _ & _ & _ & _ & _ & BX & BF & _). cbn [big_udp u_lb u_nobj u_nec u_nic] in BX, BF. rewrite repeat_length in BX.
  exists (big_udp n), p, d, (dense_hessians (get_nf p) (get_nx p)).
  rewrite Dd. unfold hessians_sparsity. rewrite BU. cbn [big_udp u_hs]. rewrite BF, BX. split; [exact E|]. split; [reflexivity|]. split; [reflexivity|]. split; [reflexivity|].
  intros s. cbn. intros [= <-]. pose proof (dense_hessian_length n) as L. rewrite BX, Zn in Ed. pose proof hess_dense_wraps as [W1 W2].
  rewrite W1 in Ed. inversion Ed; subst d. nia.
Qed.

(** ** Forms used by the property file *)
Lemma counter_all_schedules p c0 s : (0 <= c0 < 2 ^ 64)%Z -> sys_reach p c0 s ->
  s_fevals s = ((c0 + total p (s_calls s)) mod 2 ^ 64)%Z /\
  (forall x r, In (FDone x r) (s_calls s) -> forall c, r = fst (fitness p c x)) /\
  (forall xs k r, In (BDone xs k r) (s_calls s) -> forall c, batch_fitness p c xs = (r, if k then wrap64 (c + Z.of_nat (length xs / get_nx p)) else c)).
Proof.
  intros H R. destruct (reach_inv p c0 s H R) as [I1 I2]. rewrite Forall_forall in I2. split; [exact I1|]. split.
  - intros x r Hin. exact (I2 _ Hin).
  - intros xs k r Hin. exact (I2 _ Hin).
Qed.
Lemma dense_patterns nf nx :
  good_gradient_pattern nf nx (dense_gradient nf nx) /\ (forall a, In a (dense_gradient nf nx) <-> fst a < nf /\ snd a < nx) /\
  NoDup (dense_gradient nf nx) /\ length (dense_gradient nf nx) = nf * nx /\
  good_hessian_pattern nx (dense_hessian nx) /\ (forall a, In a (dense_hessian nx) <-> fst a < nx /\ snd a <= fst a) /\
  NoDup (dense_hessian nx) /\ 2 * length (dense_hessian nx) = nx * (nx + 1).
Proof.
  split; [apply dense_gradient_good|]. split; [apply in_dense_gradient|]. split; [apply sorted_NoDup, dense_gradient_good|].
  split; [apply dense_gradient_length|]. split; [apply dense_hessian_good|]. split; [apply in_dense_hessian|].
  split; [apply sorted_NoDup, dense_hessian_good|apply dense_hessian_length].
Qed.
Lemma batch_count_refuted : exists u p c xs c', construct u = Ok p /\ batch_fitness p c xs = (Throw InvalidArgument, c') /\ c' <> c.
Proof.
  exists {| u_fitness := fun _ => UB; u_lb := [dzero; MInf]; u_ub := [dzero; PInf]; u_nobj := 1; u_nec := 1; u_nic := 0; u_nix := 0;
     u_batch := Some (fun xs => Ok [dzero]); u_gradient := None; u_gs := None; u_hessians := None; u_hs := None; u_set_seed := false; u_ts := TSbasic |}.
  eexists. exists 3%Z, [Fin 1; Fin 2], 4%Z. split; [reflexivity|]. split; [reflexivity|discriminate].
Qed.
