From Coq Require Import List Bool Arith ZArith Lia Sorting.Sorted Permutation.
From Verif Require Import Dbl DblFacts Outcome BaseFacts Compare CompareFacts SpecOrder Constrained Problem SpecProblem ProblemFacts Bfe.
Import ListNotations.

(** ** Construction *)
Lemma construct_spec u : (exists p, construct u = Ok p /\ good_udp u /\ built u p) \/ (construct u = Throw InvalidArgument /\ ~ good_udp u).
Proof.
  unfold construct, good_udp. cbv zeta.
  destruct (Nat.ltb_spec (length (u_lb u)) (u_nix u)) as [H0|H0].
  { right. split; [reflexivity|]. intros ((_ & _ & _ & G & _) & _). lia. }
  destruct (check_problem_bounds_spec (u_lb u) (u_ub u) (u_nix u)) as [[R B]|[R B]]; rewrite R; cbn [bind].
  2: { right. split; [reflexivity|]. tauto. }
  destruct (Nat.eqb_spec (u_nobj u) 0) as [H1|H1]; [right; split; [reflexivity|tauto]|].
  unfold u64max. change ((2 ^ 64 - 1) / 3)%Z with 6148914691236517205%Z.
  destruct (Z.ltb_spec 6148914691236517205 (Z.of_nat (u_nobj u))) as [H2|H2]; [right; split; [reflexivity|]; intros (_ & _ & G & _); lia|].
  destruct (Z.ltb_spec 6148914691236517205 (Z.of_nat (u_nec u))) as [H3|H3]; [right; split; [reflexivity|]; intros (_ & _ & _ & G & _); lia|].
  destruct (Z.ltb_spec 6148914691236517205 (Z.of_nat (u_nic u))) as [H4|H4]; [right; split; [reflexivity|]; intros (_ & _ & _ & _ & G & _); lia|].
  assert (NF : u_nobj u + u_nic u + u_nec u = u_nobj u + u_nec u + u_nic u) by lia. rewrite NF.
  assert (NX : length (u_lb u) <> 0) by (destruct B as (B & _); intros E; apply B, length_zero_iff_nil, E).
  set (GS := match u_gs u with Some s => good_gradient_pattern (u_nobj u + u_nec u + u_nic u) (length (u_lb u)) s
             | None => (Z.of_nat (length (u_lb u)) * Z.of_nat (u_nobj u + u_nec u + u_nic u) < 2 ^ 64)%Z end).
  set (HS := match u_hs u with
             | Some l => length l = u_nobj u + u_nec u + u_nic u /\ (forall s, In s l -> good_hessian_pattern (length (u_lb u)) s)
             | None => (Z.of_nat (length (u_lb u)) < 2 ^ 64 - 1)%Z /\ (Z.of_nat (length (u_lb u)) / 2 * (Z.of_nat (length (u_lb u)) + 1) < 2 ^ 64)%Z end).
  match goal with |- context [bind ?x (fun gs_dim => _)] => set (G := x) end.
  assert (K : (exists d, G = Ok d /\ GS) \/ (G = Throw InvalidArgument /\ ~ GS)).
  { subst G GS. destruct (u_gs u) as [s|].
    - destruct (check_gradient_spec (u_nobj u + u_nec u + u_nic u) (length (u_lb u)) s) as [[E P]|[E P]]; rewrite E; [left|right]; cbn [bind]; eauto.
    - destruct (grad_dense_spec (Z.of_nat (length (u_lb u))) (Z.of_nat (u_nobj u + u_nec u + u_nic u))) as [[E P]|[E P]]; try lia; eauto. }
  destruct K as [(d & E & KG)|[E KG]]; rewrite E; cbn [bind]; [|right; split; [reflexivity|tauto]].
  match goal with |- context [bind ?x (fun hs_dim => _)] => set (H := x) end.
  assert (K : (exists d, H = Ok d /\ HS) \/ (H = Throw InvalidArgument /\ ~ HS)).
  { subst H HS. destruct (u_hs u) as [l|].
    - destruct (check_hessians_spec (u_nobj u + u_nec u + u_nic u) (length (u_lb u)) l) as [[E' P]|[E' P]]; rewrite E'; [left|right]; cbn [bind]; eauto.
    - destruct (hess_dense_guard (Z.of_nat (length (u_lb u)))) as [(d' & E' & P)|[E' P]]; try lia; rewrite E'; [left|right]; cbn [bind]; eauto. }
  destruct K as [(d2 & E2 & KH)|[E2 KH]]; rewrite E2; cbn [bind]; [|right; split; [reflexivity|tauto]].
  left. eexists. split; [reflexivity|]. split.
  { split; [exact B|]. split; [exact H1|]. split; [lia|]. split; [lia|]. split; [lia|]. split; [exact KG|exact KH]. }
  unfold built, get_nx, get_nf. cbn. repeat split; lia.
Qed.

(** ** Fitness, batches *)
Lemma fitness_spec p c x r c' : fitness p c x = (r, c') ->
  (forall f, r = Ok f <-> length x = get_nx p /\ u_fitness (p_udp p) x = Ok f /\ length f = get_nf p) /\
  (length x <> get_nx p -> r = Throw InvalidArgument) /\
  (length x = get_nx p -> forall f, u_fitness (p_udp p) x = Ok f -> length f <> get_nf p -> r = Throw InvalidArgument) /\
  (length x = get_nx p -> forall e, u_fitness (p_udp p) x = Throw e -> r = Throw e) /\
  c' = match r with Ok _ => wrap64 (c + 1) | _ => c end.
Proof.
  unfold fitness, prob_check_dv, prob_check_fv, throw_if. intros H.
  destruct (Nat.eqb_spec (length x) (get_nx p)) as [L|L]; cbn [negb bind] in H.
  - destruct (u_fitness (p_udp p) x) as [f|e| |] eqn:U; cbn [bind] in H.
    + destruct (Nat.eqb_spec (length f) (get_nf p)) as [M|M]; cbn [negb bind] in H; inversion H; subst; (split; [|split; [|split; [|split]]]); try reflexivity; try congruence.
      * intros f0. split; [intros E; inversion E; subst; auto|intros (_ & E & _); exact E].
      * intros f0. split; [discriminate|]. intros (_ & E & M'). inversion E; subst. contradiction.
    + inversion H; subst. (split; [|split; [|split; [|split]]]); try reflexivity; try congruence. intros f; split; [discriminate|]. intros (_ & E & _). discriminate.
    + inversion H; subst. (split; [|split; [|split; [|split]]]); try reflexivity; try congruence. intros f; split; [discriminate|]. intros (_ & E & _). discriminate.
    + inversion H; subst. (split; [|split; [|split; [|split]]]); try reflexivity; try congruence. intros f; split; [discriminate|]. intros (_ & E & _). discriminate.
  - inversion H; subst. (split; [|split; [|split; [|split]]]); try reflexivity; try congruence. intros f; split; [discriminate|]. intros (E & _). contradiction.
Qed.

Lemma mfold_const (o : outcome unit) n : o = Ok tt -> forall s, mfold (fun _ (_ : nat) => o) tt (seq s n) = Ok tt.
Proof. intros ->. induction n as [|n IH]; intros s; cbn; auto. Qed.
Lemma input_check_spec p xs : 0 < get_nx p ->
  (bfe_check_input_dvs p xs = Ok tt /\ is_batch (get_nx p) (length xs / get_nx p) xs) \/
  (bfe_check_input_dvs p xs = Throw InvalidArgument /\ forall n, ~ is_batch (get_nx p) n xs).
Proof.
  intros P. unfold bfe_check_input_dvs, is_batch. pose proof (Nat.div_mod (length xs) (get_nx p) ltac:(lia)) as D.
  destruct (Nat.eqb_spec (length xs mod get_nx p) 0) as [E|E]; cbn [negb].
  - left. split; [|lia]. apply mfold_const. unfold prob_check_dv. now rewrite Nat.eqb_refl.
  - right. split; [reflexivity|]. intros n H. apply E. rewrite H. apply Nat.mod_mul. lia.
Qed.
Lemma output_check_spec p xs fs : 0 < get_nf p ->
  (bfe_check_output_fvs p xs fs = Ok tt /\ is_batch (get_nf p) (length xs / get_nx p) fs) \/
  (bfe_check_output_fvs p xs fs = Throw InvalidArgument /\ ~ is_batch (get_nf p) (length xs / get_nx p) fs).
Proof.
  intros P. unfold bfe_check_output_fvs, is_batch. cbv zeta. pose proof (Nat.div_mod (length fs) (get_nf p) ltac:(lia)) as D.
  destruct (Nat.eqb_spec (length fs mod get_nf p) 0) as [E|E]; cbn [negb].
  - destruct (Nat.eqb_spec (length fs / get_nf p) (length xs / get_nx p)) as [F|F]; cbn [negb].
    + left. split; [|rewrite <- F; lia]. apply mfold_const. unfold prob_check_fv. now rewrite Nat.eqb_refl.
    + right. split; [reflexivity|]. intros H. apply F. rewrite H. apply Nat.div_mul. lia.
  - right. split; [reflexivity|]. intros H. apply E. rewrite H. apply Nat.mod_mul. lia.
Qed.

Ltac fin B := try solve [ auto | congruence
 | intros fs; split; [discriminate|]; intros (n & ? & ? & ?); (discriminate || congruence)
 | intros fs; split; [discriminate|]; intros (n & E & _); exfalso; eapply B; exact E
 | let E := fresh in intros E; exfalso; eapply E; exact B
 | intros n ? E; exfalso; eapply B; exact E | intros n E; exfalso; eapply B; exact E
 | intros n e' _ E; inversion E; auto ].

(** bfe::operator(): on success the counter grows by the number of vectors. *)
Lemma bfe_call_spec ud p c xs r c' : 0 < get_nx p -> 0 < get_nf p -> bfe_call ud p c xs = (r, c') ->
  (forall fs, r = Ok fs <-> exists n, is_batch (get_nx p) n xs /\ ud p xs = Ok fs /\ is_batch (get_nf p) n fs) /\
  (forall n, is_batch (get_nx p) n xs -> c' = match r with Ok _ => wrap64 (c + Z.of_nat n) | _ => c end) /\
  ((forall n, ~ is_batch (get_nx p) n xs) -> r = Throw InvalidArgument /\ c' = c) /\
  (forall n fs, is_batch (get_nx p) n xs -> ud p xs = Ok fs -> ~ is_batch (get_nf p) n fs -> r = Throw InvalidArgument /\ c' = c) /\
  (forall n e, is_batch (get_nx p) n xs -> ud p xs = Throw e -> r = Throw e /\ c' = c).
Proof.
  intros Px Pf. unfold bfe_call. intros H.
  assert (N : forall n, is_batch (get_nx p) n xs -> n = length xs / get_nx p) by (intros n B; rewrite B, Nat.div_mul; lia).
  destruct (input_check_spec p xs Px) as [[R B]|[R B]]; rewrite R in H; cbn [bind] in H.
  - destruct (ud p xs) as [fs|e| |] eqn:U; cbn [bind] in H.
    + destruct (output_check_spec p xs fs Pf) as [[R' B']|[R' B']]; rewrite R' in H; cbn [bind] in H; inversion H; subst.
      * (split; [|split; [|split; [|split]]]).
        -- intros fs'. split; [intros E; inversion E; subst; eauto|]. intros (n & _ & E & _). congruence.
        -- intros n E. now rewrite (N n E).
        -- intros E. exfalso. eapply E; exact B.
        -- intros n fs' E E' NB. inversion E'; subst. rewrite (N n E) in NB. contradiction.
        -- congruence.
      * (split; [|split; [|split; [|split]]]); auto; try congruence.
        intros fs'. split; [discriminate|]. intros (n & E & E' & E''). inversion E'; subst. rewrite (N n E) in E''. contradiction.
    + inversion H; subst. (split; [|split; [|split; [|split]]]); fin B.
    + inversion H; subst. (split; [|split; [|split; [|split]]]); fin B.
    + inversion H; subst. (split; [|split; [|split; [|split]]]); fin B.
  - inversion H; subst. (split; [|split; [|split; [|split]]]); fin B.
Qed.

(** problem::batch_fitness: same result, but the counter is incremented before the
    output is checked. *)
Lemma batch_fitness_spec p c xs r c' : 0 < get_nx p -> 0 < get_nf p -> batch_fitness p c xs = (r, c') ->
  (forall fs, r = Ok fs <-> exists n, is_batch (get_nx p) n xs /\ udp_batch p xs = Ok fs /\ is_batch (get_nf p) n fs) /\
  ((forall n, ~ is_batch (get_nx p) n xs) -> r = Throw InvalidArgument /\ c' = c) /\
  (forall n, is_batch (get_nx p) n xs -> c' = match udp_batch p xs with Ok _ => wrap64 (c + Z.of_nat n) | _ => c end) /\
  (forall n fs, is_batch (get_nx p) n xs -> udp_batch p xs = Ok fs -> ~ is_batch (get_nf p) n fs -> r = Throw InvalidArgument).
Proof.
  intros Px Pf. unfold batch_fitness, prob_invoke_mem_batch_fitness. intros H.
  assert (N : forall n, is_batch (get_nx p) n xs -> n = length xs / get_nx p) by (intros n B; rewrite B, Nat.div_mul; lia).
  destruct (input_check_spec p xs Px) as [[R B]|[R B]]; rewrite R in H; cbn [bind] in H.
  - destruct (udp_batch p xs) as [fs|e| |] eqn:U; cbn [bind] in H.
    + inversion H; subst. destruct (output_check_spec p xs fs Pf) as [[R' B']|[R' B']]; rewrite R'; cbn [bind].
      * split; [|split; [|split]].
        -- intros fs'. split; [intros E; inversion E; subst; eauto|]. intros (n & _ & E & _). congruence.
        -- intros E. exfalso. eapply E; exact B.
        -- intros n E. now rewrite (N n E).
        -- intros n fs' E E' NB. inversion E'; subst. rewrite (N n E) in NB. contradiction.
      * split; [|split; [|split]].
        -- intros fs'. split; [discriminate|]. intros (n & E & E' & E''). inversion E'; subst. rewrite (N n E) in E''. contradiction.
        -- intros E. exfalso. eapply E; exact B.
        -- intros n E. now rewrite (N n E).
        -- auto.
    + inversion H; subst. split; [|split; [|split]]; fin B.
    + inversion H; subst. split; [|split; [|split]]; fin B.
    + inversion H; subst. split; [|split; [|split]]; fin B.
  - inversion H; subst. split; [|split; [|split]]; fin B.
Qed.

(** ** Interleavings *)
(** What a call has added to the counter. *)
Lemma total_app p l1 l2 : total p (l1 ++ l2) = (total p l1 + total p l2)%Z.
Proof. unfold total. induction l1 as [|s l IH]; cbn [app fold_right]; [lia|]. rewrite IH. ring. Qed.
Lemma total_cons p s l : total p (s :: l) = (contribution p s + total p l)%Z.
Proof. reflexivity. Qed.

Definition sound (p : problem) (s : callst) : Prop :=
  match s with
  | FUser x r => length x = get_nx p /\ r = u_fitness (p_udp p) x
  | FCheck x f => length x = get_nx p /\ Ok f = u_fitness (p_udp p) x /\ length f = get_nf p
  | FDone x r => forall c, r = fst (fitness p c x)
  | BUser xs r => bfe_check_input_dvs p xs = Ok tt /\ r = udp_batch p xs
  | BCount xs fs => bfe_check_input_dvs p xs = Ok tt /\ Ok fs = udp_batch p xs
  | BDone xs k r => forall c, batch_fitness p c xs = (r, if k then wrap64 (c + Z.of_nat (length xs / get_nx p)) else c)
  | _ => True
  end.
Lemma step_sound p s s' k : sound p s -> call_step p s = Some (s', k) -> sound p s' /\ (contribution p s' = contribution p s + k)%Z.
Proof.
  intros W H. destruct s as [x|x r|x f|x r|xs|xs r|xs fs|xs cn r]; cbn [call_step] in H; try discriminate.
  - unfold prob_check_dv, throw_if in H. destruct (Nat.eqb_spec (length x) (get_nx p)) as [E|E]; cbn [negb] in H; inversion H; subst; split; try reflexivity.
    + cbn. auto.
    + cbn. intros c. unfold fitness, prob_check_dv, throw_if. destruct (Nat.eqb_spec (length x) (get_nx p)); [contradiction|reflexivity].
  - destruct W as [L ->]. destruct (u_fitness (p_udp p) x) as [f|e| |] eqn:U; try (inversion H; subst; split; [|reflexivity]; cbn; intros c; unfold fitness, prob_check_dv, throw_if; rewrite L, Nat.eqb_refl, U; reflexivity).
    unfold prob_check_fv, throw_if in H. destruct (Nat.eqb_spec (length f) (get_nf p)) as [E|E]; cbn [negb] in H; inversion H; subst; split; try reflexivity.
    + cbn. auto.
    + cbn. intros c. unfold fitness, prob_check_dv, prob_check_fv, throw_if. rewrite L, Nat.eqb_refl, U. cbn [negb bind].
      destruct (Nat.eqb_spec (length f) (get_nf p)); [contradiction|reflexivity].
  - inversion H; subst. destruct W as (L & U & M). split; [|reflexivity]. cbn. intros c. unfold fitness, prob_check_dv, prob_check_fv, throw_if.
    rewrite L, Nat.eqb_refl, <- U. cbn [negb bind]. rewrite M, Nat.eqb_refl. reflexivity.
  - destruct (bfe_check_input_dvs p xs) as [[]|e| |] eqn:E; inversion H; subst; (split; [|reflexivity]).
    + cbn. auto.
    + cbn. intros c. unfold batch_fitness. rewrite E. reflexivity.
  - destruct W as [E ->]. destruct (udp_batch p xs) as [fs|e| |] eqn:U; inversion H; subst; (split; [|cbn; lia]).
    + cbn. auto.
    + cbn. intros c. unfold batch_fitness, prob_invoke_mem_batch_fitness. rewrite E, U. reflexivity.
    + cbn. intros c. unfold batch_fitness, prob_invoke_mem_batch_fitness. rewrite E, U. reflexivity.
    + cbn. intros c. unfold batch_fitness, prob_invoke_mem_batch_fitness. rewrite E, U. reflexivity.
  - inversion H; subst. destruct W as [E U]. split; [|cbn; lia]. cbn. intros c. unfold batch_fitness, prob_invoke_mem_batch_fitness. rewrite E, <- U. reflexivity.
Qed.

Lemma reach_inv p c0 s : (0 <= c0 < 2 ^ 64)%Z -> sys_reach p c0 s ->
  s_fevals s = wrap64 (c0 + total p (s_calls s)) /\ Forall (sound p) (s_calls s).
Proof.
  intros C. induction 1 as [|s s' H [I1 I2] S].
  - split; [|constructor]. cbn. unfold wrap64. rewrite Z.add_0_r, Z.mod_small; lia.
  - inversion S; subst; cbn [s_fevals s_calls] in *.
    + split; [|apply Forall_app; split; [exact I2|repeat constructor]]. rewrite total_app. cbn. rewrite !Z.add_0_r. exact I1.
    + split; [|apply Forall_app; split; [exact I2|repeat constructor]]. rewrite total_app. cbn. rewrite !Z.add_0_r. exact I1.
    + apply Forall_app in I2. destruct I2 as [F1 F2]. inversion F2; subst.
      destruct (step_sound p s0 s'0 k H3 H0) as [W T]. split.
      * rewrite !total_app, !total_cons in *. rewrite T. unfold wrap64. rewrite Zplus_mod_idemp_l. f_equal. ring.
      * apply Forall_app. split; [exact F1|constructor; assumption].
Qed.
