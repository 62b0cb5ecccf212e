(** Facts on meta-problems. *)
From Coq Require Import List Bool Arith ZArith Lia.
From Verif Require Import Dbl DblFacts IntDbl Outcome BaseFacts Constrained SpecConstrained ConstrainedFacts ConstrainedFacts2 MultiObj DecomposeFacts Problem Bfe BfeFacts SpecProblem ProblemFacts ProblemFacts2 ProblemFacts3 SpecGeneric GenericFacts PoliciesFacts HvFacts5 HvFacts6 MetaProblems SpecMeta.
Import ListNotations.

Lemma transform2_ok op : forall x t, length t = length x -> exists y, transform2 op x t = Ok y /\ shifted op x t y.
Proof.
  induction x as [|a x IH]; intros [|b t] L; try discriminate.
  - exists []. split; [reflexivity|]. split; [reflexivity|]. split; [reflexivity|]. intros [|i] ? ? H; discriminate.
  - injection L as L. destruct (IH t L) as (y & E & S1 & S2 & S3). exists (op a b :: y). cbn [transform2]. rewrite E. split; [reflexivity|].
    split; [cbn; lia|]. split; [cbn; lia|]. intros [|i] u v H1 H2; cbn in *; [congruence|eauto].
Qed.
Lemma shifted_unique op x t y y' : shifted op x t y -> shifted op x t y' -> y = y'.
Proof.
  intros (A1 & A2 & A3) (B1 & B2 & B3). apply nth_error_ext. intros i.
  destruct (nth_error x i) as [a|] eqn:Ea.
  - assert (i < length x) by (apply nth_error_Some; congruence). destruct (nth_error t i) as [b|] eqn:Eb; [|apply nth_error_None in Eb; lia].
    rewrite (A3 i a b), (B3 i a b); auto.
  - apply nth_error_None in Ea. rewrite !(proj2 (nth_error_None _ _)) by lia. reflexivity.
Qed.

Lemma real_bounds p : real_problem p -> length (p_lb p) = get_nx p /\ length (p_ub p) = get_nx p /\ 0 < get_nx p /\ 0 < p_nobj p /\ length (p_ctol p) = get_nc p /\
  get_nf p = p_nobj p + p_nec p + p_nic p.
Proof.
  intros (u & p0 & C & H). destruct (construct_spec u) as [(p' & E & G & B)|[E _]]; [|congruence]. rewrite C in E. injection E as <-.
  destruct B as (B0 & B1 & B2 & B3 & B4 & B5 & B6 & B7 & B8 & B9 & B10). destruct G as ((G1 & G2 & _) & G3 & _).
  assert (N : 0 < length (u_lb u)) by (destruct (u_lb u); [congruence|cbn; lia]).
  destruct H as [->|(t & H)].
  - unfold get_nc, get_nf, get_nx. rewrite B1, B2, B3, B4, B5, B10, repeat_length. repeat split; try lia.
  - destruct (set_c_tol_spec p0 t) as [K|K]; [|destruct K as [K _]; congruence].
    unfold set_c_tol in H. destruct (Nat.eqb_spec (length t) (get_nc p0)) as [L|L]; [|discriminate]. cbn [negb] in H.
    destruct (mfold _ tt t) as [[]| | |]; try discriminate. cbn [bind] in H. injection H as <-.
    unfold get_nc, get_nf, get_nx, set_ctol_field in *. cbn [p_lb p_ub p_nobj p_nec p_nic p_ctol]. rewrite B1, B2, B3, B4, B5 in *. repeat split; try lia.
Qed.

Lemma fitness_fst p c c' x : fst (fitness p c x) = fst (fitness p c' x).
Proof. unfold fitness. destruct (bind _ _); reflexivity. Qed.
Lemma gradient_fst p c c' x : fst (gradient p c x) = fst (gradient p c' x).
Proof. unfold gradient. destruct (bind _ _); reflexivity. Qed.
Lemma hessians_fst p c c' x : fst (hessians p c x) = fst (hessians p c' x).
Proof. unfold hessians. destruct (bind _ _); reflexivity. Qed.

(** ** translate *)
Lemma translate_construct ck p t : real_problem p ->
  (length t <> get_nx p -> translate_udp ck p t = Throw InvalidArgument) /\
  (length t = get_nx p -> exists u, translate_udp ck p t = Ok u /\ shifted dadd (p_lb p) t (u_lb u) /\ shifted dadd (p_ub p) t (u_ub u) /\
     u_nobj u = p_nobj p /\ u_nec u = p_nec p /\ u_nic u = p_nic p /\ u_nix u = p_nix p /\
     u_gs u = u_gs (p_udp p) /\ u_hs u = u_hs (p_udp p) /\ u_ts u = u_ts (p_udp p) /\ u_set_seed u = u_set_seed (p_udp p)).
Proof.
  intros R. destruct (real_bounds p R) as (L1 & L2 & _). unfold translate_udp. destruct (Nat.eqb_spec (length t) (get_nx p)) as [E|E]; cbn [negb].
  - split; [contradiction|intros _]. destruct (transform2_ok dadd (p_lb p) t) as (lb & E1 & S1); [lia|]. destruct (transform2_ok dadd (p_ub p) t) as (ub & E2 & S2); [lia|].
    unfold apply_translation. rewrite E1. cbn [bind]. rewrite E2. cbn [bind]. eexists. split; [reflexivity|]. cbn. repeat (split; [assumption || reflexivity|]). reflexivity.
  - split; [reflexivity|contradiction].
Qed.
Lemma translate_udp_inv ck p t u : translate_udp ck p t = Ok u -> length t = get_nx p /\ u_fitness u = translate_fitness p t /\
  u_batch u = match u_batch (p_udp p) with Some _ => Some (translate_batch ck p t) | None => None end /\
  u_gradient u = match u_gradient (p_udp p) with Some _ => Some (translate_gradient p t) | None => None end /\
  u_hessians u = match u_hessians (p_udp p) with Some _ => Some (translate_hessians p t) | None => None end.
Proof.
  unfold translate_udp. destruct (Nat.eqb_spec (length t) (get_nx p)) as [E|E]; cbn [negb]; [|discriminate].
  destruct (apply_translation t (p_lb p)); try discriminate. cbn [bind]. destruct (apply_translation t (p_ub p)); try discriminate. cbn [bind]. intros H. injection H as <-. repeat split; auto.
Qed.
Lemma translate_evaluate ck p t u x : translate_udp ck p t = Ok u -> length x = get_nx p ->
  exists y, shifted dsub x t y /\ forall c, u_fitness u x = fst (fitness p c y) /\
    (forall g, u_gradient u = Some g -> g x = fst (gradient p c y)) /\ (forall h, u_hessians u = Some h -> h x = fst (hessians p c y)).
Proof.
  intros T L. destruct (translate_udp_inv _ _ _ _ T) as (Lt & E1 & _ & E2 & E3). destruct (transform2_ok dsub x t) as (y & E & S); [lia|]. exists y. split; [exact S|]. intros c.
  split; [|split].
  - rewrite E1. unfold translate_fitness, translate_back. rewrite E. apply fitness_fst.
  - intros g H. rewrite E2 in H. destruct (u_gradient (p_udp p)); [|discriminate]. injection H as <-. unfold translate_gradient, translate_back. rewrite E. apply gradient_fst.
  - intros g H. rewrite E3 in H. destruct (u_hessians (p_udp p)); [|discriminate]. injection H as <-. unfold translate_hessians, translate_back. rewrite E. apply hessians_fst.
Qed.
(** Slices of a concatenation *)
Lemma concat_length {A} (xs : list (list A)) n : Forall (fun x => length x = n) xs -> length (concat xs) = length xs * n.
Proof. induction xs as [|x xs IH]; intros H; [reflexivity|]. inversion H; subst. cbn. rewrite app_length, IH by assumption. lia. Qed.
Lemma slice_concat {A} (xs : list (list A)) n : Forall (fun x => length x = n) xs -> forall i x, nth_error xs i = Some x -> slice (concat xs) (i * n) n = x.
Proof.
  induction xs as [|y xs IH]; intros H [|i] x E; try discriminate; inversion H as [|? ? Hy Hxs]; subst; cbn [nth_error] in E.
  - injection E as ->. unfold slice. cbn [Nat.mul skipn concat]. rewrite firstn_app, Nat.sub_diag, firstn_all, firstn_O. apply app_nil_r.
  - rewrite <- (IH Hxs i x E). unfold slice. cbn [concat Nat.mul]. rewrite skipn_app, skipn_all2 by lia. cbn [app]. f_equal. f_equal. lia.
Qed.
Lemma mmap_slices {A} (f : list dbl -> outcome A) xs n : 0 < n -> Forall (fun x => length x = n) xs ->
  mmap (fun i => f (slice (concat xs) (i * n) n)) (seq 0 (length (concat xs) / n)) = mmap f xs.
Proof.
  intros P H. rewrite (concat_length xs n H), Nat.div_mul by lia.
  assert (G : forall k l, (forall j x, nth_error l j = Some x -> slice (concat xs) ((k + j) * n) n = x) -> mmap (fun i => f (slice (concat xs) (i * n) n)) (seq k (length l)) = mmap f l).
  { intros k l. revert k. induction l as [|x l IH]; intros k HL; [reflexivity|]. cbn [length seq mmap]. pose proof (HL 0 x eq_refl) as H0. rewrite Nat.add_0_r in H0. rewrite H0. destruct (f x); try reflexivity. cbn [bind].
    rewrite IH; [reflexivity|]. intros j y E. rewrite <- (HL (S j) y E). f_equal. f_equal. lia. }
  apply G. intros j x E. cbn [Nat.add]. eapply slice_concat; eauto.
Qed.
Lemma mmap_Forall2 {A B} (f : A -> outcome B) xs ys : Forall2 (fun x y => f x = Ok y) xs ys -> mmap f xs = Ok ys.
Proof. induction 1 as [|x y xs ys E _ IH]; [reflexivity|]. cbn [mmap]. rewrite E. cbn [bind]. rewrite IH. reflexivity. Qed.
Lemma mmap_Forall2_inv {A B} (f : A -> outcome B) xs : forall ys, mmap f xs = Ok ys -> Forall2 (fun x y => f x = Ok y) xs ys.
Proof.
  induction xs as [|x xs IH]; intros ys H; cbn [mmap] in H; [injection H as <-; constructor|].
  apply bind_ok in H. destruct H as (y & E & H). apply bind_ok in H. destruct H as (ys' & E' & H). injection H as <-. constructor; auto.
Qed.
Lemma translate_batches ck p t u f : real_problem p -> translate_udp ck p t = Ok u -> u_batch (p_udp p) = Some f -> batch_consistent p f ->
  exists g, u_batch u = Some g /\ forall xs fs, Forall (fun x => length x = get_nx p) xs -> Forall2 (fun x v => u_fitness u x = Ok v) xs fs -> g (concat xs) = Ok (concat fs).
Proof.
  intros R T B C. destruct (translate_udp_inv _ _ _ _ T) as (Lt & E1 & E2 & _). rewrite B in E2. eexists. split; [exact E2|]. intros xs fs F F2.
  destruct (real_bounds p R) as (_ & _ & P & PO & _ & NF).
  unfold translate_batch. rewrite (mmap_slices (translate_back t) xs (get_nx p) P F).
  assert (Y : exists ys, mmap (translate_back t) xs = Ok ys /\ Forall (fun y => length y = get_nx p) ys /\ Forall2 (fun y v => fst (fitness p 0 y) = Ok v) ys fs).
  { clear E1 E2. revert fs F2. induction F as [|x xs Lx F IH]; intros fs F2; inversion F2 as [|? v ? fs' E F2']; subst.
    - exists []. repeat constructor.
    - destruct (IH fs' F2') as (ys & Ey & Fy & Fv). destruct (transform2_ok dsub x t) as (y & Et & (_ & S & _)); [lia|].
      exists (y :: ys). cbn [mmap]. unfold translate_back at 1. rewrite Et. cbn [bind]. rewrite Ey. split; [reflexivity|]. split; [constructor; [congruence|exact Fy]|]. constructor; [|exact Fv].
      destruct (translate_udp_inv _ _ _ _ T) as (_ & E1 & _). rewrite E1 in E. unfold translate_fitness, translate_back in E. rewrite Et in E. exact E. }
  destruct Y as (ys & EY & FY & FV). rewrite EY. cbn [bind].
  assert (U : Forall2 (fun y v => u_fitness (p_udp p) y = Ok v) ys fs /\ Forall (fun v => length v = get_nf p) fs).
  { clear EY F F2. induction FV as [|y v ys fs E FV IH]; [split; constructor|]. inversion FY; subst. destruct IH as [I1 I2]; [assumption|].
    destruct (fitness p 0 y) as [rr c'] eqn:EF. destruct (fitness_spec p 0 y rr c' EF) as (K & _). cbn [fst] in E. subst rr. destruct (proj1 (K v) eq_refl) as (_ & K1 & K2). split; constructor; auto. }
  destruct U as [U1 U2]. pose proof (C ys fs FY U1) as EF.
  assert (LB : length ys = length fs) by (clear - U1; induction U1; cbn; auto).
  destruct ck.
  - destruct (batch_fitness p 0 (concat ys)) as [rr c'] eqn:EB. destruct (batch_fitness_spec p 0 (concat ys) rr c' P ltac:(lia) EB) as (K & _). cbn [fst].
    apply K. exists (length ys). unfold is_batch. rewrite (concat_length ys _ FY), (concat_length fs _ U2), LB. split; [reflexivity|]. split; [|reflexivity]. unfold udp_batch. rewrite B. exact EF.
  - unfold prob_invoke_mem_batch_fitness, udp_batch. rewrite B, EF. reflexivity.
Qed.

(** The box *)
Lemma grid_add a k j : (0 <= a <= 2040)%Z -> (Z.abs (k + j) < 2 ^ 53)%Z -> dadd (gridpt a k) (gridpt a j) = gridpt a (k + j).
Proof. intros Ha H. unfold gridpt, dadd. rewrite <- Z.mul_add_distr_r. apply rnd_exact. now apply (grid_double a). Qed.
Lemma grid_sub a k j : (0 <= a <= 2040)%Z -> (Z.abs (k - j) < 2 ^ 53)%Z -> dsub (gridpt a k) (gridpt a j) = gridpt a (k - j).
Proof. intros Ha H. unfold gridpt, dsub, dneg, dadd. replace (k * 2 ^ a + - (j * 2 ^ a))%Z with ((k - j) * 2 ^ a)%Z by ring. apply rnd_exact. now apply (grid_double a). Qed.
Lemma grid_dle a k j : (0 <= a)%Z -> dle (gridpt a k) (gridpt a j) = true <-> (k <= j)%Z.
Proof. intros Ha. unfold gridpt. rewrite dle_fin. assert (0 < 2 ^ a)%Z by (apply Z.pow_pos_nonneg; lia). split; intros; nia. Qed.
Lemma grid_within a l u t x : (0 <= a <= 2040)%Z -> on_grid a 51 l -> on_grid a 51 u -> on_grid a 51 t -> on_grid a 51 x ->
  SpecGeneric.within (dadd l t) (dadd u t) x <-> SpecGeneric.within l u (dsub x t).
Proof.
  intros Ha (kl & -> & Hl) (ku & -> & Hu) (kt & -> & Ht) (kx & -> & Hx). unfold SpecGeneric.within.
  assert (2 ^ 53 = 4 * 2 ^ 51)%Z by reflexivity. rewrite !grid_add, !grid_sub, !grid_dle by lia. lia.
Qed.
Lemma translate_box a lb ub lb' ub' t x y : (0 <= a <= 2040)%Z -> length lb = length ub ->
  Forall (on_grid a 51) lb -> Forall (on_grid a 51) ub -> Forall (on_grid a 51) t -> Forall (on_grid a 51) x ->
  shifted dadd lb t lb' -> shifted dadd ub t ub' -> shifted dsub x t y -> in_box lb' ub' x <-> in_box lb ub y.
Proof.
  intros Ha L G1 G2 G3 G4 (A1 & A2 & A3) (B1 & B2 & B3) (C1 & C2 & C3). rewrite Forall_forall in *.
  assert (NX : forall A (l : list A) i n, i < n -> length l = n -> exists v, nth_error l i = Some v).
  { intros A l i n H E. destruct (nth_error l i) eqn:X; eauto. apply nth_error_None in X. lia. }
  assert (KEY : forall i l u tt v, nth_error lb i = Some l -> nth_error ub i = Some u -> nth_error t i = Some tt -> nth_error x i = Some v ->
     (SpecGeneric.within (dadd l tt) (dadd u tt) v <-> SpecGeneric.within l u (dsub v tt))).
  { intros. apply (grid_within a); auto; [apply G1|apply G2|apply G3|apply G4]; eapply nth_error_In; eauto. }
  split; intros (D1 & D2 & D3).
  - split; [lia|]. split; [lia|]. intros i l u v El Eu Ev. assert (Hi : i < length lb) by (apply nth_error_Some; congruence).
    destruct (NX _ t i (length lb)) as (tt & Et); [lia|lia|]. destruct (NX _ x i (length lb)) as (w & Ew); [lia|lia|].
    rewrite (C3 i w tt Ew Et) in Ev. injection Ev as <-. apply (KEY i l u tt w); auto. apply (D3 i); auto.
  - split; [lia|]. split; [lia|]. intros i l' u' v El Eu Ev. assert (Hi : i < length lb') by (apply nth_error_Some; congruence).
    destruct (NX _ t i (length lb)) as (tt & Et); [lia|lia|]. destruct (NX _ lb i (length lb)) as (l & El0); [lia|lia|]. destruct (NX _ ub i (length lb)) as (u & Eu0); [lia|lia|].
    rewrite (A3 i l tt El0 Et) in El. rewrite (B3 i u tt Eu0 Et) in Eu. injection El as <-. injection Eu as <-. apply (KEY i l u tt v); auto. apply (D3 i); auto.
Qed.
Lemma translate_zero x t y : Forall is_double x -> Forall (eq dzero) t -> shifted dsub x t y -> y = x.
Proof.
  intros D Z (S1 & S2 & S3). apply nth_error_ext. intros i. destruct (nth_error x i) as [a|] eqn:E.
  - assert (i < length x) by (apply nth_error_Some; congruence). destruct (nth_error t i) as [b|] eqn:Eb; [|apply nth_error_None in Eb; lia].
    rewrite (S3 i a b E Eb). rewrite Forall_forall in D, Z. rewrite <- (Z b (nth_error_In _ _ Eb)). pose proof (D a (nth_error_In _ _ E)) as Da.
    destruct a as [| |z|]; try reflexivity. unfold dsub, dzero, dneg, dadd. rewrite Z.opp_0, Z.add_0_r. rewrite rnd_exact; auto.
  - apply nth_error_None in E. apply nth_error_None. lia.
Qed.
Lemma translate_nan ck p t u : real_problem p -> translate_udp ck p t = Ok u -> In NaN t -> construct u = Throw InvalidArgument.
Proof.
  intros R T H. destruct (construct_spec u) as [(q & E & G & _)|[E _]]; [|exact E]. exfalso.
  destruct (translate_udp_inv _ _ _ _ T) as (Lt & _). destruct (translate_construct ck p t R) as [_ K]. destruct (K Lt) as (u' & E' & (S1 & S2 & S3) & (U1 & U2 & U3) & _). rewrite T in E'. injection E' as <-.
  apply In_nth_error in H. destruct H as (i & Ei). destruct (real_bounds p R) as (L1 & L2 & _).
  assert (Hi : i < length t) by (apply nth_error_Some; congruence).
  destruct (nth_error (p_lb p) i) as [l|] eqn:El; [|apply nth_error_None in El; lia]. destruct (nth_error (p_ub p) i) as [v|] eqn:Ev; [|apply nth_error_None in Ev; lia].
  destruct G as ((_ & _ & G & _) & _). destruct (G i _ _ (S3 i l NaN El Ei) (U3 i v NaN Ev Ei)) as (N & _). apply N. destruct l; reflexivity.
Qed.
(** In double arithmetic the box law can fail: lower bound 2^-60, shift 1. *)
Definition d2m60 : dbl := Fin (2 ^ 1014).
Lemma box_rounding : exists lb ub t x lb' ub' y, Forall is_double lb /\ Forall is_double ub /\ Forall is_double t /\ Forall is_double x /\
  shifted dadd lb t lb' /\ shifted dadd ub t ub' /\ shifted dsub x t y /\ in_box lb' ub' x /\ ~ in_box lb ub y.
Proof.
  exists [d2m60], [done], [done], [done], [done], [dint 2], [dzero].
  assert (D1 : is_double done) by (apply (is_double_int 1); reflexivity).
  split; [constructor; [|constructor]; apply (grid_double 1014 1); lia|]. do 3 (split; [constructor; [exact D1|constructor]|]).
  assert (SH : forall op a b c, op a b = c -> shifted op [a] [b] [c]).
  { intros op a b c E. split; [reflexivity|]. split; [reflexivity|]. intros [|[|i]] u v H1 H2; try discriminate. injection H1 as <-. injection H2 as <-. cbn. now rewrite E. }
  split; [apply SH; vm_compute; reflexivity|]. split; [apply SH; vm_compute; reflexivity|]. split; [apply SH; vm_compute; reflexivity|]. split.
  - split; [reflexivity|]. split; [reflexivity|]. intros [|[|i]] l u v H1 H2 H3; try discriminate. injection H1 as <-. injection H2 as <-. injection H3 as <-. split; vm_compute; reflexivity.
  - intros (_ & _ & H). destruct (H 0 _ _ _ eq_refl eq_refl eq_refl) as [H1 _]. vm_compute in H1. discriminate.
Qed.
