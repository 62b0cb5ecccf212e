(** Facts on unconstrain in batch mode and on decompose. *)
From Coq Require Import List Bool Arith ZArith Lia.
From Verif Require Import Dbl DblFacts IntDbl Outcome BaseFacts Constrained SpecConstrained ConstrainedFacts ConstrainedFacts2 MultiObj DecomposeFacts Problem Bfe BfeFacts SpecProblem ProblemFacts ProblemFacts2 ProblemFacts3 PoliciesFacts HvFacts5 HvFacts6 GenericFacts MetaProblems SpecMeta MetaFacts MetaFacts2 MetaFacts3.
Import ListNotations.
Local Opaque one_z Z.pow.

Lemma inner_batch p b ys fs : real_problem p -> u_batch (p_udp p) = Some b -> batch_consistent p b ->
  Forall2 (fun y v => fst (fitness p 0 y) = Ok v) ys fs ->
  fst (batch_fitness p 0 (concat ys)) = Ok (concat fs) /\ Forall (fun v => length v = get_nf p) fs /\ Forall (fun y => length y = get_nx p) ys /\ length ys = length fs.
Proof.
  intros R B C FV. destruct (real_bounds p R) as (_ & _ & P & PO & _ & NF).
  assert (U : Forall2 (fun y v => u_fitness (p_udp p) y = Ok v) ys fs /\ Forall (fun v => length v = get_nf p) fs /\ Forall (fun y => length y = get_nx p) ys /\ length ys = length fs).
  { induction FV as [|y v ys fs E FV IH]; [repeat split; constructor|]. destruct IH as (I1 & I2 & I3 & I4).
    destruct (fitness p 0 y) as [rr c'] eqn:EF. destruct (fitness_spec p 0 y rr c' EF) as (K & _). cbn [fst] in E. subst rr. destruct (proj1 (K v) eq_refl) as (K0 & K1 & K2). repeat split; try (constructor; auto). cbn. now f_equal. }
  destruct U as (U1 & U2 & U3 & U4). split; [|auto]. pose proof (C ys fs U3 U1) as EF.
  destruct (batch_fitness p 0 (concat ys)) as [rr c'] eqn:EB. destruct (batch_fitness_spec p 0 (concat ys) rr c' P ltac:(lia) EB) as (K & _). cbn [fst].
  apply K. exists (length ys). unfold is_batch. rewrite (concat_length ys _ U3), (concat_length fs _ U2), U4. split; [reflexivity|]. split; [|reflexivity]. unfold udp_batch. rewrite B. exact EF.
Qed.
Lemma unconstrain_fit_inner p m w x v : unconstrain_fitness p m w x = Ok v -> exists f, fst (fitness p 0 x) = Ok f /\ penalize p m w f = Ok v.
Proof. unfold unconstrain_fitness. intros H. apply bind_ok in H. destruct H as (f & E & H). eauto. Qed.
Lemma penalize_size p m w f v : real_problem p -> length f = get_nf p -> finite_all (p_ctol p) -> unconstrain_args p m w -> penalize p m w f = Ok v ->
  length v = if umethod_eqb m IgnoreO then 1 else p_nobj p.
Proof.
  intros R L F (A1 & A2 & A3) H. destruct (penalize_counts p f R L F) as (se & si & E1 & E2 & _). destruct (penalize_feas p f R L F) as (b & E3 & _). destruct (real_bounds p R) as (_ & _ & _ & _ & _ & NF).
  assert (LO : length (firstn (p_nobj p) f) = p_nobj p) by (rewrite firstn_length; lia).
  destruct m; cbn [umethod_eqb] in *; try congruence.
  - unfold penalize in H. rewrite E3 in H. cbn [bind] in H. injection H as <-. destruct b; [exact LO|apply repeat_length].
  - unfold penalize in H. rewrite E3 in H. cbn [bind] in H. destruct b; [injection H as <-; exact LO|]. rewrite E1, E2 in H. cbn [bind] in H. injection H as <-. apply repeat_length.
  - rewrite (penalize_weighted p w f R L A3) in H. injection H as <-. now rewrite map_length.
  - unfold penalize in H. injection H as <-. exact LO.
  - unfold penalize in H. rewrite E1, E2 in H. cbn [bind] in H. injection H as <-. reflexivity.
Qed.
Lemma batch_inner_list p m w xs vs : Forall2 (fun x v => unconstrain_fitness p m w x = Ok v) xs vs ->
  exists fs, Forall2 (fun x f => fst (fitness p 0 x) = Ok f) xs fs /\ Forall2 (fun f v => penalize p m w f = Ok v) fs vs.
Proof.
  induction 1 as [|x v xs vs E _ (fs & I1 & I2)]; [exists []; split; constructor|]. destruct (unconstrain_fit_inner _ _ _ _ _ E) as (f & E1 & E2). exists (f :: fs). split; constructor; auto.
Qed.
Lemma unconstrain_batches p m w u b : real_problem p -> finite_all (p_ctol p) -> unconstrain_udp p m w = Ok u -> u_batch (p_udp p) = Some b -> batch_consistent p b ->
  exists g, u_batch u = Some g /\ forall xs vs, Forall2 (fun x v => u_fitness u x = Ok v) xs vs ->
    (m <> IgnoreO \/ p_nobj p = 1 -> g (concat xs) = Ok (concat vs)) /\
    (m = IgnoreO -> 2 <= p_nobj p -> xs <> [] -> g (concat xs) = UB).
Proof.
  intros R F U B C. destruct (unconstrain_inv _ _ _ _ U) as (A & E & EB). rewrite B in EB. eexists. split; [exact EB|]. intros xs vs H. rewrite E in H.
  destruct (batch_inner_list _ _ _ _ _ H) as (fs & F1 & F2). destruct (inner_batch p b xs fs R B C F1) as (K1 & K2 & K3 & K4). destruct (real_bounds p R) as (_ & _ & P & PO & _ & NF).
  assert (SZ : Forall (fun v => length v = if umethod_eqb m IgnoreO then 1 else p_nobj p) vs).
  { clear - F2 K2 R F A. revert K2. induction F2 as [|f v fs vs E F2 IH]; intros K2; constructor; inversion K2; subst; auto. eapply penalize_size; eauto. }
  assert (SEQ : mmap (fun i => bind (penalize p m w (slice (concat fs) (i * get_nf p) (get_nf p))) (copy_n (p_nobj p))) (seq 0 (length (concat xs) / get_nx p)) =
    mmap (fun f => bind (penalize p m w f) (copy_n (p_nobj p))) fs).
  { rewrite (concat_length xs _ K3), Nat.div_mul by lia. rewrite K4. rewrite <- (mmap_slices (fun f => bind (penalize p m w f) (copy_n (p_nobj p))) fs (get_nf p)) by (assumption || lia).
    rewrite (concat_length fs _ K2), Nat.div_mul by lia. reflexivity. }
  unfold unconstrain_batch. rewrite K1. cbn [bind]. rewrite SEQ. split.
  - intros HM. rewrite (mmap_Forall2 _ fs vs); [reflexivity|].
    assert (SZ' : Forall (fun v => length v = p_nobj p) vs).
    { eapply Forall_impl; [|exact SZ]. intros v Hv. cbv beta in Hv. destruct HM as [HM|HM]; [destruct m; cbn in Hv; congruence|]. destruct m; cbn in Hv; congruence. }
    clear - F2 SZ'. induction F2 as [|f v fs vs E F2 IH]; constructor; inversion SZ'; subst; auto. cbv beta. rewrite E. cbn [bind]. unfold copy_n. rewrite H1, Nat.ltb_irrefl. f_equal. rewrite <- H1. apply firstn_all.
  - intros HM HO NE. destruct F2 as [|f v fs vs EE F2]; [destruct xs; [congruence|discriminate]|]. cbn [mmap]. rewrite EE. cbn [bind]. inversion SZ as [|? ? S1 _]; subst. cbn [umethod_eqb] in S1.
    unfold copy_n at 1. rewrite S1. destruct (Nat.ltb_spec 1 (p_nobj p)); [reflexivity|lia].
Qed.

(** ** decompose *)
Lemma forallb_not_nan l : forallb isfinite l = true -> forall x, In x l -> isfinite x = true.
Proof. intros H. apply forallb_forall. exact H. Qed.
Lemma decompose_accepts p w z m :
  (decompose_args p w z m -> decompose_check p w z m = Ok tt) /\ (~ decompose_args p w z m -> decompose_check p w z m = Throw InvalidArgument).
Proof.
  unfold decompose_check, decompose_args.
  destruct (Nat.ltb_spec (p_nobj p) 2) as [H1|H1]; [split; [intros (K & _); lia|reflexivity]|].
  destruct (Nat.eqb_spec (get_nc p) 0) as [H2|H2]; cbn [negb]; [|split; [tauto|reflexivity]].
  destruct (match m with OtherMethod => true | _ => false end) eqn:H3; [split; [intros (_ & _ & K & _); destruct m; congruence|reflexivity]|].
  assert (H3' : m <> OtherMethod) by (destruct m; congruence).
  destruct (Nat.eqb_spec (length w) (p_nobj p)) as [H4|H4]; cbn [negb]; [|split; [tauto|reflexivity]].
  destruct (forallb isfinite w) eqn:H5; cbn [negb].
  2: { split; [|reflexivity]. intros (_ & _ & _ & _ & _ & K & _). exfalso. rewrite (proj2 (forallb_forall isfinite w)) in H5; [discriminate|]. intros x Hx. apply (K x Hx). }
  destruct (Nat.eqb_spec (length z) (p_nobj p)) as [H6|H6]; cbn [negb]; [|split; [tauto|reflexivity]].
  destruct (forallb isfinite z) eqn:H7; cbn [negb].
  2: { split; [|reflexivity]. intros (_ & _ & _ & _ & _ & _ & K & _). exfalso. rewrite (proj2 (forallb_forall isfinite z)) in H7; [discriminate|]. exact K. }
  set (e := dabs (dsub (fold_left dadd w dzero) done)).
  destruct (dgt e d1em8) eqn:H8.
  { split; [|reflexivity]. intros (_ & _ & _ & _ & _ & _ & _ & K). exfalso. unfold dgt in H8. destruct e as [| |k|]; cbn in *; try discriminate. apply Z.ltb_lt in H8. unfold d1em8 in K. apply dle_fin in K. lia. }
  destruct (existsb (fun x => dlt x dzero) w) eqn:H9.
  { split; [|reflexivity]. intros (_ & _ & _ & _ & _ & K & _). exfalso. apply existsb_exists in H9. destruct H9 as (x & Hx & H9). destruct (K x Hx) as [K1 K2].
    destruct x as [| |k|]; try discriminate. apply dle_fin in K2. cbn in H9. apply Z.ltb_lt in H9. lia. }
  assert (PW : forall x, In x w -> isfinite x = true /\ dle dzero x = true).
  { intros x Hx. split; [exact (forallb_not_nan _ H5 x Hx)|]. pose proof (forallb_not_nan _ H5 x Hx) as Fx. destruct x as [| |k|]; try discriminate. apply dle_fin.
    destruct (Z.le_gt_cases 0 k) as [G|G]; [exact G|]. exfalso. assert (existsb (fun x => dlt x dzero) w = true) by (apply existsb_exists; exists (Fin k); split; [exact Hx|apply Z.ltb_lt; exact G]). congruence. }
  split; [reflexivity|]. intros K. exfalso. apply K. repeat (split; [assumption|]). split; [exact (forallb_not_nan _ H7)|].
  assert (NN : e <> NaN).
  { subst e. assert (S : nonneg (fold_left dadd w dzero)).
    { assert (GG : forall l s, nonneg s -> (forall x, In x l -> dle dzero x = true) -> nonneg (fold_left dadd l s)).
      { induction l as [|x l IH]; intros s Hs Hl; [exact Hs|]. cbn [fold_left]. apply IH; [apply dadd_nonneg; [exact Hs|apply Hl; left; reflexivity]|]. intros y Hy. apply Hl. right. exact Hy. }
      apply GG; [reflexivity|]. intros x Hx. apply (PW x Hx). }
    apply nonneg_cases in S. destruct S as [->|(k & -> & _)]; [cbn; discriminate|]. unfold dsub, done, dneg, dadd. pose proof (rnd_not_nan (k + - one_z) 1) as N. destruct (rnd (k + - one_z) 1); [exfalso; apply N; reflexivity|discriminate|discriminate|discriminate]. }
  unfold dgt in H8. destruct e as [| |k|]; try congruence; try reflexivity. unfold d1em8 in *. cbn [dlt] in H8. apply Z.ltb_ge in H8. apply dle_fin. exact H8. discriminate.
Qed.

Lemma adapt_ok : forall f z, length f = length z -> exists z', adapt f z = Ok z' /\ length z' = length z /\
  forall i a b, nth_error f i = Some a -> nth_error z i = Some b -> nth_error z' i = Some (if dlt a b then a else b).
Proof.
  induction f as [|a f IH]; intros [|b z] L; try discriminate.
  - exists []. repeat split. intros [|i] ? ? H; discriminate.
  - injection L as L. destruct (IH z L) as (z' & E & L' & H). cbn [adapt]. rewrite E. cbn [bind]. eexists. split; [reflexivity|]. split; [cbn; lia|]. intros [|i] x y H1 H2; cbn [nth_error] in *; [injection H1 as <-; injection H2 as <-; reflexivity|eauto].
Qed.
Lemma running_nil z : (forall x, In x z -> isfinite x = true) -> running_min z [] z.
Proof.
  intros F. split; [reflexivity|]. intros i v0 v E1 E2. assert (v = v0) by congruence. subst v0. split; [apply dle_refl; intros ->; discriminate (F NaN (nth_error_In _ _ E1))|]. split; [intros f a []|left; reflexivity].
Qed.
Lemma dlt_false_dle a b : a <> NaN -> b <> NaN -> dlt a b = false -> dle b a = true.
Proof. destruct a as [| |x|], b as [| |y|]; intros Na Nb H; try congruence; try reflexivity; try discriminate. cbn [dlt] in H. apply Z.ltb_ge in H. apply dle_fin. exact H. Qed.
Lemma running_step z0 seen z f z' : running_min z0 seen z -> length f = length z0 -> adapt f z = Ok z' -> running_min z0 (seen ++ [f]) z'.
Proof.
  intros (L & H) Lf A. destruct (adapt_ok f z) as (z1 & E & L1 & N); [lia|]. rewrite A in E. injection E as <-. split; [lia|]. intros i v0 v E0 Ev.
  assert (Hi : i < length z0) by (apply nth_error_Some; congruence). destruct (nth_error f i) as [a|] eqn:Ea; [|apply nth_error_None in Ea; lia]. destruct (nth_error z i) as [b|] eqn:Eb; [|apply nth_error_None in Eb; lia].
  rewrite (N i a b Ea Eb) in Ev. injection Ev as <-. destruct (H i v0 b E0 Eb) as (H1 & H2 & H3). destruct (dle_not_nan _ _ H1) as [Nb _].
  destruct (dlt a b) eqn:D.
  - assert (AB : dle a b = true) by (unfold dle; rewrite D; reflexivity). split; [eapply dle_trans; eauto|]. split.
    + intros g c I Ec Nc. apply in_app_or in I. destruct I as [I|[<-|[]]]; [eapply dle_trans; [exact AB|eapply H2; eauto]|]. assert (c = a) by congruence. subst c. apply dle_refl. exact Nc.
    + right. exists f. split; [apply in_or_app; right; left; reflexivity|exact Ea].
  - split; [exact H1|]. split.
    + intros g c I Ec Nc. apply in_app_or in I. destruct I as [I|[<-|[]]]; [eapply H2; eauto|]. assert (c = a) by congruence. subst c. now apply dlt_false_dle.
    + destruct H3 as [->|(g & I & Eg)]; [left; reflexivity|right; exists g; split; [apply in_or_app; auto|exact Eg]].
Qed.
(** Histories: the state after xs, and the result of the next call *)
Definition seen_list (p : problem) (xs : list (list dbl)) : list (list dbl) :=
  flat_map (fun x => match fst (fitness p 0 x) with Ok f => [f] | _ => [] end) xs.
Lemma seen_list_by p xs : seen_by p xs (seen_list p xs).
Proof.
  intros f. unfold seen_list. rewrite in_flat_map. split.
  - intros (x & I & H). exists x. split; [exact I|]. destruct (fst (fitness p 0 x)); cbn in H; try contradiction. destruct H as [->|[]]. reflexivity.
  - intros (x & I & E). exists x. split; [exact I|]. rewrite E. left. reflexivity.
Qed.
Lemma calls_app p w m ad : forall xs z ys, decompose_calls p w m ad z (xs ++ ys) =
  let (rs, z1) := decompose_calls p w m ad z xs in let (rs', z2) := decompose_calls p w m ad z1 ys in (rs ++ rs', z2).
Proof.
  induction xs as [|x xs IH]; intros z ys; cbn [app decompose_calls].
  - destruct (decompose_calls p w m ad z ys); reflexivity.
  - destruct (decompose_fitness p w m ad z x) as [r z1]. rewrite IH. destruct (decompose_calls p w m ad z1 xs) as [rs z2]. destruct (decompose_calls p w m ad z2 ys); reflexivity.
Qed.
Lemma step_adaptive p w m z0 seen z x : get_nf p = length z0 -> running_min z0 seen z ->
  match fst (fitness p 0 x) with
  | Ok f => exists z', decompose_fitness p w m true z x = (decompose_objectives f w z' m, z') /\ running_min z0 (seen ++ [f]) z'
  | e => decompose_fitness p w m true z x = (match e with Throw k => Throw k | UB => UB | _ => NoFuel end, z)
  end.
Proof.
  intros L R. unfold decompose_fitness. destruct (fst (fitness p 0 x)) as [f| | |] eqn:E; try reflexivity. destruct (fitness_len _ _ _ _ E) as [Lf _]. destruct R as [Lz R].
  destruct (adapt_ok f z) as (z' & A & _); [lia|]. rewrite A. exists z'. split; [reflexivity|]. eapply running_step; [split; eauto|lia|exact A].
Qed.
Lemma real_nf p w z m : real_problem p -> decompose_args p w z m -> get_nf p = length z.
Proof. intros R (_ & A2 & _ & _ & A5 & _). destruct (real_bounds p R) as (_ & _ & _ & _ & _ & NF). unfold get_nc in A2. lia. Qed.
Lemma calls_running p w m z0 xs : real_problem p -> decompose_args p w z0 m -> running_min z0 (seen_list p xs) (snd (decompose_calls p w m true z0 xs)).
Proof.
  intros R A. pose proof (real_nf p w z0 m R A) as NF. induction xs as [|x xs IH] using rev_ind.
  - cbn. apply running_nil. apply A.
  - rewrite calls_app. destruct (decompose_calls p w m true z0 xs) as [rs z]. cbn [snd] in IH. cbn [decompose_calls]. pose proof (step_adaptive p w m z0 _ z x NF IH) as S.
    assert (SL : seen_list p (xs ++ [x]) = seen_list p xs ++ match fst (fitness p 0 x) with Ok f => [f] | _ => [] end) by (unfold seen_list; rewrite flat_map_app; cbn [flat_map]; now rewrite app_nil_r).
    rewrite SL. destruct (fst (fitness p 0 x)) as [f| | |]; [destruct S as (z' & -> & RM); exact RM| | |]; rewrite S; cbn [snd]; rewrite app_nil_r; exact IH.
Qed.
Lemma decompose_history p w m z0 xs : real_problem p -> decompose_args p w z0 m ->
  exists seen, seen_by p xs seen /\ running_min z0 seen (snd (decompose_calls p w m true z0 xs)).
Proof. intros R A. exists (seen_list p xs). split; [apply seen_list_by|now apply calls_running]. Qed.
Lemma decompose_next p w m z0 xs x : real_problem p -> decompose_args p w z0 m ->
  let z := snd (decompose_calls p w m true z0 xs) in let (r, z') := decompose_fitness p w m true z x in
  (forall f, fst (fitness p 0 x) = Ok f -> r = decompose_objectives f w z' m /\ exists v, r = Ok [v]) /\
  ((forall f, fst (fitness p 0 x) <> Ok f) -> r = fst (fitness p 0 x) /\ z' = z).
Proof.
  intros R A z. pose proof (calls_running p w m z0 xs R A) as RM. fold z in RM. pose proof (real_nf p w z0 m R A) as NF. pose proof (step_adaptive p w m z0 _ z x NF RM) as S.
  destruct (decompose_fitness p w m true z x) as [r z']. destruct (fst (fitness p 0 x)) as [f| | |] eqn:E.
  - destruct S as (z1 & S & RM1). injection S as -> ->. split; [|intros H; exfalso; apply (H f); reflexivity]. intros f' Ef. injection Ef as <-. split; [reflexivity|].
    destruct (fitness_len _ _ _ _ E) as [Lf _]. destruct A as (A1 & A2 & A3 & A4 & A5 & _). destruct RM1 as [L1 _]. apply decompose_shape; auto; lia.
  - injection S as -> ->. split; [discriminate|auto].
  - injection S as -> ->. split; [discriminate|auto].
  - injection S as -> ->. split; [discriminate|auto].
Qed.
Lemma decompose_static p w m z0 xs : snd (decompose_calls p w m false z0 xs) = z0 /\
  forall x f, fst (fitness p 0 x) = Ok f -> decompose_fitness p w m false z0 x = (decompose_objectives f w z0 m, z0).
Proof.
  assert (S : forall z x, snd (decompose_fitness p w m false z x) = z) by (intros z x; unfold decompose_fitness; destruct (fst (fitness p 0 x)); reflexivity).
  split.
  - revert z0. induction xs as [|x xs IH]; intros z; [reflexivity|]. cbn [decompose_calls]. pose proof (S z x) as Sx. destruct (decompose_fitness p w m false z x) as [r z']. cbn [snd] in Sx. subst z'. specialize (IH z). destruct (decompose_calls p w m false z xs). exact IH.
  - intros x f E. unfold decompose_fitness. rewrite E. reflexivity.
Qed.
