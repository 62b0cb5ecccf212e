(** Facts about decompose_objectives. *)
From Coq Require Import List Bool Arith ZArith Lia.
From Verif Require Import Dbl DblFacts Outcome BaseFacts MultiObj SpecDiscrepancy.
Import ListNotations.

Lemma dec_weighted_mono : forall a b w fa fb, length a = length w -> length b = length w ->
  Forall nonneg w -> (forall i x y, nth_error a i = Some x -> nth_error b i = Some y -> dle x y = true) ->
  le_or_nan fa fb -> le_or_nan (dec_weighted fa a w) (dec_weighted fb b w).
Proof.
  induction a as [|x a IH]; intros [|y b] [|w ws] fa fb La Lb Fw Hle Hf; simpl in La, Lb; try discriminate; [exact Hf|].
  cbn [dec_weighted]. inversion Fw; subst. apply IH; try lia; auto.
  - intros i p q Hp Hq. apply (Hle (S i)); assumption.
  - apply dadd_mono; [exact Hf|]. apply dmul_mono_l; [assumption|]. right; right. apply (Hle 0); reflexivity.
Qed.

Lemma dmul_nonneg_fin a b : (exists z, a = Fin z /\ (0 <= z)%Z) -> (exists z, b = Fin z /\ (0 <= z)%Z) -> nonneg (dmul a b).
Proof.
  intros (x & -> & Hx) (y & -> & Hy). cbn [dmul]. apply rnd_nonneg; [nia|vm_compute; reflexivity].
Qed.

Lemma dec_weighted_nonneg : forall f w fd, nonneg fd ->
  Forall (fun x => exists z, x = Fin z /\ (0 <= z)%Z) f -> Forall (fun x => exists z, x = Fin z /\ (0 <= z)%Z) w ->
  nonneg (dec_weighted fd f w).
Proof.
  induction f as [|x f IH]; intros [|w ws] fd Hfd Ff Fw; cbn [dec_weighted]; auto.
  inversion Ff; inversion Fw; subst. apply IH; auto. apply dadd_nonneg; [exact Hfd|]. apply dmul_nonneg_fin; assumption.
Qed.

Lemma dlt_irrefl a : dlt a a = false.
Proof. destruct a; try reflexivity. apply Z.ltb_irrefl. Qed.
Lemma dlt_false_trans a b c : b <> NaN -> dlt a b = false -> dlt b c = false -> dlt a c = false.
Proof.
  destruct a as [| |x|], b as [| |y|], c as [| |z|]; try reflexivity; try congruence; intros _; cbn [dlt]; try congruence.
  rewrite !Z.ltb_ge. lia.
Qed.
Lemma dlt_asym a b : dlt a b = true -> dlt b a = false.
Proof. destruct a as [| |x|], b as [| |y|]; try reflexivity; cbn [dlt]; try congruence. rewrite Z.ltb_lt, Z.ltb_ge. lia. Qed.

Lemma dec_tcheb_spec : forall f w z fd, length w = length f -> length z = length f -> fd <> NaN ->
  let r := dec_tcheb fd f w z in
  r <> NaN /\ dlt r fd = false /\
  (r = fd \/ exists i fi wi zi, nth_error f i = Some fi /\ nth_error w i = Some wi /\ nth_error z i = Some zi /\ r = tcheb_term fi wi zi) /\
  (forall i fi wi zi, nth_error f i = Some fi -> nth_error w i = Some wi -> nth_error z i = Some zi -> dlt r (tcheb_term fi wi zi) = false).
Proof.
  induction f as [|x f IH]; intros [|w ws] [|z zs] fd Lw Lz Hfd; simpl in Lw, Lz; try discriminate.
  - cbn [dec_tcheb]. split; [exact Hfd|]. split; [apply dlt_irrefl|]. split; [left; reflexivity|]. intros [|i] fi wi zi H; discriminate.
  - cbn [dec_tcheb]. change (dmul (if deq w dzero then d1em4 else w) (dabs (dsub x z))) with (tcheb_term x w z).
    set (t := tcheb_term x w z). set (fd' := if dgt t fd then t else fd).
    assert (Hn : fd' <> NaN).
    { unfold fd'. destruct (dgt t fd) eqn:E; [|exact Hfd]. intros ->. unfold dgt in E. destruct fd; discriminate. }
    assert (Hfd' : dlt fd' fd = false /\ dlt fd' t = false).
    { unfold fd', dgt. destruct (dlt fd t) eqn:E; [split; [apply dlt_asym; exact E|apply dlt_irrefl]|]. split; [apply dlt_irrefl|exact E]. }
    destruct (IH ws zs fd' ltac:(lia) ltac:(lia) Hn) as (R1 & R2 & R3 & R4).
    set (r := dec_tcheb fd' f ws zs) in *. cbv zeta. split; [exact R1|]. split; [eapply dlt_false_trans; [|exact R2|apply Hfd']; exact Hn|]. split.
    + destruct R3 as [E|(i & fi & wi & zi & A & B & C & D)].
      * unfold fd' in E. destruct (dgt t fd); [right|left; exact E]. exists 0, x, w, z. auto.
      * right. exists (S i), fi, wi, zi. auto.
    + intros [|i] fi wi zi A B C; simpl in A, B, C.
      * inversion A; inversion B; inversion C; subst. eapply dlt_false_trans; [|exact R2|apply Hfd']; exact Hn.
      * eapply R4; eassumption.
Qed.

Lemma rnd_nat_zero_neg x : dsub (Fin x) (Fin x) = Fin 0.
Proof. unfold dsub. cbn [dneg dadd]. rewrite Z.add_opp_diag_r. apply rnd_zero. lia. Qed.

Lemma dec_tcheb_zero : forall f w, length w = length f -> Forall (fun x => isfinite x = true) f -> Forall (fun x => isfinite x = true) w ->
  dec_tcheb dzero f w f = dzero.
Proof.
  induction f as [|x f IH]; intros [|w ws] L Ff Fw; simpl in L; try discriminate; [reflexivity|].
  cbn [dec_tcheb]. inversion Ff; inversion Fw; subst. destruct x; try discriminate. rewrite rnd_nat_zero_neg.
  assert (E : dmul (if deq w dzero then d1em4 else w) (dabs (Fin 0)) = Fin 0).
  { cbn [dabs Z.abs]. destruct w as [| |w0|]; try discriminate. destruct (deq (Fin w0) dzero); cbn [dmul d1em4]; rewrite Z.mul_0_r; apply rnd_zero; vm_compute; reflexivity. }
  rewrite E. change (dgt (Fin 0) dzero) with false. cbv iota. apply IH; auto.
Qed.

Lemma decompose_throws f w z m : length w <> length f \/ length z <> length f \/ length f = 0 \/ m = OtherMethod ->
  decompose_objectives f w z m = Throw InvalidArgument.
Proof.
  intros H. unfold decompose_objectives.
  destruct (Nat.eqb_spec (length w) (length f)); [|reflexivity].
  destruct (Nat.eqb_spec (length z) (length f)); [|reflexivity].
  destruct (Nat.eqb_spec (length f) 0); [reflexivity|]. destruct H as [|[|[|]]]; try contradiction. subst m. reflexivity.
Qed.

Lemma decompose_shape f w z m : length w = length f -> length z = length f -> length f <> 0 -> m <> OtherMethod ->
  exists v, decompose_objectives f w z m = Ok [v].
Proof.
  intros L1 L2 L3 Hm. unfold decompose_objectives. rewrite L1, L2, Nat.eqb_refl. destruct (Nat.eqb_spec (length f) 0); [contradiction|].
  cbn [negb throw_if bind]. destruct m; [eauto|eauto| |congruence]. destruct (bi_d1 _ _ _ _ _). eauto.
Qed.

(** Boundary intersection at the reference point *)
Lemma dmul_0_fin w : isfinite w = true -> dmul (Fin 0) w = Fin 0.
Proof. destruct w; try discriminate. intros _. cbn [dmul]. rewrite Z.mul_0_l. apply rnd_zero. vm_compute. reflexivity. Qed.
Lemma dadd_00 : dadd (Fin 0) (Fin 0) = Fin 0.
Proof. vm_compute. reflexivity. Qed.
Lemma bi_d1_zero : forall f w wn, length w = length f -> Forall (fun x => isfinite x = true) f -> Forall (fun x => isfinite x = true) w ->
  fst (bi_d1 (Fin 0) wn f w f) = Fin 0.
Proof.
  induction f as [|x f IH]; intros [|w ws] wn L Ff Fw; simpl in L; try discriminate; [reflexivity|].
  cbn [bi_d1]. inversion Ff; inversion Fw; subst. destruct x; try discriminate. rewrite rnd_nat_zero_neg, dmul_0_fin, dadd_00 by assumption.
  apply IH; auto.
Qed.
Lemma bi_d2_zero : forall f w wn, length w = length f -> Forall (fun x => exists z, x = Fin z /\ is_double x) f -> Forall (fun x => isfinite x = true) w ->
  dlt (Fin 0) wn = true -> bi_d2 (Fin 0) (Fin 0) wn f w f = Fin 0.
Proof.
  induction f as [|x f IH]; intros [|w ws] wn L Ff Fw Hwn; simpl in L; try discriminate; [reflexivity|].
  cbn [bi_d2]. inversion Ff as [|? ? (z & -> & Hd) Ff']; inversion Fw; subst. rewrite dmul_0_fin by assumption.
  assert (E : ddiv (Fin 0) wn = Fin 0).
  { destruct wn as [| |y|]; try discriminate; [|reflexivity]. cbn [dlt] in Hwn. apply Z.ltb_lt in Hwn. cbn [ddiv].
    destruct (Z.eqb_spec y 0); [lia|]. destruct (Z.ltb_spec y 0); [lia|]. rewrite Z.mul_0_l. apply rnd_zero; exact Hwn. }
  rewrite E. assert (E2 : dadd (Fin z) (Fin 0) = Fin z) by (cbn [dadd]; rewrite Z.add_0_r; apply rnd_exact; exact Hd).
  rewrite E2, rnd_nat_zero_neg. change (dmul (Fin 0) (Fin 0)) with (dmul (Fin 0) dzero). rewrite dmul_0_fin by reflexivity. rewrite dadd_00.
  apply IH; auto.
Qed.

Lemma bi_d1_norm : forall f w z d1 wn, length w = length f -> length z = length f -> snd (bi_d1 d1 wn f w z) = weight_norm2 wn w.
Proof.
  induction f as [|x f IH]; intros [|w ws] [|z zs] d1 wn L L2; simpl in L, L2; try discriminate; [reflexivity|].
  cbn [bi_d1 weight_norm2]. apply IH; lia.
Qed.

Lemma bi_at_reference f w : length w = length f -> length f <> 0 ->
  Forall (fun x => exists z, x = Fin z /\ is_double x) f -> Forall (fun x => isfinite x = true) w ->
  dlt (Fin 0) (dsqrt (weight_norm2 (Fin 0) w)) = true ->
  decompose_objectives f w f BI = Ok [Fin 0].
Proof.
  intros L L0 Ff Fw Hn. unfold decompose_objectives. rewrite L, Nat.eqb_refl. destruct (Nat.eqb_spec (length f) 0); [contradiction|].
  cbn [negb throw_if bind].
  assert (Ff2 : Forall (fun x => isfinite x = true) f) by (eapply Forall_impl; [|exact Ff]; intros x (z & -> & _); reflexivity).
  pose proof (bi_d1_zero f w dzero L Ff2 Fw) as E1. pose proof (bi_d1_norm f w f dzero dzero L eq_refl) as E2.
  change (Fin 0) with dzero in E1. destruct (bi_d1 dzero dzero f w f) as [d1 wn2]. cbn [fst snd] in E1, E2. subst d1 wn2.
  assert (E : ddiv dzero (dsqrt (weight_norm2 dzero w)) = Fin 0).
  { fold dzero in Hn. destruct (dsqrt (weight_norm2 dzero w)) as [| |y|]; try discriminate; [|reflexivity].
    unfold dzero in *. cbn [dlt] in Hn. apply Z.ltb_lt in Hn. cbn [ddiv].
    destruct (Z.eqb_spec y 0); [lia|]. destruct (Z.ltb_spec y 0); [lia|]. rewrite Z.mul_0_l. apply rnd_zero; exact Hn. }
  rewrite E. fold dzero. unfold dzero at 2. rewrite bi_d2_zero by assumption. vm_compute. reflexivity.
Qed.
