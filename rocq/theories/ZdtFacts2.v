(** ZDT5, and the statements about all the problems. *)
From Coq Require Import List ZArith Lia Reals Lra Bool.
Import ListNotations.
From Verif Require Import Outcome BaseFacts TestArith TestProblems SpecTest SpecPareto TestFacts TestFacts2 TestFacts4 TestFacts5 Zdt SpecZdt ZdtFacts.
Local Open Scope R_scope.

Lemma int_part_unique (k : Z) r : IZR k <= r < IZR k + 1 -> Int_part r = k.
Proof.
  intros H. destruct (base_Int_part r) as [A B]. assert (IZR (Int_part r) < IZR (k + 1)) by (rewrite plus_IZR; lra). assert (IZR k < IZR (Int_part r + 1)) by (rewrite plus_IZR; lra).
  apply lt_IZR in H0, H1. lia.
Qed.
Lemma rfloor_int k : rfloor (IZR k) = IZR k.
Proof. unfold rfloor. f_equal. apply int_part_unique. lra. Qed.
Lemma rround_int k : rround (IZR k) = IZR k.
Proof.
  unfold rround, rfloor. destruct (Rle_dec 0 (IZR k)).
  - f_equal. apply int_part_unique. lra.
  - rewrite (int_part_unique (- k)); [rewrite opp_IZR; ring |]. rewrite opp_IZR. lra.
Qed.
Definition binary (x : list R) : Prop := forall v, In v x -> v = 0 \/ v = 1.
Lemma map_id_in (f : R -> R) x : (forall v, In v x -> f v = v) -> map f x = x.
Proof. induction x as [| v x IH]; intros H; cbn; [reflexivity |]. rewrite H by now left. rewrite IH; [reflexivity |]. intros; apply H; now right. Qed.
Lemma binary_round x : binary x -> map (ar_round Rar) x = x.
Proof. intros H. apply map_id_in. intros v V. destruct (H v V) as [-> | ->]; apply rround_int. Qed.
Lemma binary_floor x : binary x -> map (ar_floor Rar) x = x.
Proof. intros H. apply map_id_in. intros v V. destruct (H v V) as [-> | ->]; apply rfloor_int. Qed.

(** how many of these components are one *)
Fixpoint cnt (x : list R) (l : list nat) : Z := match l with [] => 0%Z | k :: l => ((if Req_EM_T (nth k x 0%R) 1%R then 1 else 0) + cnt x l)%Z end.
Lemma ones_R x l : (forall k, In k l -> (k < length x)%nat) -> zdt5_ones Rar x l = Ok (cnt x l).
Proof.
  unfold zdt5_ones. intros H. cut (forall c, mfold (fun (c : Z) k => bind (vget x k) (fun v => Ok (if ar_eqb Rar v (ar_lit Rar 1 1) then (c + 1)%Z else c))) c l = Ok (c + cnt x l)%Z); [intros E; apply (E 0%Z) |].
  induction l as [| k l IH]; intros c; cbn [mfold cnt]; [f_equal; lia |]. rewrite vget_nth by (apply H; now left). cbn [bind]. rewrite IH by (intros; apply H; now right). rewrite lit1. cbn [ar_eqb Rar].
  f_equal. destruct (Req_EM_T (nth k x 0) 1); lia.
Qed.
Lemma cnt_range x l : (0 <= cnt x l <= Z.of_nat (length l))%Z.
Proof. induction l as [| k l IH]; cbn [cnt length]; [lia |]. destruct (Req_EM_T _ 1); lia. Qed.
Lemma cnt_ext x y l : (forall k, In k l -> nth k x 0 = nth k y 0) -> cnt x l = cnt y l.
Proof. induction l as [| k l IH]; intros H; cbn [cnt]; [reflexivity |]. rewrite H by now left. rewrite IH; [reflexivity |]. intros; apply H; now right. Qed.
Lemma cnt_all x l : (forall k, In k l -> nth k x 0 = 1) -> cnt x l = Z.of_nat (length l).
Proof. induction l as [| k l IH]; intros H; cbn [cnt length]; [reflexivity |]. rewrite H by now left. rewrite IH by (intros; apply H; now right). destruct (Req_EM_T 1 1); [lia | lra]. Qed.

Definition blk (x : list R) (i : nat) : R := IZR (zdt5_v (cnt x (seq (30 + 5 * (i - 1)) 5))).
Definition g5 (m : nat) (x : list R) : R := rsum (blk x) (seq 1 m).
Definition f5 (x : list R) : R := 1 + IZR (cnt x (seq 0 30)).
Lemma g5_R m x : length x = (30 + 5 * m)%nat -> zdt5_g Rar x (S m) = Ok (g5 m x).
Proof.
  intros L. unfold zdt5_g, g5. replace (S m - 1)%nat with m by lia.
  assert (E := fold_sum (seq 1 m) (blk x) (fun i => Ok (blk x i)) 0). cbn [bind] in E. rewrite lit1. rewrite Rplus_0_l in E. rewrite <- E by reflexivity. apply mfold_ext_in.
  intros i s I. apply in_seq in I. rewrite ones_R; [cbn [bind]; rewrite lit1; reflexivity |]. intros k K. apply in_seq in K. lia.
Qed.
Lemma blk_low x i : 1 <= blk x i.
Proof. unfold blk, zdt5_v. apply IZR_le. pose proof (cnt_range x (seq (30 + 5 * (i - 1)) 5)). destruct (Z.ltb_spec (cnt x (seq (30 + 5 * (i - 1)) 5)) 5); lia. Qed.
Lemma g5_low m x : INR m <= g5 m x.
Proof.
  unfold g5. replace (INR m) with (rsum (fun _ => 1) (seq 1 m)) by (rewrite rsum_const, seq_length; ring). apply rsum_le. intros i _. apply blk_low.
Qed.
Definition box_5 (m : nat) (x : list R) : Prop := length x = (30 + 5 * m)%nat /\ binary x.
Lemma vectors5 {A} (x : list A) m : length x = (30 + 5 * m)%nat -> (Z.of_nat (length x) < 2 ^ 32)%Z -> zdt5_vectors x = Z.of_nat (S m).
Proof.
  intros L M. unfold zdt5_vectors. rewrite Z.mod_small by lia. replace (Z.of_nat (length x) - 30)%Z with (Z.of_nat m * 5)%Z by lia. rewrite Z.div_mul by lia. lia.
Qed.
Lemma alloc5 m : (Z.of_nat m < 2 ^ 32)%Z -> zdt5_alloc (Z.of_nat (S m)) = Ok (S m).
Proof. intros H. unfold zdt5_alloc. destruct (Z.ltb_spec (2 ^ 60 - 1) (Z.of_nat (S m))); [lia |]. now rewrite Nat2Z.id. Qed.
Definition h5 (a g : R) : R := g * (1 / a).
Lemma zdt5_value m x : (Z.of_nat (30 + 5 * m) < 2 ^ 32)%Z -> box_5 m x -> zdt5_fitness Rar x = Ok [f5 x; h5 (f5 x) (g5 m x)].
Proof.
  intros M [L B]. unfold zdt5_fitness. rewrite (vectors5 x m L) by lia. rewrite alloc5 by lia. cbn [bind]. cbv zeta. rewrite binary_round by exact B. rewrite vget_nth by lia. cbn [bind].
  rewrite ones_R by (intros k K; apply in_seq in K; lia). cbn [bind]. rewrite g5_R by exact L. cbn [bind]. rewrite !lit1. reflexivity.
Qed.
Lemma zdt5_dist m x : (Z.of_nat (30 + 5 * m) < 2 ^ 32)%Z -> box_5 m x -> zdt5_p_distance Rar x = Ok (g5 m x - INR m).
Proof.
  intros M [L B]. unfold zdt5_p_distance. rewrite binary_floor by exact B. cbv zeta. rewrite (vectors5 x m L) by lia. rewrite alloc5 by lia. cbn [bind]. rewrite g5_R by exact L. cbn [bind]. rewrite !lit1.
  f_equal. cbn [ar_add ar_sub Rar]. rewrite <- INR_IZR_INZ, S_INR. ring.
Qed.
Lemma f5_range x : 1 <= f5 x.
Proof. unfold f5. pose proof (cnt_range x (seq 0 30)) as H. assert (0 <= IZR (cnt x (seq 0 30))) by (apply IZR_le; lia). lra. Qed.
Definition flat5 (m : nat) (x : list R) : list R := firstn 30 x ++ repeat 1 (5 * m).
Lemma flat5_box m x : box_5 m x -> box_5 m (flat5 m x).
Proof.
  intros [L B]. split; [unfold flat5; rewrite app_length, firstn_length, repeat_length; lia |]. intros v V. apply in_app_or in V. destruct V as [V | V].
  - apply B. rewrite <- (firstn_skipn 30 x). apply in_or_app. now left.
  - apply repeat_spec in V. now right.
Qed.
Lemma flat5_f m x : length x = (30 + 5 * m)%nat -> f5 (flat5 m x) = f5 x.
Proof.
  intros L. unfold f5. do 2 f_equal. apply cnt_ext. intros k K. apply in_seq in K. unfold flat5. rewrite app_nth1 by (rewrite firstn_length; lia). rewrite <- (firstn_skipn 30 x) at 2. rewrite app_nth1 by (rewrite firstn_length; lia). reflexivity.
Qed.
Lemma flat5_g m x : length x = (30 + 5 * m)%nat -> g5 m (flat5 m x) = INR m.
Proof.
  intros L. unfold g5. rewrite (rsum_ext _ (fun _ => 1)); [rewrite rsum_const, seq_length; ring |]. intros i I. apply in_seq in I. unfold blk. rewrite cnt_all; [reflexivity |].
  intros k K. apply in_seq in K. unfold flat5. rewrite app_nth2 by (rewrite firstn_length; lia). apply rep_nth. rewrite firstn_length. lia.
Qed.
Lemma h5_inc a u v : 1 <= a -> u < v -> h5 a u < h5 a v.
Proof. intros A H. unfold h5. apply Rmult_lt_compat_r; [apply Rdiv_lt_0_compat; lra | exact H]. Qed.
Lemma h5_dec m a b : 0 < m -> 1 <= a -> 1 <= b -> a < b -> h5 b m < h5 a m.
Proof. intros M A B H. unfold h5. apply Rmult_lt_compat_l; [exact M |]. unfold Rdiv. rewrite !Rmult_1_l. apply Rinv_lt_contravar; nra. Qed.
Lemma adm5 dim x : admissible (zdt_bounds Rar 5 dim) dim x <-> length x = dim /\ binary x.
Proof.
  unfold admissible. rewrite box01 by reflexivity. split.
  - intros [[L B] I]. split; [exact L |]. intros v V. destruct (In_nth _ _ 0 V) as [i [Hi <-]]. destruct (I i) as [k K]; [lia |]. specialize (B i). rewrite L in Hi. specialize (B Hi). rewrite K in *.
    destruct B as [B1 B2]. apply le_IZR in B1, B2. assert (k = 0 \/ k = 1)%Z as [-> | ->] by lia; auto.
  - intros [L B]. assert (Q : forall i, (i < length x)%nat -> nth i x 0 = 0 \/ nth i x 0 = 1) by (intros i I; apply B; now apply nth_In). split.
    + split; [exact L |]. intros i I. destruct (Q i) as [-> | ->]; [lia | lra | lra].
    + intros i I. destruct (Q i) as [-> | ->]; [lia | now exists 0%Z | now exists 1%Z].
Qed.

Lemma pareto_ext (D E : list R -> Prop) f g x : (forall y, D y <-> E y) -> (forall y, E y -> f y = g y) -> pareto_optimal E g x -> pareto_optimal D f x.
Proof. intros H G [Ex O]. split; [now apply H |]. intros y fx fy Dy Fx Fy. apply H in Dy. rewrite G in Fx by exact Ex. rewrite G in Fy by exact Dy. eapply O; eauto. Qed.
Section Cases.
Context (id param : Z).
Lemma ctor_cases : zdt_ctor id param = Ok (id, param) -> (0 <= id)%Z -> (2 <= param)%Z /\ (id = 1 \/ id = 2 \/ id = 3 \/ id = 4 \/ id = 5 \/ id = 6)%Z.
Proof using.
  intros C I0. unfold zdt_ctor in C. destruct (Z.ltb_spec param 2); [discriminate |]. destruct (Z.eqb_spec id 0); [discriminate |]. destruct (Z.ltb_spec 6 id); [discriminate |]. lia.
Qed.
Lemma adm_box : (id = 1 \/ id = 2 \/ id = 3 \/ id = 6)%Z -> forall x, zdt_admissible id param x <-> box (Z.to_nat param) x.
Proof using.
  intros H x. unfold zdt_admissible. assert (E5 : (id =? 5)%Z = false) by (apply Z.eqb_neq; lia). assert (E4 : (id =? 4)%Z = false) by (apply Z.eqb_neq; lia). unfold zdt_nix, zdt_dim. rewrite !E5. change (Z.to_nat 0) with 0%nat. rewrite adm0, box01 by exact E4. reflexivity.
Qed.
Lemma adm_box4 : id = 4%Z -> (2 <= param)%Z -> forall x, zdt_admissible id param x <-> box_4 (Z.to_nat param) x.
Proof using.
  intros -> P x. unfold zdt_admissible, zdt_nix, zdt_dim. cbn [Z.eqb Pos.eqb]. change (Z.to_nat 0) with 0%nat. rewrite adm0, box4 by lia. reflexivity.
Qed.
Lemma adm_box5 : id = 5%Z -> (2 <= param)%Z -> (30 + 5 * (param - 1) < 2 ^ 32)%Z -> forall x, zdt_admissible id param x <-> box_5 (Z.to_nat (param - 1)) x.
Proof using.
  intros -> P W x. unfold zdt_admissible, zdt_nix, zdt_dim. cbn [Z.eqb Pos.eqb]. rewrite Z.mod_small by lia. rewrite adm5. unfold box_5. replace (Z.to_nat (30 + 5 * (param - 1))) with (30 + 5 * Z.to_nat (param - 1))%nat by lia. reflexivity.
Qed.
End Cases.

Lemma iff_shift (g c : R) P : (g = c <-> P) -> (g - c = 0 <-> P).
Proof. intros H. rewrite <- H. split; lra. Qed.
Theorem zdt_main id param : (0 <= id)%Z -> (param < 2 ^ 32)%Z -> zdt_ctor id param = Ok (id, param) -> (id = 5 -> 30 + 5 * (param - 1) < 2 ^ 32)%Z ->
  forall x, zdt_admissible id param x -> exists d, zdt_p_distance Rar id x = Ok d /\ 0 <= d /\
    (pareto_optimal (zdt_admissible id param) (zdt_fitness Rar id) x -> d = 0) /\ (id <> 3%Z -> d = 0 -> pareto_optimal (zdt_admissible id param) (zdt_fitness Rar id) x).
Proof.
  intros I0 M C W x Dx. destruct (ctor_cases id param C I0) as [P2 IDS].
  assert (N2 : (2 <= Z.to_nat param)%nat) by lia. assert (N3 : (Z.of_nat (Z.to_nat param) < 2 ^ 32)%Z) by lia.
  destruct IDS as [-> | [-> | [-> | [-> | [-> | ->]]]]].
  - assert (AB := adm_box 1 param ltac:(auto)). assert (Bx := proj1 (AB x) Dx). exists (g123 x - 1). split; [now apply (zdt123_dist (Z.to_nat param)) |].
    pose proof (g123_low _ x N2 Bx). split; [lra |].
    assert (VAL : forall y, box (Z.to_nat param) y -> zdt1_fitness Rar y = Ok [nth 0 y 0; h1 (nth 0 y 0) (g123 y)]) by (intros; now apply (zdt1_value (Z.to_nat param))).
    assert (RNG : forall y, box (Z.to_nat param) y -> 0 <= nth 0 y 0 <= 1) by (intros y [L B]; apply B; lia).
    assert (LOW : forall y, box (Z.to_nat param) y -> 1 <= g123 y) by (intros; now apply (g123_low (Z.to_nat param))).
    split.
    + intros O. apply (pareto_ext (box (Z.to_nat param)) _ (zdt1_fitness Rar)) in O; [| intros; symmetry; apply AB | reflexivity].
      rewrite (core_necessary _ _ _ _ _ _ 1 VAL LOW RNG root_inc) with (x := x); [lra | | exact O]. intros y By. exists (flat y). split; [apply flat_box; [lia | exact By] | split; [reflexivity | apply flat_g123; destruct By; lia]].
    + intros _ Z. apply (pareto_ext _ (box (Z.to_nat param)) _ (zdt1_fitness Rar)); [exact AB | reflexivity |].
      apply (core_sufficient _ _ _ _ _ _ 1 VAL LOW RNG root_inc root_dec); [exact Bx | lra].
  - assert (AB := adm_box 2 param ltac:(auto)). assert (Bx := proj1 (AB x) Dx). exists (g123 x - 1). split; [now apply (zdt123_dist (Z.to_nat param)) |].
    pose proof (g123_low _ x N2 Bx). split; [lra |].
    assert (VAL : forall y, box (Z.to_nat param) y -> zdt2_fitness Rar y = Ok [nth 0 y 0; h2 (nth 0 y 0) (g123 y)]) by (intros; now apply (zdt2_value (Z.to_nat param))).
    assert (RNG : forall y, box (Z.to_nat param) y -> 0 <= nth 0 y 0 <= 1) by (intros y [L B]; apply B; lia).
    assert (LOW : forall y, box (Z.to_nat param) y -> 1 <= g123 y) by (intros; now apply (g123_low (Z.to_nat param))).
    split.
    + intros O. apply (pareto_ext (box (Z.to_nat param)) _ (zdt2_fitness Rar)) in O; [| intros; symmetry; apply AB | reflexivity].
      rewrite (core_necessary _ _ _ _ _ _ 1 VAL LOW RNG square_inc) with (x := x); [lra | | exact O]. intros y By. exists (flat y). split; [apply flat_box; [lia | exact By] | split; [reflexivity | apply flat_g123; destruct By; lia]].
    + intros _ Z. apply (pareto_ext _ (box (Z.to_nat param)) _ (zdt2_fitness Rar)); [exact AB | reflexivity |].
      apply (core_sufficient _ _ _ _ _ _ 1 VAL LOW RNG square_inc square_dec); [exact Bx | lra].
  - assert (AB := adm_box 3 param ltac:(auto)). assert (Bx := proj1 (AB x) Dx). exists (g123 x - 1). split; [now apply (zdt123_dist (Z.to_nat param)) |].
    pose proof (g123_low _ x N2 Bx). split; [lra |].
    assert (VAL : forall y, box (Z.to_nat param) y -> zdt3_fitness Rar y = Ok [nth 0 y 0; h3 (nth 0 y 0) (g123 y)]) by (intros; now apply (zdt3_value (Z.to_nat param))).
    assert (RNG : forall y, box (Z.to_nat param) y -> 0 <= nth 0 y 0 <= 1) by (intros y [L B]; apply B; lia).
    assert (LOW : forall y, box (Z.to_nat param) y -> 1 <= g123 y) by (intros; now apply (g123_low (Z.to_nat param))).
    split.
    + intros O. apply (pareto_ext (box (Z.to_nat param)) _ (zdt3_fitness Rar)) in O; [| intros; symmetry; apply AB | reflexivity].
      rewrite (core_necessary _ _ _ _ _ _ 1 VAL LOW RNG wave_inc) with (x := x); [lra | | exact O]. intros y By. exists (flat y). split; [apply flat_box; [lia | exact By] | split; [reflexivity | apply flat_g123; destruct By; lia]].
    + intros Q. now elim Q.
  - assert (AB := adm_box4 4 param eq_refl P2). assert (Bx := proj1 (AB x) Dx). exists (g4 x - 1). split; [now apply (zdt4_dist (Z.to_nat param)) |].
    pose proof (g4_low x). split; [lra |].
    assert (VAL : forall y, box_4 (Z.to_nat param) y -> zdt4_fitness Rar y = Ok [nth 0 y 0; h1 (nth 0 y 0) (g4 y)]) by (intros; now apply (zdt4_value (Z.to_nat param))).
    assert (RNG : forall y, box_4 (Z.to_nat param) y -> 0 <= nth 0 y 0 <= 1) by (intros y [L [B _]]; exact B).
    assert (LOW : forall y, box_4 (Z.to_nat param) y -> 1 <= g4 y) by (intros; apply g4_low).
    split.
    + intros O. apply (pareto_ext (box_4 (Z.to_nat param)) _ (zdt4_fitness Rar)) in O; [| intros; symmetry; apply AB | reflexivity].
      rewrite (core_necessary _ _ _ _ _ _ 1 VAL LOW RNG root_inc) with (x := x); [lra | | exact O]. intros y By. exists (flat y). split; [apply flat_box4; [lia | exact By] | split; [reflexivity | apply flat_g4; destruct By; lia]].
    + intros _ Z. apply (pareto_ext _ (box_4 (Z.to_nat param)) _ (zdt4_fitness Rar)); [exact AB | reflexivity |].
      apply (core_sufficient _ _ _ _ _ _ 1 VAL LOW RNG root_inc root_dec); [exact Bx | lra].
  - specialize (W eq_refl). assert (AB := adm_box5 5 param eq_refl P2 W). assert (Bx := proj1 (AB x) Dx). set (m := Z.to_nat (param - 1)) in *. assert (WM : (Z.of_nat (30 + 5 * m) < 2 ^ 32)%Z) by (subst m; lia).
    assert (M0 : 0 < INR m) by (apply lt_0_INR; subst m; lia).
    exists (g5 m x - INR m). split; [now apply zdt5_dist |]. pose proof (g5_low m x). split; [lra |].
    assert (VAL : forall y, box_5 m y -> zdt5_fitness Rar y = Ok [f5 y; h5 (f5 y) (g5 m y)]) by (intros; now apply zdt5_value).
    assert (RNG : forall y, box_5 m y -> 1 <= f5 y) by (intros; apply f5_range). assert (LOW : forall y, box_5 m y -> INR m <= g5 m y) by (intros; apply g5_low).
    assert (INC : forall a u v, 1 <= a -> INR m <= u -> u < v -> h5 a u < h5 a v) by (intros; now apply h5_inc).
    split.
    + intros O. apply (pareto_ext (box_5 m) _ (zdt5_fitness Rar)) in O; [| intros; symmetry; apply AB | reflexivity].
      rewrite (core_necessary _ _ _ _ _ (fun a => 1 <= a) (INR m) VAL LOW RNG INC) with (x := x); [lra | | exact O]. intros y By. exists (flat5 m y). destruct By. split; [apply flat5_box; split; assumption | split; [now apply flat5_f | now apply flat5_g]].
    + intros _ Z. apply (pareto_ext _ (box_5 m) _ (zdt5_fitness Rar)); [exact AB | reflexivity |].
      apply (core_sufficient _ _ _ _ _ (fun a => 1 <= a) (INR m) VAL LOW RNG INC); [intros; now apply h5_dec | exact Bx | lra].
  - assert (AB := adm_box 6 param ltac:(auto)). assert (Bx := proj1 (AB x) Dx). exists (g6 x - 1). split; [now apply (zdt6_dist (Z.to_nat param)) |].
    pose proof (g6_low _ x N2 Bx). split; [lra |].
    assert (VAL : forall y, box (Z.to_nat param) y -> zdt6_fitness Rar y = Ok [f6 y; h2 (f6 y) (g6 y)]) by (intros; now apply (zdt6_value (Z.to_nat param))).
    assert (RNG : forall y, box (Z.to_nat param) y -> 0 <= f6 y <= 1) by (intros y By; apply (f6_range (Z.to_nat param)); [lia | exact By]).
    assert (LOW : forall y, box (Z.to_nat param) y -> 1 <= g6 y) by (intros; now apply (g6_low (Z.to_nat param))).
    split.
    + intros O. apply (pareto_ext (box (Z.to_nat param)) _ (zdt6_fitness Rar)) in O; [| intros; symmetry; apply AB | reflexivity].
      rewrite (core_necessary _ _ _ _ _ _ 1 VAL LOW RNG square_inc) with (x := x); [lra | | exact O]. intros y By. exists (flat y). split; [apply flat_box; [lia | exact By] | split; [reflexivity | apply flat_g6; destruct By; lia]].
    + intros _ Z. apply (pareto_ext _ (box (Z.to_nat param)) _ (zdt6_fitness Rar)); [exact AB | reflexivity |].
      apply (core_sufficient _ _ _ _ _ _ 1 VAL LOW RNG square_inc square_dec); [exact Bx | lra].
Qed.
