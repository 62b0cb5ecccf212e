(** Facts about the genetic operators. *)
From Coq Require Import List Bool Arith ZArith Lia.
From Verif Require Import Dbl DblFacts IntDbl Outcome BaseFacts Rng Problem SpecProblem ProblemFacts Generic SpecGeneric GenericFacts GenericFacts2 GenericFacts3 GeneticOps SpecGenetic RmFacts.
Import ListNotations.

(** ** Doubles *)
Lemma nonneg_fin z : (0 <= z)%Z -> nonneg (Fin z).
Proof. intros. apply nonneg_cases. right. eauto. Qed.
Lemma nonneg_dmul a z : nonneg a -> (0 < z)%Z -> nonneg (dmul a (Fin z)).
Proof.
  rewrite nonneg_cases. intros [->|(x & -> & Hx)] Hz; cbn [dmul dsgn].
  - rewrite Z.sgn_pos by lia. reflexivity.
  - apply rnd_nonneg; [nia|apply one_z_pos].
Qed.
Lemma nonneg_dmul_fin a b : (0 <= a)%Z -> (0 <= b)%Z -> nonneg (dmul (Fin a) (Fin b)).
Proof. intros. apply rnd_nonneg; [nia|apply one_z_pos]. Qed.
Lemma done_fin : done = Fin one_z. Proof. reflexivity. Qed.
Lemma is_double_one : is_double done.
Proof. exists 1%Z, 1074%Z. repeat split; try lia; vm_compute; reflexivity. Qed.
Lemma is_double_two : is_double dtwo.
Proof. rewrite dtwo_eq. exists 1%Z, 1075%Z. split; [vm_compute; reflexivity|]. split; [lia|]. split; vm_compute; reflexivity. Qed.
Lemma dadd_one_ge a : nonneg a -> dle done (dadd done a) = true.
Proof.
  rewrite nonneg_cases. intros [->|(x & -> & Hx)]; [reflexivity|].
  unfold done at 2. cbn [dadd]. rewrite <- (rnd_exact one_z is_double_one) at 1. apply rnd_mono; lia.
Qed.
(** Values in [0,1], in [1,2] *)
Lemma between_fin a l u : dle (Fin l) a = true -> dle a (Fin u) = true -> exists z, a = Fin z /\ (l <= z <= u)%Z.
Proof. destruct a as [| |z|]; cbn; try discriminate. intros H1 H2. apply dle_fin in H1, H2. eauto. Qed.
Lemma rnd_between n d l u : (0 < d)%Z -> is_double (Fin l) -> is_double (Fin u) -> (l * d <= n <= u * d)%Z -> exists z, rnd n d = Fin z /\ (l <= z <= u)%Z.
Proof.
  intros Hd Dl Du H. apply between_fin.
  - rewrite <- (rnd_exact l Dl), <- (rnd_scale l d Hd). now apply rnd_mono.
  - rewrite <- (rnd_exact u Du), <- (rnd_scale u d Hd). now apply rnd_mono.
Qed.
Lemma dbl0 : is_double (Fin 0). Proof. exists 0%Z, 0%Z. repeat split; lia. Qed.
Lemma dbl1 : is_double (Fin one_z). Proof. exact is_double_one. Qed.
Lemma dbl2 : is_double (Fin (2 * one_z)). Proof. rewrite <- dtwo_eq. exact is_double_two. Qed.
Lemma two_minus x : (0 <= x <= one_z)%Z -> exists z, dsub dtwo (Fin x) = Fin z /\ (one_z <= z <= 2 * one_z)%Z.
Proof. intros H. rewrite dtwo_eq. cbn [dsub dneg dadd]. apply rnd_between; [lia|apply dbl1|apply dbl2|lia]. Qed.
Lemma two_minus2 x : (0 <= x <= 2 * one_z)%Z -> exists z, dsub dtwo (Fin x) = Fin z /\ (0 <= z <= 2 * one_z)%Z.
Proof. intros H. rewrite dtwo_eq. cbn [dsub dneg dadd]. apply rnd_between; [lia|apply dbl0|apply dbl2|lia]. Qed.
Lemma one_minus x : (0 <= x <= one_z)%Z -> exists z, dsub done (Fin x) = Fin z /\ (0 <= z <= one_z)%Z.
Proof. intros H. unfold done. cbn [dsub dneg dadd]. apply rnd_between; [lia|apply dbl0|apply dbl1|lia]. Qed.
Lemma mul_unit x y : (0 <= x <= one_z)%Z -> (0 <= y <= 2 * one_z)%Z -> exists z, dmul (Fin x) (Fin y) = Fin z /\ (0 <= z <= 2 * one_z)%Z.
Proof. intros H K. cbn [dmul]. pose proof one_z_pos. apply rnd_between; [lia|apply dbl0|apply dbl2|nia]. Qed.
Lemma mul_unit1 x y : (0 <= x <= one_z)%Z -> (0 <= y <= one_z)%Z -> exists z, dmul (Fin x) (Fin y) = Fin z /\ (0 <= z <= one_z)%Z.
Proof. intros H K. cbn [dmul]. pose proof one_z_pos. apply rnd_between; [lia|apply dbl0|apply dbl1|nia]. Qed.
Lemma twice_unit x : (0 <= x <= one_z)%Z -> exists z, dmul dtwo (Fin x) = Fin z /\ (0 <= z <= 2 * one_z)%Z.
Proof. intros H. rewrite dtwo_eq. cbn [dmul]. pose proof one_z_pos. apply rnd_between; [lia|apply dbl0|apply dbl2|nia]. Qed.
Lemma one_div_nonneg z : (0 <= z)%Z -> nonneg (ddiv done (Fin z)).
Proof.
  intros H. unfold done. cbn [ddiv]. destruct (Z.eqb_spec z 0); [reflexivity|]. destruct (Z.ltb_spec z 0); [lia|].
  apply rnd_nonneg; [pose proof one_z_pos; nia|lia].
Qed.
Lemma eta_plus eta : nonneg eta -> isfinite eta = true -> dle done (dadd eta done) = true.
Proof.
  intros H F. destruct eta as [| |z|]; try discriminate. rewrite nonneg_cases in H. destruct H as [H|(x & E & Hx)]; [discriminate|]. injection E as ->.
  unfold done at 2. cbn [dadd]. rewrite <- (rnd_exact one_z is_double_one) at 1. apply rnd_mono; lia.
Qed.
Lemma one_div_eta e : dle done e = true -> nonneg (ddiv done e) /\ ddiv done e <> NaN.
Proof.
  intros H. destruct e as [| |z|]; try discriminate; [|split; [reflexivity|discriminate]].
  apply dle_fin in H. pose proof one_z_pos. pose proof (one_div_nonneg z ltac:(lia)) as K. split; auto. intros E. rewrite E in K. discriminate.
Qed.
Lemma nonneg_not_nan a : nonneg a -> a <> NaN.
Proof. intros H ->. discriminate. Qed.
Lemma sub_nonneg_not_nan z a : nonneg a -> dsub (Fin z) a <> NaN.
Proof. rewrite nonneg_cases. intros [->|(x & -> & Hx)]; cbn [dsub dneg dadd]; [discriminate|apply rnd_not_nan]. Qed.
Lemma add_nonneg_not_nan z a : nonneg a -> dadd (Fin z) a <> NaN.
Proof. rewrite nonneg_cases. intros [->|(x & -> & Hx)]; cbn [dadd]; [discriminate|apply rnd_not_nan]. Qed.
Lemma half_not_nan a : a <> NaN -> dmul dhalf a <> NaN.
Proof. intros H. assert (K : (0 < 2 ^ 1073)%Z) by (apply Z.pow_pos_nonneg; lia). unfold dhalf. destruct a as [| |x|]; try congruence; cbn [dmul dsgn]; rewrite ?(Z.sgn_pos _ K); [discriminate|apply rnd_not_nan|discriminate]. Qed.
Lemma dmul_pos_not_nan a z : a <> NaN -> (0 < z)%Z -> dmul a (Fin z) <> NaN.
Proof. intros H K. destruct a as [| |x|]; try congruence; cbn [dmul dsgn]; rewrite ?(Z.sgn_pos _ K); [discriminate|apply rnd_not_nan|discriminate]. Qed.
Lemma dadd_fin_not_nan z a : a <> NaN -> dadd (Fin z) a <> NaN.
Proof. destruct a; cbn [dadd]; try congruence; intros _; try discriminate. apply rnd_not_nan. Qed.

Local Opaque one_z dhalf d1em14 Z.pow.
Section F.
Context {G : Type} (r : rng G) (RC : rng_contract r) (pw : dbl -> dbl -> dbl) (PC : pow_contract pw).

(** ** The draw in [0,1] *)
Lemma draw01_ok : always (draw01 r) (fun v => exists z, v = Fin z /\ (0 <= z <= one_z)%Z) never.
Proof.
  intros g. destruct (draw_real_ok r RC dzero done g) as (v & E & W1 & W2); [reflexivity|repeat split|].
  unfold draw01. rewrite E. now apply between_fin.
Qed.

Lemma betaq_ok beta eta z : dle done beta = true -> nonneg eta -> isfinite eta = true -> (0 <= z <= one_z)%Z -> nonneg (sbx_betaq pw beta eta (Fin z)).
Proof.
  intros HB HE FE HZ. pose proof (eta_plus eta HE FE) as E1. destruct (one_div_eta _ E1) as [D1 D2].
  assert (NB : nonneg beta) by (eapply dle_trans; [|exact HB]; reflexivity).
  assert (NE : dle (dneg (dadd eta done)) dzero = true).
  { destruct (dadd eta done) as [| |x|]; try discriminate; [|reflexivity]. apply dle_fin in E1. cbn [dneg]. unfold dzero. apply dle_fin. pose proof one_z_pos. lia. }
  assert (P1 : nonneg (pw beta (dneg (dadd eta done)))) by (apply (pow_nonneg pw PC); auto; apply dle_not_nan in NE; tauto).
  pose proof (pow_big pw PC beta (dneg (dadd eta done)) HB NE) as P2. destruct (between_fin _ _ _ P1 P2) as (p & Ep & Hp).
  unfold sbx_betaq. rewrite Ep. destruct (two_minus p Hp) as (al & Ea & Ha). rewrite Ea. pose proof one_z_pos as OP.
  destruct (mul_unit z al HZ ltac:(lia)) as (ua & Eu & Hu). rewrite Eu.
  destruct (dlt (Fin z) (ddiv done (Fin al))).
  - apply (pow_nonneg pw PC); auto. apply nonneg_fin. lia.
  - destruct (two_minus2 ua Hu) as (w & Ew & Hw). rewrite Ew. apply (pow_nonneg pw PC); auto. apply one_div_nonneg. lia.
Qed.

Lemma moderate_sub a b : (Z.abs a <= 2 ^ 2096)%Z -> (Z.abs b <= 2 ^ 2096)%Z -> (Z.abs (a - b) <= 2 ^ 2097 /\ Z.abs (a + b) <= 2 ^ 2097)%Z.
Proof. intros H K. replace (2 ^ 2097)%Z with (2 ^ 2096 + 2 ^ 2096)%Z by (replace 2097%Z with (2096 + 1)%Z by reflexivity; rewrite Z.pow_add_r by lia; lia). lia. Qed.
Lemma moderate_between l u x : moderate l -> moderate u -> within l u x -> exists zl zu zx, l = Fin zl /\ u = Fin zu /\ x = Fin zx /\ (zl <= zx <= zu)%Z /\
  (Z.abs zl <= 2 ^ 2096 /\ Z.abs zu <= 2 ^ 2096 /\ Z.abs zx <= 2 ^ 2096)%Z.
Proof.
  intros (zl & -> & Hl) (zu & -> & Hu) [W1 W2]. destruct (between_fin _ _ _ W1 W2) as (zx & -> & Hx).
  exists zl, zu, zx. repeat (split; auto); lia.
Qed.

Lemma sbx_values_ok a b l u eta z : moderate l -> moderate u -> within l u a -> within l u b -> dlt a b = true -> nonneg eta -> isfinite eta = true -> (0 <= z <= one_z)%Z ->
  within l u (fst (sbx_values pw a b l u eta (Fin z))) /\ within l u (snd (sbx_values pw a b l u eta (Fin z))).
Proof.
  intros Ml Mu Wa Wb LT HE FE HZ. assert (LU : dle l u = true) by (destruct Wa; eapply dle_trans; eauto).
  destruct (moderate_between l u a Ml Mu Wa) as (zl & zu & za & El & Eu & Ea & Ha & Bl & Bu & Ba).
  destruct (moderate_between l u b Ml Mu Wb) as (zl' & zu' & zb & El' & Eu' & Eb & Hb & _ & _ & Bb). subst l u a b. injection El' as <-. injection Eu' as <-.
  cbn in LT. apply Z.ltb_lt in LT.
  destruct (moderate_sub zb za Bb Ba) as [S1 S2]. destruct (dsub_pos_finite za zb LT S1) as (d & Ed & Hd).
  destruct (rnd_finite (za + zb)) as (s & Es); [rewrite Z.add_comm; auto|].
  destruct (moderate_sub za zl Ba Bl) as [S3 _]. destruct (moderate_sub zu zb Bu Bb) as [S4 _].
  assert (B1 : dle done (dadd done (ddiv (dmul dtwo (dsub (Fin za) (Fin zl))) (dsub (Fin zb) (Fin za)))) = true).
  { rewrite Ed. apply dadd_one_ge, ddiv_nonneg; auto. destruct (rnd_finite (za + - zl)) as (q & Eq); [auto|]. cbn [dsub dneg dadd]. rewrite Eq.
    assert (NQ : nonneg (Fin q)) by (rewrite <- Eq; apply rnd_nonneg; lia). apply nonneg_cases in NQ. destruct NQ as [?|(q' & X & NQ)]; [discriminate|]. injection X as <-.
    rewrite dtwo_eq. apply nonneg_dmul_fin; pose proof one_z_pos; lia. }
  assert (B2 : dle done (dadd done (ddiv (dmul dtwo (dsub (Fin zu) (Fin zb))) (dsub (Fin zb) (Fin za)))) = true).
  { rewrite Ed. apply dadd_one_ge, ddiv_nonneg; auto. destruct (rnd_finite (zu + - zb)) as (q & Eq); [auto|]. cbn [dsub dneg dadd]. rewrite Eq.
    assert (NQ : nonneg (Fin q)) by (rewrite <- Eq; apply rnd_nonneg; lia). apply nonneg_cases in NQ. destruct NQ as [?|(q' & X & NQ)]; [discriminate|]. injection X as <-.
    rewrite dtwo_eq. apply nonneg_dmul_fin; pose proof one_z_pos; lia. }
  unfold sbx_values. cbn [fst snd].
  pose proof (betaq_ok _ eta z B1 HE FE HZ) as Q1. pose proof (betaq_ok _ eta z B2 HE FE HZ) as Q2.
  rewrite Ed in *. cbn [dadd] in Q1, Q2 |- *. rewrite Es. 
  split; apply (stick1_spec _ _ _ LU); apply half_not_nan.
  - apply sub_nonneg_not_nan. apply nonneg_dmul; auto.
  - apply add_nonneg_not_nan. apply nonneg_dmul; auto.
Qed.

Lemma stick_or_nan x l u : dle l u = true -> stick1 x l u = NaN \/ within l u (stick1 x l u).
Proof. intros H. destruct (stick1_spec x l u H) as (S1 & _ & S3 & _). destruct x; auto; right; apply S1; discriminate. Qed.

(** ** Vectors *)
Lemma in_box_upd lb ub x i l u v : in_box lb ub x -> nth_error lb i = Some l -> nth_error ub i = Some u -> within l u v -> in_box lb ub (upd x i v).
Proof.
  intros (L1 & L2 & H) El Eu W. split; [now rewrite upd_length|]. split; [now rewrite upd_length|].
  intros j l' u' v' E1 E2 E3. destruct (Nat.eq_dec j i) as [->|NE].
  - assert (Hi : i < length x) by (assert (K : nth_error (upd x i v) i <> None) by congruence; apply nth_error_Some in K; now rewrite upd_length in K).
    rewrite nth_error_upd_eq in E3 by auto. congruence.
  - rewrite nth_error_upd_neq in E3 by auto. eauto.
Qed.
Lemma in_box_nan_upd lb ub x i l u v : in_box_or_nan lb ub x -> nth_error lb i = Some l -> nth_error ub i = Some u -> (v = NaN \/ within l u v) -> in_box_or_nan lb ub (upd x i v).
Proof.
  intros (L1 & L2 & H) El Eu W. split; [now rewrite upd_length|]. split; [now rewrite upd_length|].
  intros j l' u' v' E1 E2 E3. destruct (Nat.eq_dec j i) as [->|NE].
  - assert (Hi : i < length x) by (assert (K : nth_error (upd x i v) i <> None) by congruence; apply nth_error_Some in K; now rewrite upd_length in K).
    rewrite nth_error_upd_eq in E3 by auto. assert (v' = v /\ l' = l /\ u' = u) as (-> & -> & ->) by (repeat split; congruence). exact W.
  - rewrite nth_error_upd_neq in E3 by auto. eauto.
Qed.
Lemma integral_tail_upd n x i v : integral_tail n x -> (i < length x - n \/ integral v) -> integral_tail n (upd x i v).
Proof.
  intros H K j w Hj E. rewrite upd_length in Hj. destruct (Nat.eq_dec j i) as [->|NE].
  - assert (Hi : i < length x) by (assert (X : nth_error (upd x i v) i <> None) by congruence; apply nth_error_Some in X; now rewrite upd_length in X).
    rewrite nth_error_upd_eq in E by auto. injection E as <-. destruct K as [K|K]; [lia|auto].
  - rewrite nth_error_upd_neq in E by auto. eauto.
Qed.
Lemma nth_ex {A} (l : list A) i : i < length l -> exists x, nth_error l i = Some x.
Proof. intros H. destruct (nth_error l i) eqn:E; eauto. apply nth_error_None in E. lia. Qed.

(** ** Crossover *)
Definition good2 (lb ub : list dbl) (nix : nat) (cs : list dbl * list dbl) : Prop :=
  in_box lb ub (fst cs) /\ in_box lb ub (snd cs) /\ integral_tail nix (fst cs) /\ integral_tail nix (snd cs).
Lemma dsub_self z : dsub (Fin z) (Fin z) = Fin 0.
Proof. cbn [dsub dneg dadd]. rewrite Z.add_opp_diag_r. apply rnd_zero. lia. Qed.
Lemma dgt_zero_false x : dgt (dabs (Fin 0)) x = dlt x (Fin 0).
Proof. reflexivity. Qed.
Lemma d1em14_neg : dlt d1em14 (Fin 0) = false.
Proof.
  Local Transparent d1em14. unfold d1em14. rewrite d_of_Z_int by reflexivity. pose proof one_z_pos. apply (dle_dlt_false (Fin 0)). apply ddiv_nonneg; [|lia].
  unfold nonneg. rewrite done_fin. apply dle_fin. lia.
Qed.
Local Opaque d1em14.
Lemma abs_diff_lt a b : dgt (dabs (dsub (Fin a) (Fin b))) d1em14 = true -> a <> b.
Proof. intros H ->. rewrite dsub_self, dgt_zero_false, d1em14_neg in H. discriminate H. Qed.
Lemma sbx_gene_ok p1 p2 lb ub nix eta cs i : in_box lb ub p1 -> in_box lb ub p2 ->
  (forall l, In l lb -> moderate l) -> (forall u, In u ub -> moderate u) -> nonneg eta -> isfinite eta = true ->
  i < length lb - nix -> good2 lb ub nix cs -> always (sbx_gene r pw p1 p2 lb ub eta cs i) (good2 lb ub nix) never.
Proof.
  intros B1 B2 ML MU HE FE Hi (C1 & C2 & I1 & I2). unfold sbx_gene.
  destruct B1 as (L1 & L1' & B1), B2 as (L2 & L2' & B2). pose proof C1 as (K1 & K1' & _). pose proof C2 as (K2 & K2' & _).
  destruct (nth_ex p1 i) as (a & Ea); [lia|]. destruct (nth_ex p2 i) as (b & Eb); [lia|]. destruct (nth_ex lb i) as (l & El); [lia|]. destruct (nth_ex ub i) as (u & Eu); [lia|].
  pose proof (B1 i l u a El Eu Ea) as Wa. pose proof (B2 i l u b El Eu Eb) as Wb.
  eapply always_bind; [apply draw01_ok|]. intros v _.
  eapply always_bind; [eapply always_vget with (Q := eq a); eauto|]. intros ? <-.
  eapply always_bind; [eapply always_vget with (Q := eq b); eauto|]. intros ? <-.
  eapply always_bind; [eapply always_vget with (Q := eq l); eauto|]. intros ? <-.
  eapply always_bind; [eapply always_vget with (Q := eq u); eauto|]. intros ? <-.
  destruct (dlt v dhalf && dgt (dabs (dsub a b)) d1em14 && dneq l u) eqn:EC; [|apply always_ret; split; auto].
  apply andb_true_iff in EC. destruct EC as [EC _]. apply andb_true_iff in EC. destruct EC as [_ EC].
  assert (Ml : moderate l) by (apply ML; eapply nth_error_In; eauto). assert (Mu : moderate u) by (apply MU; eapply nth_error_In; eauto).
  set (yy := if dlt a b then (a, b) else (b, a)).
  assert (Y : within l u (fst yy) /\ within l u (snd yy) /\ dlt (fst yy) (snd yy) = true).
  { unfold yy. destruct (dlt a b) eqn:EL; cbn [fst snd]; [split; [assumption|split; assumption]|]. split; [assumption|]. split; [assumption|].
    destruct (moderate_between l u a Ml Mu Wa) as (_ & _ & za & _ & _ & -> & _). destruct (moderate_between l u b Ml Mu Wb) as (_ & _ & zb & _ & _ & -> & _).
    apply abs_diff_lt in EC. cbn in EL |- *. apply Z.ltb_ge in EL. apply Z.ltb_lt. lia. }
  destruct yy as [y1 y2]. cbn [fst snd] in Y. destruct Y as (Y1 & Y2 & Y3).
  eapply always_bind; [apply draw01_ok|]. intros r01 (z & -> & HZ).
  destruct (sbx_values_ok y1 y2 l u eta z Ml Mu Y1 Y2 Y3 HE FE HZ) as [V1 V2].
  destruct (sbx_values pw y1 y2 l u eta (Fin z)) as [c1 c2]. cbn [fst snd] in V1, V2.
  eapply always_bind; [apply draw01_ok|]. intros w _.
  set (dd := if dlt w dhalf then (c1, c2) else (c2, c1)).
  assert (D : within l u (fst dd) /\ within l u (snd dd)) by (unfold dd; destruct (dlt w dhalf); split; assumption).
  destruct dd as [d1 d2]. cbn [fst snd] in D. destruct D as [D1 D2].
  eapply always_bind; [eapply always_vset with (Q := eq (upd (fst cs) i d1)); [lia|reflexivity]|]. intros ? <-.
  eapply always_bind; [eapply always_vset with (Q := eq (upd (snd cs) i d2)); [lia|reflexivity]|]. intros ? <-.
  apply always_ret. unfold good2. cbn [fst snd]. split; [eapply in_box_upd; eauto|]. split; [eapply in_box_upd; eauto|]. split; apply integral_tail_upd; auto; left; lia.
Qed.
Lemma sbx_swap_ok p1 p2 lb ub nix cs j : good2 lb ub nix (p1, p2) -> good2 lb ub nix cs -> length lb - nix <= j < length lb ->
  always (G := G) (sbx_swap p1 p2 cs j) (good2 lb ub nix) never.
Proof.
  intros (B1 & B2 & T1 & T2) (C1 & C2 & I1 & I2) Hj. cbn [fst snd] in *. unfold sbx_swap.
  pose proof B1 as (L1 & L1' & P1). pose proof B2 as (L2 & L2' & P2). pose proof C1 as (K1 & K1' & _). pose proof C2 as (K2 & K2' & _).
  destruct (nth_ex p1 j) as (a & Ea); [lia|]. destruct (nth_ex p2 j) as (b & Eb); [lia|]. destruct (nth_ex lb j) as (l & El); [lia|]. destruct (nth_ex ub j) as (u & Eu); [lia|].
  eapply always_bind; [eapply always_vget with (Q := eq b); eauto|]. intros ? <-.
  eapply always_bind; [eapply always_vget with (Q := eq a); eauto|]. intros ? <-.
  eapply always_bind; [eapply always_vset with (Q := eq (upd (fst cs) j b)); [lia|reflexivity]|]. intros ? <-.
  eapply always_bind; [eapply always_vset with (Q := eq (upd (snd cs) j a)); [lia|reflexivity]|]. intros ? <-.
  apply always_ret. unfold good2. cbn [fst snd]. split; [eapply in_box_upd; eauto|]. split; [eapply in_box_upd; eauto|]. split.
  - apply integral_tail_upd; auto. right. apply (T2 j); auto. lia.
  - apply integral_tail_upd; auto. right. apply (T1 j); auto. lia.
Qed.
Lemma sbx_impl_ok p1 p2 lb ub nix p_cr eta : good2 lb ub nix (p1, p2) -> (forall l, In l lb -> moderate l) -> (forall u, In u ub -> moderate u) ->
  nix <= length lb -> nonneg eta -> isfinite eta = true ->
  always (sbx_crossover_impl r pw p1 p2 lb ub nix p_cr eta) (good2 lb ub nix) never.
Proof.
  intros GP ML MU NX HE FE. pose proof GP as (B1 & B2 & T1 & T2). cbn [fst snd] in *. unfold sbx_crossover_impl.
  assert (LEN : length p1 = length lb) by apply B1. rewrite LEN.
  eapply always_bind; [apply draw01_ok|]. intros v _. destruct (dlt v p_cr); [|apply always_ret; exact GP].
  eapply always_bind.
  - apply (always_fold _ (good2 lb ub nix)); [|exact GP]. intros s a Ha Hs. apply in_seq in Ha. apply sbx_gene_ok; auto. lia.
  - intros cs Hcs. destruct (Nat.ltb_spec 0 nix); [|now apply always_ret].
    assert (DI : always (draw_int r (Z.of_nat (length lb - nix)) (Z.of_nat (length lb) - 1)) (fun k => (Z.of_nat (length lb - nix) <= k <= Z.of_nat (length lb) - 1)%Z) never).
    { intros g. unfold draw_int. destruct (Z.leb_spec (Z.of_nat (length lb - nix)) (Z.of_nat (length lb) - 1)); [|lia].
      unfold rdraw. pose proof (int_in r RC _ _ g H0) as I. destruct (g_int r _ _ g). exact I. }
    eapply always_bind; [exact DI|]. intros s1 H1. eapply always_bind; [exact DI|]. intros s2 H2. cbv beta in H1, H2.
    apply (always_fold _ (good2 lb ub nix)); [|exact Hcs]. intros s a Ha Hs. apply in_seq in Ha. apply sbx_swap_ok; auto. lia.
Qed.
End F.
