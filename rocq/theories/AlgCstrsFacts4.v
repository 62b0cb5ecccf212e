From Coq Require Import List Bool Arith ZArith Lia.
From Verif Require Import Dbl DblFacts IntDbl Outcome BaseFacts Problem SpecProblem ProblemFacts Generic Population SpecPopulation PopulationFacts SpecAlgo AlgoFacts2 AlgCstrs SpecCstrs AlgCstrsFacts.
Import ListNotations.

(** ** Signs *)
Definition nn (v : dbl) : Prop := v = NaN \/ nonneg v.
Lemma nn_cases v : nn v <-> v = NaN \/ v = PInf \/ exists z, v = Fin z /\ (0 <= z)%Z.
Proof. unfold nn. rewrite nonneg_cases. tauto. Qed.
Lemma nn_zero : nn dzero.
Proof. right. reflexivity. Qed.
Lemma nn_add a b : nn a -> nn b -> nn (dadd a b).
Proof. intros [->|A] [->|B]; [left; reflexivity|left; reflexivity|left; destruct a; reflexivity|right; now apply dadd_nonneg]. Qed.
Lemma nn_mul a b : nn a -> nn b -> nn (dmul a b).
Proof.
  rewrite !nn_cases. intros [->|[->|(x & -> & Hx)]] [->|[->|(y & -> & Hy)]]; cbn [dmul]; auto.
  - cbn [dsgn]. rewrite Z.mul_1_l. unfold sgn_inf. destruct (Z.ltb_spec (Z.sgn y) 0); [lia|]. destruct (0 <? Z.sgn y)%Z; auto.
  - cbn [dsgn]. rewrite Z.mul_1_r. unfold sgn_inf. destruct (Z.ltb_spec (Z.sgn x) 0); [lia|]. destruct (0 <? Z.sgn x)%Z; auto.
  - pose proof (rnd_nonneg (x * y) one_z ltac:(nia) one_z_pos) as R. apply nonneg_cases in R. destruct R; auto.
Qed.
Lemma nn_div a b : nn a -> nn b -> nn (ddiv a b).
Proof.
  rewrite !nn_cases. intros [->|[->|(x & -> & Hx)]] [->|[->|(y & -> & Hy)]]; cbn [ddiv]; auto.
  - destruct (Z.ltb_spec y 0); [lia|]. auto.
  - right. right. exists 0%Z. split; [reflexivity|lia].
  - destruct (Z.eqb_spec y 0).
    + unfold sgn_inf. destruct (Z.ltb_spec (Z.sgn x) 0); [lia|]. destruct (0 <? Z.sgn x)%Z; auto.
    + destruct (Z.ltb_spec y 0); [lia|]. pose proof one_z_pos. pose proof (rnd_nonneg (x * one_z) y ltac:(nia) ltac:(lia)) as R. apply nonneg_cases in R. destruct R; auto.
Qed.
Lemma nn_abs a : nn (dabs a).
Proof. apply nn_cases. destruct a; cbn [dabs]; auto. right. right. eexists. split; [reflexivity|lia]. Qed.
(** Not smaller: the difference is not negative *)
Lemma nn_sub a b : dlt a b = false -> nn (dsub a b).
Proof.
  apply (fun H => H). intros H. apply nn_cases. unfold dsub. destruct a as [| |x|], b as [| |y|]; cbn [dneg dadd]; auto; try discriminate H.
  assert (y <= x)%Z by (cbn in H; apply Z.ltb_ge in H; exact H).
  pose proof (rnd_nonneg (x + - y) 1 ltac:(lia) ltac:(lia)) as R. apply nonneg_cases in R. destruct R; auto.
Qed.
Lemma dadd_zero_r f : is_double f -> dadd f dzero = f.
Proof. intros D. destruct f as [| |z|]; try reflexivity. cbn [dadd dzero]. rewrite Z.add_0_r. now apply rnd_exact. Qed.
Lemma add_nn_ge f v : is_double f -> nn v -> le_or_nan f (dadd f v).
Proof.
  intros D [->|N]; [right; left; destruct f; reflexivity|]. rewrite <- (dadd_zero_r f D) at 1. apply dadd_mono; [|right; right; exact N].
  destruct f as [| |z|]; [now left|right; right; reflexivity|right; right; apply dle_refl; discriminate|right; right; reflexivity].
Qed.
Lemma dadd_double a b : is_double a -> is_double b -> is_double (dadd a b).
Proof. intros A B. destruct a as [| |x|], b as [| |y|]; try exact A; try exact B; try exact I. apply rnd_is_double. lia. Qed.

Lemma div_zero m : dgt m dzero = true -> ddiv dzero m = dzero.
Proof.
  intros H. destruct m as [| |z|]; try discriminate H; [|reflexivity]. apply Z.ltb_lt in H. unfold dzero. cbn [ddiv].
  destruct (Z.eqb_spec z 0); [lia|]. destruct (Z.ltb_spec z 0); [lia|]. rewrite Z.mul_0_l. apply rnd_zero. lia.
Qed.

Section U.
Context (p : problem) (PO : prob_obj p).
Let nc := get_nc p.
Lemma nc_div : 0 < nc -> ddiv dzero (d_of_Z (Z.of_nat nc)) = dzero.
Proof.
  intros N. unfold d_of_Z, dzero. pose proof one_z_pos. pose proof (rnd_nat_ge1 (Z.abs (Z.of_nat nc * one_z)) 1 ltac:(lia) ltac:(nia)) as R.
  unfold rnd. destruct (Z.leb_spec ovf_z (rnd_nat (Z.abs (Z.of_nat nc * one_z)) 1)).
  - destruct (Z.ltb_spec (Z.sgn (Z.of_nat nc * one_z)) 0); reflexivity.
  - replace (Z.sgn (Z.of_nat nc * one_z)) with 1%Z by (symmetry; apply Z.sgn_pos; nia). rewrite Z.mul_1_l. generalize dependent (rnd_nat (Z.abs (Z.of_nat nc * one_z)) 1). intros m M1 M2.
    cbn [ddiv]. destruct (Z.eqb_spec m 0); [lia|]. destruct (Z.ltb_spec m 0); [lia|]. rewrite Z.mul_0_l. apply rnd_zero. lia.
Qed.
(** Zero terms *)
Lemma infeas_zero cm f : 0 < nc -> length cm = nc -> length f = S nc -> (forall j, j < nc -> breach p f j = dzero \/ dgt (nth j cm NaN) dzero = false) ->
  compute_infeasibility cm (p_nec p) nc (p_ctol p) f = Ok dzero.
Proof.
  intros N Lc Lf Z. unfold compute_infeasibility.
  assert (E : forall l, (forall j, In j l -> j < nc) -> mfold (fun a j => bind (vget cm j) (fun m => if dgt m dzero then bind (violation (p_nec p) (p_ctol p) f j) (fun v => Ok (dadd a (ddiv v m))) else Ok a)) dzero l = Ok dzero).
  { induction l as [|j l IH]; intros Hl; [reflexivity|]. cbn [mfold]. assert (Hj : j < nc) by (apply Hl; now left). rewrite (vget_nth cm j NaN) by lia. cbn [bind].
    destruct (dgt (nth j cm NaN) dzero) eqn:G.
    - rewrite (violation_eq p PO f j Lf Hj). cbn [bind]. destruct (Z j Hj) as [->|X]; [|congruence]. rewrite (div_zero _ G). change (dadd dzero dzero) with dzero. apply IH. intros; apply Hl; now right.
    - cbn [bind]. apply IH. intros; apply Hl; now right. }
  rewrite E by (intros j Hj; apply in_seq in Hj; lia). cbn [bind]. now rewrite nc_div.
Qed.
Lemma pen_feasible dexp g f : 0 < nc -> length (pn_cmax g) = nc -> length f = S nc -> no_breach p f -> pen_value dexp g p f = Ok (obj f).
Proof.
  intros N Lc Lf NE. unfold pen_value. rewrite (vget_nth f 0 NaN) by lia. cbn [bind]. fold nc. rewrite infeas_zero by auto. cbn [bind]. reflexivity.
Qed.
Lemma c_max_zero F : (forall f, In f F -> length f = S nc /\ no_breach p f) -> compute_c_max (p_nec p) nc (p_ctol p) F = Ok (repeat dzero nc).
Proof.
  intros H. unfold compute_c_max. induction F as [|f F IH]; [reflexivity|]. cbn [mfold]. destruct (H f (or_introl eq_refl)) as [Lf NE].
  assert (E : forall l, (forall j, In j l -> j < nc) -> mfold (fun cm j => bind (vget cm j) (fun m => bind (violation (p_nec p) (p_ctol p) f j) (fun v => vset cm j (dmax m v)))) (repeat dzero nc) l = Ok (repeat dzero nc)).
  { induction l as [|j l IHl]; intros Hl; [reflexivity|]. cbn [mfold]. assert (Hj : j < nc) by (apply Hl; now left). rewrite (vget_nth _ j NaN) by (now rewrite repeat_length). cbn [bind].
    rewrite (violation_eq p PO f j Lf Hj). cbn [bind]. rewrite (NE j Hj). rewrite vset_in_range by (now rewrite repeat_length). cbn [bind].
    replace (upd (repeat dzero nc) j (dmax (nth j (repeat dzero nc) NaN) dzero)) with (repeat dzero nc); [apply IHl; intros; apply Hl; now right|].
    apply list_ext_nth with (d := dzero); [now rewrite upd_length|]. intros i Hi. rewrite repeat_length in Hi.
    assert (R : forall i d, i < nc -> nth i (repeat dzero nc) d = dzero) by (intros k d Hk; apply (repeat_spec nc); apply nth_In; now rewrite repeat_length).
    destruct (Nat.eq_dec j i) as [->|NQ]; [rewrite nth_upd_eq by (now rewrite repeat_length); rewrite !R by assumption; reflexivity|rewrite nth_upd_neq by exact NQ; reflexivity]. }
  rewrite E by (intros j Hj; apply in_seq in Hj; lia). cbn [bind]. apply IH. intros; apply H; now right.
Qed.
Lemma filter_all {A} (f : A -> bool) l : (forall a, In a l -> f a = true) -> filter f l = l.
Proof. induction l as [|a l IH]; intros H; [reflexivity|]. cbn. rewrite (H a) by now left. f_equal. apply IH. intros; apply H; now right. Qed.
Lemma pen_all_feasible dexp X F g h : 0 < nc -> 0 < length F -> (forall f, In f F -> length f = S nc /\ no_breach p f) -> length h = S nc ->
  pen_update p X F = Ok g -> pen_value dexp g p h = Ok (obj h).
Proof.
  intros N NF H Lh E. unfold pen_update in E. fold nc in E. rewrite c_max_zero in E by exact H. cbn [bind] in E.
  destruct (mmap (compute_infeasibility (repeat dzero nc) (p_nec p) nc (p_ctol p)) F) as [Iv| | |] eqn:EI; cbn [bind] in E; try discriminate E.
  assert (IZ : forall i, i < length F -> nth i Iv dzero = dzero).
  { intros i Hi. destruct (nth_error F i) as [f|] eqn:EF; [|apply nth_error_None in EF; lia]. destruct (mmap_ok_nth _ _ _ i f EI EF) as (v & Hv & Ev).
    apply nth_error_nth with (d := dzero) in Hv. destruct (H f (nth_error_In _ _ EF)) as [Lf NE]. rewrite infeas_zero in Ev; [|exact N|apply repeat_length|exact Lf|auto]. congruence. }
  rewrite (filter_all (fun i => negb (dgt (nth i Iv dzero) dzero))), seq_length, Nat.eqb_refl in E by (intros i Hi; apply in_seq in Hi; rewrite IZ by lia; reflexivity).
  destruct (obj_at F 0); cbn [bind] in E; try discriminate E. injection E as <-.
  unfold pen_value. cbn [pn_cmax]. rewrite (vget_nth h 0 NaN) by lia. cbn [bind]. fold nc. rewrite infeas_zero; [reflexivity|exact N|apply repeat_length|exact Lh|].
  intros j Hj. right. rewrite (nth_indep _ NaN dzero) by (now rewrite repeat_length). rewrite nth_repeat. reflexivity.
Qed.
End U.
