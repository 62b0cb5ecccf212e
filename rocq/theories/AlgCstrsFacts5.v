From Coq Require Import List Bool Arith ZArith Lia.
From Verif Require Import Dbl DblFacts IntDbl Outcome BaseFacts Problem SpecProblem ProblemFacts Generic Population SpecPopulation PopulationFacts SpecAlgo AlgoFacts2 AlgCstrs SpecCstrs AlgCstrsFacts AlgCstrsFacts4.
Import ListNotations.

Lemma dadd_any_double a b : is_double (dadd a b).
Proof. destruct a as [| |x|], b as [| |y|]; try exact I. apply rnd_is_double. lia. Qed.
Lemma scan_inv (I : nat -> Prop) c l : forall b h, I b -> (forall i b, In i l -> I b -> c i b = Ok true -> I i) -> scan c b l = Ok h -> I h.
Proof.
  induction l as [|i l IH]; intros b h Hb S E; [injection E as <-; exact Hb|]. unfold scan in E. cbn [mfold] in E.
  destruct (c i b) as [k|e| |] eqn:Ec; cbn [bind] in E; try discriminate E. apply (IH (if k : bool then i else b) h); [|intros j b' Hj; apply S; now right|exact E].
  destruct k; [apply (S i b); [now left|exact Hb|exact Ec]|exact Hb].
Qed.

Section U.
Context (p : problem) (PO : prob_obj p).
Let nc := get_nc p.
Lemma breach_nn f j : nn (breach p f j).
Proof.
  unfold breach. set (v := dsub _ _). unfold dmax. destruct (dlt dzero v) eqn:E; [|apply nn_zero]. apply nn_cases. destruct v as [| |z|]; try discriminate E; auto. apply Z.ltb_lt in E. right. right. exists z. split; [reflexivity|lia].
Qed.
Lemma pos_nn m : dgt m dzero = true -> nn m.
Proof. intros H. apply nn_cases. destruct m as [| |z|]; try discriminate H; auto. apply Z.ltb_lt in H. right. right. exists z. split; [reflexivity|lia]. Qed.
Lemma d_of_nat_nn k : nn (d_of_Z (Z.of_nat k)).
Proof. right. unfold d_of_Z. apply rnd_nonneg; [pose proof one_z_pos; nia|lia]. Qed.
Lemma infeas_nn cm f v : length cm = nc -> length f = S nc -> compute_infeasibility cm (p_nec p) nc (p_ctol p) f = Ok v -> nn v.
Proof.
  intros Lc Lf E. unfold compute_infeasibility in E.
  destruct (mfold_total nn (fun a j => bind (vget cm j) (fun m => if dgt m dzero then bind (violation (p_nec p) (p_ctol p) f j) (fun v => Ok (dadd a (ddiv v m))) else Ok a)) (seq 0 nc) dzero nn_zero) as (a & E2 & NA).
  { intros a j Hj NA. apply in_seq in Hj. rewrite (vget_nth cm j NaN) by lia. cbn [bind]. destruct (dgt (nth j cm NaN) dzero) eqn:G; [|eauto]. rewrite (violation_eq p PO) by (auto; fold nc; lia). cbn [bind].
    eexists. split; [reflexivity|]. apply nn_add; [exact NA|]. apply nn_div; [apply breach_nn|now apply pos_nn]. }
  rewrite E2 in E. cbn [bind] in E. injection E as <-. apply nn_div; [exact NA|apply d_of_nat_nn].
Qed.

Section F.
Context (F : list (list dbl)) (LF : forall f, In f F -> length f = S nc) (PF : forall f, In f F -> positive_obj f).
Notation o i := (obj (nth i F [])).
Lemma o_pos i : i < length F -> exists z, o i = Fin z /\ (0 < z)%Z.
Proof. intros H. apply PF. now apply nth_In. Qed.
Lemma scan_max l : forall b h, b < length F -> (forall i, In i l -> i < length F) -> scan (fun i b => obj_less F b i) b l = Ok h -> h < length F /\ forall i, In i (b :: l) -> dlt (o h) (o i) = false.
Proof.
  induction l as [|k l IH]; intros b h Hb Hl E.
  - injection E as <-. split; [exact Hb|]. intros i [<-|[]]. destruct (o_pos b Hb) as (z & -> & _). cbn. apply Z.ltb_irrefl.
  - unfold scan in E. cbn [mfold] in E. assert (Hk : k < length F) by (apply Hl; now left). rewrite (obj_less_ok p F b k LF Hb Hk) in E. cbn [bind] in E.
    set (b' := if dlt (o b) (o k) then k else b) in E. assert (Hb' : b' < length F) by (unfold b'; destruct (dlt _ _); assumption).
    destruct (IH b' h Hb' (fun i Hi => Hl i (or_intror Hi)) E) as [Hh M]. split; [exact Hh|]. pose proof (M b' (or_introl eq_refl)) as Mb.
    destruct (o_pos b Hb) as (zb & Eb & _), (o_pos k Hk) as (zk & Ek & _), (o_pos h Hh) as (zh & Eh & _).
    intros i [<-|[<-|Hi]]; [| |apply M; now right]; unfold b' in Mb; rewrite Eb, Ek in Mb; cbn in Mb; rewrite Eh in Mb |- *.
    + rewrite Eb. cbn. apply Z.ltb_ge. destruct (Z.ltb_spec zb zk); [rewrite Ek in Mb|rewrite Eb in Mb]; apply Z.ltb_ge in Mb; lia.
    + rewrite Ek. cbn. apply Z.ltb_ge. destruct (Z.ltb_spec zb zk); [rewrite Ek in Mb|rewrite Eb in Mb]; apply Z.ltb_ge in Mb; lia.
Qed.
(** What update() finds when an individual is feasible *)
Definition sane (g : pen) : Prop :=
  nn (pn_scale g) /\ (pn_p1 g = true -> dlt (pn_fdown g) (pn_fup g) = false) /\ (pn_idown g = dzero \/ pn_idown g = NaN) /\ nn (pn_iup g).
Lemma update_sane X g : 0 < nc -> (exists f, In f F /\ no_breach p f) -> pen_update p X F = Ok g -> sane g.
Proof.
  intros N (f0 & If0 & NE) E. unfold pen_update in E. fold nc in E. destruct (c_max_ok p PO F LF) as (cm & E1 & L1). fold nc in E1, L1. rewrite E1 in E. cbn [bind] in E.
  destruct (mmap (compute_infeasibility cm (p_nec p) nc (p_ctol p)) F) as [Iv| | |] eqn:EI; cbn [bind] in E; try discriminate E.
  pose proof (mmap_ok_length _ _ _ EI) as LI. assert (NF : 0 < length F) by (destruct F; [destruct If0|cbn; lia]).
  assert (INN : forall i d, i < length F -> nn (nth i Iv d)).
  { intros i d Hi. destruct (nth_error F i) as [f|] eqn:EF; [|apply nth_error_None in EF; lia]. destruct (mmap_ok_nth _ _ _ i f EI EF) as (v & Hv & Ev).
    apply nth_error_nth with (d := d) in Hv. rewrite Hv. apply (infeas_nn cm f v L1 (LF f (nth_error_In _ _ EF)) Ev). }
  cbv zeta in E. set (feas := filter (fun i => negb (dgt (nth i Iv dzero) dzero)) (seq 0 (length F))) in E. set (infe := filter (fun i => dgt (nth i Iv dzero) dzero) (seq 0 (length F))) in E.
  assert (FL : forall i, In i feas -> i < length F /\ (nth i Iv dzero = dzero \/ nth i Iv dzero = NaN)).
  { intros i Hi. apply filter_In in Hi. destruct Hi as [Hi G]. apply in_seq in Hi. split; [lia|]. pose proof (INN i dzero ltac:(lia)) as [->|Q]; [now right|]. left. apply nonneg_cases in Q. destruct Q as [Q|(z & Q & Hz)]; rewrite Q in *; [discriminate G|].
    cbn in G. destruct (Z.ltb_spec 0 z); [discriminate G|]. unfold dzero. f_equal. lia. }
  assert (IL : forall i, In i infe -> i < length F) by (intros i Hi; apply filter_In in Hi; destruct Hi as [Hi _]; apply in_seq in Hi; lia).
  destruct (Nat.eqb_spec (length feas) (length F)) as [EQ|NQ].
  { destruct (obj_at F 0); cbn [bind] in E; try discriminate E. injection E as <-. split; [apply nn_zero|]. split; [discriminate|]. split; [now left|apply nn_zero]. }
  destruct feas as [|d0 feas'] eqn:EFE.
  { exfalso. apply In_nth_error in If0. destruct If0 as (i & Hi). assert (LT : i < length F) by (apply nth_error_Some; congruence).
    destruct (mmap_ok_nth _ _ _ i f0 EI Hi) as (v & Hv & Ev). pose proof (infeas_zero p PO cm f0 N L1 (LF f0 (nth_error_In _ _ Hi)) (fun j Hj => or_introl (NE j Hj))) as IZ. fold nc in IZ. rewrite IZ in Ev. injection Ev as <-.
    apply nth_error_nth with (d := dzero) in Hv. assert (In i feas); [|rewrite EFE in *; auto]. apply filter_In. split; [apply in_seq; lia|]. now rewrite Hv. }
  destruct (pen_hats F Iv (d0 :: feas') infe) as [[[hd hu] p1]| | |] eqn:EH; cbn [bind] in E; try discriminate E.
  destruct (scan (fun i b => obj_less F b i) 0 (seq 1 (length F - 1))) as [hr| | |] eqn:ER; cbn [bind] in E; try discriminate E.
  assert (SQ : forall i, In i (seq 1 (length F - 1)) -> i < length F) by (intros i Hi; apply in_seq in Hi; lia).
  destruct (scan_max _ 0 hr NF SQ ER) as [Hr MX].
  assert (MXA : forall i, i < length F -> dlt (o hr) (o i) = false) by (intros i Hi; apply MX; destruct i; [now left|right; apply in_seq; lia]).
  assert (HH : In hd (d0 :: feas') /\ hu < length F /\ (p1 = true -> dlt (o hd) (o hu) = false)).
  { cbn [pen_hats] in EH. destruct (scan (obj_less F) d0 feas') as [hd'| | |] eqn:ED; cbn [bind] in EH; try discriminate EH.
    assert (I1 : In hd' (d0 :: feas')) by (apply (scan_inv (fun h => In h (d0 :: feas')) (obj_less F) feas' d0 hd'); [now left|intros i b Hi _ _; now right|exact ED]).
    destruct (FL hd' I1) as [HD _]. rewrite (obj_at_ok p F hd' LF HD) in EH. cbn [bind] in EH.
    destruct (first_below_ok p F (o hd') infe LF IL) as (ob & EB & HB). rewrite EB in EH. cbn [bind] in EH. destruct ob as [u0|].
    - match type of EH with bind ?m _ = _ => destruct m as [hu'| | |] eqn:ES; cbn [bind] in EH; try discriminate EH end. injection EH as <- <- <-. split; [exact I1|].
      destruct (HB u0 eq_refl) as [Iu Du].
      assert (J : hu' < length F /\ dlt (o hu') (o hd') = true).
      { eapply (scan_inv (fun h => h < length F /\ dlt (o h) (o hd') = true) _ infe u0 hu'); [split; auto| |exact ES]. intros i b Hi _ Ec. cbv beta in Ec. rewrite (obj_at_ok p F i LF (IL i Hi)) in Ec. cbn [bind] in Ec. split; [auto|].
        destruct (dlt (o i) (o hd')); [reflexivity|discriminate Ec]. }
      destruct J as [J1 J2]. split; [exact J1|]. intros _. destruct (o_pos hd' HD) as (a & Ea & _), (o_pos hu' J1) as (b & Eb & _). rewrite Ea, Eb in *. cbn in *. apply Z.ltb_lt in J2. apply Z.ltb_ge. lia.
    - destruct (vget infe 0) as [u0| | |] eqn:EV; cbn [bind] in EH; try discriminate EH.
      match type of EH with bind ?m _ = _ => destruct m as [hu'| | |] eqn:ES; cbn [bind] in EH; try discriminate EH end. injection EH as <- <- <-. split; [exact I1|].
      split; [|discriminate]. apply IL. apply vget_ok in EV. eapply (scan_inv (fun h => In h infe) _ (tl infe) u0 hu'); [eapply nth_error_In; eauto| |exact ES]. intros i b Hi _ _. destruct infe; [destruct Hi|now right]. }
  destruct HH as (I1 & Hu & P1). destruct (FL hd I1) as [HD DI].
  rewrite (obj_at_ok p F hd LF HD) in E. cbn [bind] in E. rewrite (obj_at_ok p F hu LF Hu) in E. cbn [bind] in E. rewrite (obj_at_ok p F hr LF Hr) in E. cbn [bind] in E.
  rewrite (vget_nth Iv hd dzero) in E by lia. cbn [bind] in E. rewrite (vget_nth Iv hu dzero) in E by lia. cbn [bind] in E. injection E as <-. unfold sane. cbn [pn_scale pn_p1 pn_fdown pn_fup pn_idown pn_iup].
  split; [|split; [exact P1|split; [exact DI|apply INN, Hu]]].
  assert (ON : forall i, i < length F -> nn (o i)) by (intros i Hi; destruct (o_pos i Hi) as (z & -> & Hz); apply nn_cases; right; right; exists z; split; [reflexivity|lia]).
  unfold scaling. destruct (deq _ _); [apply nn_zero|]. destruct (dle _ _); apply nn_div; [apply nn_sub; auto|auto|apply nn_sub; auto|auto].
Qed.
End F.

Lemma le_or_nan_lt a b c : le_or_nan a b -> le_or_nan b c -> (b = NaN -> c = NaN) -> dlt c a = false.
Proof.
  intros H1 H2 H3.
  destruct H1 as [->|[->|H1]]; [destruct c; reflexivity|rewrite (H3 eq_refl); reflexivity|]. destruct H2 as [->|[->|H2]]; [destruct (dle_not_nan _ _ H1); contradiction|reflexivity|].
  pose proof (dle_trans _ _ _ H1 H2) as T. destruct a, c; try reflexivity; try discriminate T. apply dle_fin in T. cbn. apply Z.ltb_ge. exact T.
Qed.
Lemma penalize_ge dexp g f inf : (forall y, nn y -> dlt (dexp y) done = false) -> sane g -> is_double f -> dlt (penalize dexp g f inf) f = false.
Proof.
  intros EX (S1 & S2 & S3 & S4) D. unfold penalize. destruct (dgt inf dzero) eqn:G; [|destruct f as [| |z|]; try reflexivity; cbn; apply Z.ltb_irrefl].
  pose proof (pos_nn inf G) as NI.
  set (t := if dneq (pn_iup g) (pn_idown g) then _ else inf).
  assert (NT : nn t).
  { unfold t. destruct (dneq _ _); [|exact NI]. destruct S3 as [-> | ->].
    - apply nn_div; apply nn_sub; [|clear -S4; apply nn_cases in S4; destruct S4 as [->|[->|(z & -> & Hz)]]; try reflexivity; cbn; apply Z.ltb_ge; lia].
      clear -NI. apply nn_cases in NI. destruct NI as [->|[->|(z & -> & Hz)]]; try reflexivity. cbn. apply Z.ltb_ge. lia.
    - left. destruct inf; reflexivity. }
  set (f1 := if pn_p1 g then _ else f).
  assert (F1 : le_or_nan f f1 /\ is_double f1).
  { unfold f1. destruct (pn_p1 g) eqn:P1; [split; [apply add_nn_ge; [exact D|]; apply nn_mul; [exact NT|apply nn_sub, S2; reflexivity]|apply dadd_any_double]|]. split; [|exact D]. destruct f as [| |z|]; [now left|right; right; reflexivity|right; right; apply dle_refl; discriminate|right; right; reflexivity]. }
  destruct F1 as [F1 D1]. assert (N2 : nn dtwo) by (apply (d_of_nat_nn 2)).
  apply (le_or_nan_lt f f1); [exact F1| |intros ->; reflexivity].
  apply add_nn_ge; [exact D1|]. apply nn_mul; [apply nn_mul; [exact S1|apply nn_abs]|]. apply nn_div; apply nn_sub; apply EX; [apply nn_mul; assumption|exact N2].
Qed.
Lemma pen_not_better dexp X F g h v : (forall y, dlt y dzero = false -> dlt (dexp y) done = false) -> 0 < nc -> (forall f, In f F -> length f = S nc /\ positive_obj f) -> (exists f, In f F /\ no_breach p f) ->
  pen_update p X F = Ok g -> length h = S nc -> is_double (obj h) -> pen_value dexp g p h = Ok v -> dlt v (obj h) = false.
Proof.
  intros EX N HF FE EU Lh D EV. unfold pen_value in EV. rewrite (vget_nth h 0 NaN) in EV by lia. cbn [bind] in EV. destruct (compute_infeasibility _ _ _ _ h) as [inf| | |]; cbn [bind] in EV; try discriminate EV. injection EV as <-.
  apply penalize_ge; [|apply (update_sane F (fun f Hf => proj1 (HF f Hf)) (fun f Hf => proj2 (HF f Hf)) X g N FE EU)|exact D].
  intros y Hy. apply EX. apply nn_cases in Hy. destruct Hy as [->|[->|(z & -> & Hz)]]; try reflexivity. cbn. apply Z.ltb_ge. exact Hz.
Qed.
End U.
