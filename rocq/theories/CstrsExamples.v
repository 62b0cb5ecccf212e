(** Populations for the self-adaptive constraint handling. *)
From Coq Require Import List Bool Arith ZArith Lia.
From Verif Require Import Dbl DblFacts IntDbl Outcome BaseFacts StdSort Problem SpecProblem ProblemFacts Generic Rng Constrained SpecConstrained ConstrainedFacts ConstrainedFacts2 Population SpecPopulation PopulationFacts Algo SpecAlgo AlgoFacts2 AlgPsoFacts4 AlgIhsFacts2 SpecHarmony AlgCstrs SpecCstrs AlgCstrsFacts AlgCstrsFacts2 AlgCstrsFacts4 AlgCstrsFacts5.
Import ListNotations.

(** Four individuals of a problem with one inequality constraint *)
Definition four_pop (fit : list dbl -> outcome (list dbl)) (F : list (list dbl)) : pop (list Z) :=
  {| po_prob := con_problem fit; po_fevals := 4; po_id := [7; 8; 9; 10]%Z; po_x := [[Fin 0; Fin 1]; [Fin 1; Fin 2]; [Fin 2; Fin 2]; [Fin 3; Fin 3]]; po_f := F; po_cx := []; po_cf := []; po_rng := [] |}.
Lemma four_valid fit a1 a2 a3 a4 b1 b2 b3 b4 : valid_pop (four_pop fit [[a1; b1]; [a2; b2]; [a3; b3]; [a4; b4]]).
Proof.
  split; [exact (obj_new _ _ (con_problem_gen fit))|]. split; [|left; split; reflexivity]. split; [reflexivity|]. split; [reflexivity|].
  split; [intros x [<-|[<-|[<-|[<-|[]]]]]; reflexivity|]. split; [intros x [<-|[<-|[<-|[<-|[]]]]]; reflexivity|]. intros i [<-|[<-|[<-|[<-|[]]]]]; lia.
Qed.
(** Negative objective values: the feasible -2, 1, 0 and the infeasible -1 *)
Definition neg_pop := four_pop con_fit [[Fin (-2); Fin 0]; [Fin (-1); Fin 1]; [Fin 1; Fin 0]; [Fin 0; Fin 0]].
(** No feasible individual *)
Definition inf_pop := four_pop con_fit [[Fin 1; Fin 1]; [Fin 3; Fin 2]; [Fin 2; Fin 1]; [Fin 2; Fin 2]].
(** The infeasible individual has the largest objective *)
Definition top_pop := four_pop con_fit [[Fin 1; Fin 0]; [Fin 3; Fin 1]; [Fin 2; Fin 0]; [Fin 1; Fin 0]].
(** ** Arithmetic *)
Lemma rnd_tiny k d : (Z.abs k < 2 ^ 53)%Z -> (0 < d)%Z -> rnd (k * d) d = Fin k.
Proof.
  intros H D. unfold rnd. assert (E : rnd_nat (Z.abs (k * d)) d = Z.abs k).
  { replace (Z.abs (k * d)) with (Z.abs k * 2 ^ 0 * d)%Z by (rewrite Z.pow_0_r; nia). rewrite (rnd_nat_exact (Z.abs k) 0 d) by lia. rewrite Z.pow_0_r. lia. }
  rewrite E. assert (O : (ovf_z <=? Z.abs k)%Z = false).
  { apply Z.leb_gt. apply Z.lt_le_trans with (2 ^ 53)%Z; [exact H|]. apply Z.leb_le. vm_compute. reflexivity. }
  rewrite O. f_equal. destruct (Z.eq_dec k 0) as [->|N]; [reflexivity|]. replace (Z.sgn (k * d)) with (Z.sgn k) by (rewrite Z.sgn_mul, (Z.sgn_pos d) by lia; lia). lia.
Qed.
Lemma one_pos : (0 < one_z)%Z. Proof. exact one_z_pos. Qed.
Lemma ddiv_self z : (0 < z)%Z -> ddiv (Fin z) (Fin z) = done.
Proof.
  intros H. cbn [ddiv]. destruct (Z.eqb_spec z 0); [lia|]. destruct (Z.ltb_spec z 0); [lia|]. rewrite Z.mul_comm. replace (one_z * z)%Z with (1 * one_z * z)%Z by lia. rewrite rnd_int by lia. symmetry. apply done_int.
Qed.
Lemma dmul_done_tiny k : (Z.abs k < 2 ^ 53)%Z -> dmul done (Fin k) = Fin k /\ dmul (Fin k) done = Fin k.
Proof. intros H. unfold done. cbn [dmul]. rewrite (Z.mul_comm one_z k). rewrite rnd_tiny by (auto; exact one_pos). auto. Qed.
Lemma dsub_done_zero : dsub done dzero = done.
Proof. rewrite done_int, dzero_int. now apply dsub_lit. Qed.
Lemma dadd_zero_done : dadd dzero done = done.
Proof. rewrite done_int, dzero_int. now apply dadd_lit. Qed.
Lemma d_of_1 : d_of_Z 1 = done.
Proof. rewrite done_int. now apply d_of_Z_lit. Qed.
Lemma two_done : dmul dtwo done = dtwo.
Proof. unfold dtwo. rewrite done_int, (d_of_Z_lit 2) by reflexivity. now apply dmul_lit. Qed.
Lemma half_eq : ddiv (Fin 1) (Fin 2) = Fin (2 ^ 1073).
Proof.
  cbn [ddiv]. change (2 =? 0)%Z with false. change (2 <? 0)%Z with false. cbv iota. rewrite Z.mul_1_l. unfold rnd.
  assert (E : rnd_nat (Z.abs one_z) 2 = (2 ^ 1073)%Z).
  { replace (Z.abs one_z) with (1 * 2 ^ 1073 * 2)%Z; [rewrite (rnd_nat_exact 1 1073 2) by lia; now rewrite Z.mul_1_l|]. rewrite Z.abs_eq by (pose proof one_pos; lia). unfold one_z. rewrite Z.mul_1_l, Z.mul_comm. symmetry. change 1074%Z with (Z.succ 1073). apply Z.pow_succ_r. lia. }
  rewrite E. rewrite (Z.sgn_pos one_z) by exact one_pos. rewrite Z.mul_1_l. replace (ovf_z <=? 2 ^ 1073)%Z with false by (vm_compute; reflexivity). reflexivity.
Qed.
Lemma half_facts : exists h, ddiv (Fin 1) (Fin 2) = Fin h /\ (0 < h < one_z)%Z /\ dadd dzero (Fin h) = Fin h /\ ddiv (Fin h) done = Fin h /\ dsub (Fin h) (Fin h) = dzero /\ exists k, dsub done (Fin h) = Fin k /\ (0 < k)%Z.
Proof.
  assert (P : (0 < 2 ^ 1073)%Z) by (apply Z.pow_pos_nonneg; lia). assert (T : one_z = (2 * 2 ^ 1073)%Z) by (unfold one_z; change 1074%Z with (Z.succ 1073); apply Z.pow_succ_r; lia).
  assert (R : rnd (2 ^ 1073) 1 = Fin (2 ^ 1073)).
  { unfold rnd. assert (E : rnd_nat (Z.abs (2 ^ 1073)) 1 = (2 ^ 1073)%Z) by (rewrite Z.abs_eq by lia; replace (2 ^ 1073)%Z with (1 * 2 ^ 1073 * 1)%Z at 1 by lia; rewrite (rnd_nat_exact 1 1073 1) by lia; lia).
    rewrite E, (Z.sgn_pos (2 ^ 1073)) by exact P. rewrite Z.mul_1_l. replace (ovf_z <=? 2 ^ 1073)%Z with false by (vm_compute; reflexivity). reflexivity. }
  exists (2 ^ 1073)%Z. split; [exact half_eq|]. split; [lia|]. split; [unfold dzero; cbn [dadd]; rewrite Z.add_0_l; exact R|]. split; [|split].
  - unfold done. cbn [ddiv]. pose proof one_pos. destruct (Z.eqb_spec one_z 0); [lia|]. destruct (Z.ltb_spec one_z 0); [lia|].
    unfold rnd. assert (E : rnd_nat (Z.abs (2 ^ 1073 * one_z)) one_z = (2 ^ 1073)%Z) by (rewrite Z.abs_eq by nia; replace (2 ^ 1073 * one_z)%Z with (1 * 2 ^ 1073 * one_z)%Z by lia; rewrite (rnd_nat_exact 1 1073 one_z) by lia; lia).
    rewrite E, (Z.sgn_pos (2 ^ 1073 * one_z)) by nia. rewrite Z.mul_1_l. replace (ovf_z <=? 2 ^ 1073)%Z with false by (vm_compute; reflexivity). reflexivity.
  - unfold dsub. cbn [dneg dadd]. rewrite Z.add_opp_diag_r. apply rnd_zero. lia.
  - exists (2 ^ 1073)%Z. split; [|exact P]. unfold dsub, done. cbn [dneg dadd]. replace (one_z + - 2 ^ 1073)%Z with (2 ^ 1073)%Z by lia. exact R.
Qed.
Local Opaque one_z.
(** ** Infeasibilities with one inequality of tolerance 0 *)
Lemma inf0 m a : (0 < m)%Z -> compute_infeasibility [Fin m] 0 1 [Fin 0] [a; Fin 0] = Ok dzero.
Proof.
  intros H. unfold compute_infeasibility. cbn [seq mfold vget nth_error bind dgt dlt dzero]. replace (0 <? m)%Z with true by (symmetry; now apply Z.ltb_lt). cbn [violation vget nth_error bind Nat.add Nat.ltb Nat.leb].
  change (dmax (Fin 0) (dsub (Fin 0) (Fin 0))) with dzero. rewrite div_zero by (cbn; now apply Z.ltb_lt). change (dadd (Fin 0) dzero) with dzero. change (Z.of_nat 1) with 1%Z. rewrite d_of_1.
  rewrite div_zero by (apply Z.ltb_lt, one_pos). reflexivity.
Qed.
Lemma inf1 m a : (0 < m < 2 ^ 53)%Z -> compute_infeasibility [Fin m] 0 1 [Fin 0] [a; Fin m] = Ok done.
Proof.
  intros H. unfold compute_infeasibility. cbn [seq mfold vget nth_error bind dgt dlt dzero]. replace (0 <? m)%Z with true by (symmetry; apply Z.ltb_lt; lia). cbn [violation vget nth_error bind Nat.add Nat.ltb Nat.leb].
  assert (E : dmax dzero (dsub (Fin m) (Fin 0)) = Fin m).
  { unfold dzero, dsub. cbn [dneg dadd]. rewrite Z.add_0_r. replace m with (m * 1)%Z at 1 by lia. rewrite rnd_tiny by lia. unfold dmax. cbn [dlt]. replace (0 <? m)%Z with true by (symmetry; apply Z.ltb_lt; lia). reflexivity. }
  rewrite E, ddiv_self by lia. change (Fin 0) with dzero. rewrite dadd_zero_done. change (Z.of_nat 1) with 1%Z. rewrite d_of_1. unfold done. rewrite ddiv_self by exact one_pos. reflexivity.
Qed.

Lemma inf_half a : exists h, compute_infeasibility [Fin 2] 0 1 [Fin 0] [a; Fin 1] = Ok (Fin h) /\ (0 < h < one_z)%Z /\ dsub (Fin h) (Fin h) = dzero /\ exists k, dsub done (Fin h) = Fin k /\ (0 < k)%Z.
Proof.
  destruct half_facts as (h & E1 & H & E2 & E3 & E4 & K). exists h. split; [|auto].
  unfold compute_infeasibility. cbn [seq mfold vget nth_error bind dgt dlt dzero]. change (0 <? 2)%Z with true. cbn [violation vget nth_error bind Nat.add Nat.ltb Nat.leb].
  change (dmax dzero (dsub (Fin 1) (Fin 0))) with (Fin 1). rewrite E1. change (Fin 0) with dzero. rewrite E2. change (Z.of_nat 1) with 1%Z. rewrite d_of_1, E3. reflexivity.
Qed.
(** ** What update() finds *)
Lemma upd_two X a1 a2 a3 a4 : pen_update (con_problem con_fit) X [[a1; Fin 0]; [a2; Fin 1]; [a3; Fin 0]; [a4; Fin 0]] =
  bind (pen_hats [[a1; Fin 0]; [a2; Fin 1]; [a3; Fin 0]; [a4; Fin 0]] [dzero; done; dzero; dzero] [0; 2; 3] [1]) (fun h => let '(hd, hu, p1) := h in
  let F := [[a1; Fin 0]; [a2; Fin 1]; [a3; Fin 0]; [a4; Fin 0]] in let Iv := [dzero; done; dzero; dzero] in
    bind (scan (fun i b => obj_less F b i) 0 [1; 2; 3]) (fun hr =>
    bind (obj_at F hd) (fun fd => bind (obj_at F hu) (fun fu => bind (obj_at F hr) (fun fr =>
    bind (vget Iv hd) (fun id => bind (vget Iv hu) (fun iu =>
    Ok {| pn_cmax := [Fin 1]; pn_p1 := p1; pn_scale := scaling fd fu fr; pn_idown := id; pn_iup := iu; pn_fdown := fd; pn_fup := fu; pn_map := fold_left (fun m e => cache_put m (fst e) (snd e)) (combine X F) [] |}))))))).
Proof.
  unfold pen_update. change (get_nc (con_problem con_fit)) with 1. change (p_nec (con_problem con_fit)) with 0. change (p_ctol (con_problem con_fit)) with [Fin 0].
  replace (compute_c_max 0 1 [Fin 0] [[a1; Fin 0]; [a2; Fin 1]; [a3; Fin 0]; [a4; Fin 0]]) with (Ok [Fin 1]) by (vm_compute; reflexivity). cbn [bind mmap].
  rewrite !inf0 by lia. rewrite inf1 by lia. cbn [bind length seq filter nth negb]. assert (G : dgt done dzero = true) by (apply Z.ltb_lt, one_pos). change (dgt dzero dzero) with false. rewrite G. cbn [negb length Nat.eqb Nat.sub]. reflexivity.
Qed.
Lemma neg_update : exists g, pen_update (po_prob neg_pop) (po_x neg_pop) (po_f neg_pop) = Ok g /\ pn_cmax g = [Fin 1] /\ pn_p1 g = false /\ pn_scale g = dint (-2) /\ pn_idown g = dzero /\ pn_iup g = done.
Proof.
  cbn [neg_pop four_pop po_prob po_x po_f]. rewrite upd_two.
  replace (pen_hats [[Fin (-2); Fin 0]; [Fin (-1); Fin 1]; [Fin 1; Fin 0]; [Fin 0; Fin 0]] [dzero; done; dzero; dzero] [0; 2; 3] [1]) with (Ok (0, 1, false)) by reflexivity.
  cbn [bind]. replace (scan (fun i b => obj_less [[Fin (-2); Fin 0]; [Fin (-1); Fin 1]; [Fin 1; Fin 0]; [Fin 0; Fin 0]] b i) 0 [1; 2; 3]) with (Ok 2) by reflexivity. cbv zeta. cbn [bind obj_at vget nth_error].
  eexists. split; [reflexivity|]. cbn [pn_cmax pn_p1 pn_scale pn_idown pn_iup]. split; [reflexivity|]. split; [reflexivity|]. split; [|split; reflexivity].
  unfold scaling. change (deq (Fin (-1)) (Fin 1)) with false. change (dle (Fin (-1)) (Fin (-2))) with false. cbv iota. change (dsub (Fin 1) (Fin (-1))) with (Fin 2). cbn [ddiv]. change (-1 =? 0)%Z with false. change (-1 <? 0)%Z with true. cbv iota.
  replace (- (2) * one_z)%Z with (-2 * one_z * - (-1))%Z by lia. apply rnd_int; lia.
Qed.
Lemma neg_penalized dexp w : dsub (dexp dtwo) done = Fin w -> (0 < w)%Z -> exists g, pen_update (po_prob neg_pop) (po_x neg_pop) (po_f neg_pop) = Ok g /\
  pen_value dexp g (po_prob neg_pop) [Fin (-1); Fin 1] = Ok (Fin (-3)) /\ pen_value dexp g (po_prob neg_pop) [Fin (-2); Fin 0] = Ok (Fin (-2)).
Proof.
  intros EW W. destruct neg_update as (g & EU & C & P1 & SC & D & U). exists g. split; [exact EU|]. unfold pen_value. change (p_nec (po_prob neg_pop)) with 0. change (get_nc (po_prob neg_pop)) with 1. change (p_ctol (po_prob neg_pop)) with [Fin 0].
  rewrite C. rewrite inf1, inf0 by lia. cbn [vget nth_error bind]. split; [|reflexivity]. unfold penalize. rewrite P1, SC, D, U.
  assert (G : dgt done dzero = true) by (apply Z.ltb_lt, one_pos). rewrite G. assert (NQ : dneq done dzero = true).
  { unfold dneq. rewrite done_int, dzero_int, deq_int. reflexivity. }
  rewrite NQ. rewrite !dsub_done_zero. unfold done at 1 2. rewrite ddiv_self by exact one_pos. rewrite two_done, EW, ddiv_self by exact W. cbn [dabs Z.abs Z.opp].
  assert (M : dmul (dint (-2)) (Fin 1) = Fin (-2)).
  { unfold dint. cbn [dmul]. rewrite Z.mul_1_r. apply rnd_tiny; [lia|exact one_pos]. }
  rewrite M. rewrite (proj2 (dmul_done_tiny (-2) ltac:(lia))). reflexivity.
Qed.

(** A very infeasible point when the scaling factor is zero *)
Lemma top_penalized dexp : dexp (dint 2000) = PInf -> (exists w, dsub (dexp dtwo) done = Fin w /\ (0 < w)%Z) -> exists g, pen_update (po_prob top_pop) (po_x top_pop) (po_f top_pop) = Ok g /\
  pen_value dexp g (po_prob top_pop) [Fin 2; Fin 1000] = Ok NaN.
Proof.
  intros EX (w & EW & W). cbn [top_pop four_pop po_prob po_x po_f]. rewrite upd_two.
  replace (pen_hats [[Fin 1; Fin 0]; [Fin 3; Fin 1]; [Fin 2; Fin 0]; [Fin 1; Fin 0]] [dzero; done; dzero; dzero] [0; 2; 3] [1]) with (Ok (0, 1, false)) by reflexivity.
  cbn [bind]. replace (scan (fun i b => obj_less [[Fin 1; Fin 0]; [Fin 3; Fin 1]; [Fin 2; Fin 0]; [Fin 1; Fin 0]] b i) 0 [1; 2; 3]) with (Ok 1) by reflexivity. cbv zeta. cbn [bind obj_at vget nth_error].
  eexists. split; [reflexivity|]. unfold pen_value. change (p_nec (con_problem con_fit)) with 0. change (get_nc (con_problem con_fit)) with 1. change (p_ctol (con_problem con_fit)) with [Fin 0]. cbn [pn_cmax vget nth_error bind].
  assert (EI : compute_infeasibility [Fin 1] 0 1 [Fin 0] [Fin 2; Fin 1000] = Ok (dint 1000)).
  { unfold compute_infeasibility. cbn [seq mfold vget nth_error bind dgt dlt dzero]. change (0 <? 1)%Z with true. cbn [violation vget nth_error bind Nat.add Nat.ltb Nat.leb].
    change (dmax dzero (dsub (Fin 1000) (Fin 0))) with (Fin 1000). cbn [ddiv]. change (1 =? 0)%Z with false. change (1 <? 0)%Z with false. cbv iota.
    replace (1000 * one_z)%Z with (1000 * one_z * 1)%Z by lia. rewrite rnd_int by lia. change (Fin 0) with dzero. rewrite dzero_int, (dadd_lit 0 1000 1000) by reflexivity. change (Z.of_nat 1) with 1%Z. rewrite d_of_1. unfold dint, done. cbn [ddiv].
    pose proof one_pos. destruct (Z.eqb_spec one_z 0); [lia|]. destruct (Z.ltb_spec one_z 0); [lia|]. rewrite rnd_int by lia. reflexivity. }
  rewrite EI. cbn [bind]. unfold penalize. cbn [pn_p1 pn_scale pn_idown pn_iup].
  assert (G : dgt (dint 1000) dzero = true) by (unfold dgt; rewrite dzero_int; apply dlt_lit; reflexivity). rewrite G. assert (NQ : dneq done dzero = true) by (unfold dneq; rewrite done_int, dzero_int, deq_int; reflexivity).
  rewrite NQ, dsub_done_zero. assert (S0 : dsub (dint 1000) dzero = dint 1000) by (rewrite dzero_int; now apply dsub_lit). rewrite S0.
  assert (DV : ddiv (dint 1000) done = dint 1000).
  { unfold dint, done. cbn [ddiv]. pose proof one_pos. destruct (Z.eqb_spec one_z 0); [lia|]. destruct (Z.ltb_spec one_z 0); [lia|]. rewrite rnd_int by lia. reflexivity. }
  rewrite DV. assert (T2 : dmul dtwo (dint 1000) = dint 2000) by (unfold dtwo; rewrite (d_of_Z_lit 2) by reflexivity; now apply dmul_lit). rewrite T2, EX, EW.
  replace (dsub PInf done) with PInf by reflexivity. cbn [ddiv]. destruct (Z.ltb_spec w 0); [lia|]. replace (scaling (Fin 1) (Fin 3) (Fin 3)) with dzero by reflexivity.
  cbn [dabs]. change (dmul dzero (Fin (Z.abs 2))) with (rnd (0 * 2) one_z). rewrite Z.mul_0_l, rnd_zero by exact one_pos. reflexivity.
Qed.

(** No feasible individual: one that is worse in both respects gets the better value *)
Lemma inf_penalized dexp w : dexp dzero = done -> dsub (dexp dtwo) done = Fin w -> (0 < w)%Z -> exists g i j, pen_update (po_prob inf_pop) (po_x inf_pop) (po_f inf_pop) = Ok g /\
  compute_infeasibility (pn_cmax g) 0 1 [Fin 0] [Fin 1; Fin 1] = Ok i /\ compute_infeasibility (pn_cmax g) 0 1 [Fin 0] [Fin 2; Fin 2] = Ok j /\ dlt i j = true /\
  pen_value dexp g (po_prob inf_pop) [Fin 1; Fin 1] = Ok (Fin 1) /\ pen_value dexp g (po_prob inf_pop) [Fin 2; Fin 2] = Ok (Fin 0).
Proof.
  intros E0 EW W. destruct half_facts as (h & _). clear h. destruct (inf_half (Fin 1)) as (h & H1 & HB & HS & k & HK & KP).
  assert (H2 : compute_infeasibility [Fin 2] 0 1 [Fin 0] [Fin 2; Fin 1] = Ok (Fin h)) by (rewrite <- H1; reflexivity).
  assert (GH : dgt (Fin h) dzero = true) by (apply Z.ltb_lt; lia). assert (GD : dgt done dzero = true) by (apply Z.ltb_lt, one_pos).
  assert (LHD : dlt (Fin h) done = true) by (apply Z.ltb_lt; lia). assert (LDH : dlt done (Fin h) = false) by (apply Z.ltb_ge; lia). assert (EHD : deq (Fin h) done = false) by (apply Z.eqb_neq; lia). assert (EDH : deq done (Fin h) = false) by (apply Z.eqb_neq; lia).
  assert (RHH : deq (Fin h) (Fin h) = true) by (apply Z.eqb_refl). assert (RDD : deq done done = true) by (apply Z.eqb_refl). assert (LHH : dlt (Fin h) (Fin h) = false) by (apply Z.ltb_irrefl). assert (LDD : dlt done done = false) by (apply Z.ltb_irrefl).
  set (F := [[Fin 1; Fin 1]; [Fin 3; Fin 2]; [Fin 2; Fin 1]; [Fin 2; Fin 2]]).
  assert (EU : exists m, pen_update (po_prob inf_pop) (po_x inf_pop) (po_f inf_pop) = Ok {| pn_cmax := [Fin 2]; pn_p1 := true; pn_scale := dzero; pn_idown := Fin h; pn_iup := done; pn_fdown := Fin 1; pn_fup := Fin 3; pn_map := m |}).
  { cbn [inf_pop four_pop po_prob po_x po_f]. unfold pen_update. change (get_nc (con_problem con_fit)) with 1. change (p_nec (con_problem con_fit)) with 0. change (p_ctol (con_problem con_fit)) with [Fin 0]. fold F.
    replace (compute_c_max 0 1 [Fin 0] F) with (Ok [Fin 2]) by (vm_compute; reflexivity). cbn [bind].
    assert (EM : mmap (compute_infeasibility [Fin 2] 0 1 [Fin 0]) F = Ok [Fin h; done; Fin h; done]).
    { unfold F. cbn [mmap]. rewrite H1, H2. rewrite !inf1 by lia. reflexivity. }
    rewrite EM. change (length F) with 4. cbn [bind seq filter nth]. rewrite GH, GD. cbn [negb length Nat.eqb Nat.sub pen_hats].
    change (length F) with 4. cbn [Nat.sub seq].
    assert (HD : scan (inf_or dle [Fin h; done; Fin h; done] (obj_less F)) 0 [1; 2; 3] = Ok 0).
    { unfold scan. cbn [mfold inf_or vget nth_error bind]. unfold inf_or, dle. cbn [vget nth_error bind]. rewrite LDH, EDH. cbn [orb bind vget nth_error]. rewrite LHH, RHH. cbn [orb]. change (obj_less F 2 0) with (Ok false). cbn [bind vget nth_error]. rewrite LDH, EDH. reflexivity. }
    assert (HU : scan (inf_or dge [Fin h; done; Fin h; done] (fun i b => obj_less F b i)) 0 [1; 2; 3] = Ok 1).
    { unfold scan. cbn [mfold]. unfold inf_or, dge, dle. cbn [vget nth_error bind]. rewrite LHD. cbn [orb]. rewrite EDH. cbn [bind vget nth_error]. rewrite LDH, EDH. cbn [orb bind vget nth_error]. rewrite LDD, RDD. cbn [orb]. change (obj_less F 1 3) with (Ok false). reflexivity. }
    rewrite HD. cbn [bind]. rewrite HU. cbn [bind]. replace (scan (fun i b => obj_less F b i) 0 [1; 2; 3]) with (Ok 1) by reflexivity. cbn [bind]. eexists. reflexivity. }
  destruct EU as (m & EU). eexists. exists (Fin h), done. split; [exact EU|]. cbn [pn_cmax]. split; [exact H1|]. split; [apply inf1; lia|]. split; [exact LHD|].
  unfold pen_value. change (p_nec (po_prob inf_pop)) with 0. change (get_nc (po_prob inf_pop)) with 1. change (p_ctol (po_prob inf_pop)) with [Fin 0]. cbn [pn_cmax vget nth_error bind].
  rewrite H1, inf1 by lia. cbn [bind]. unfold penalize. cbn [pn_p1 pn_scale pn_idown pn_iup pn_fdown pn_fup]. rewrite GH, GD. unfold dneq. rewrite EDH. cbn [negb]. rewrite HS, HK.
  rewrite (div_zero (Fin k)) by (now apply Z.ltb_lt). rewrite ddiv_self by exact KP. change (dsub (Fin 1) (Fin 3)) with (Fin (-2)).
  assert (Z0 : forall z, dmul dzero (Fin z) = dzero) by (intros z; unfold dzero; cbn [dmul]; rewrite Z.mul_0_l; apply rnd_zero, one_pos).
  assert (T0 : dmul dtwo dzero = dzero) by (unfold dtwo; rewrite (d_of_Z_lit 2), dzero_int by reflexivity; now apply dmul_lit). rewrite T0, two_done, E0, EW.
  assert (S0 : dsub done done = dzero) by (rewrite done_int, dzero_int; now apply dsub_lit). rewrite S0.
  rewrite (div_zero (Fin w)) by (now apply Z.ltb_lt). rewrite (ddiv_self w) by exact W. rewrite (proj1 (dmul_done_tiny (-2) ltac:(lia))). rewrite Z0. split.
  - change (dadd (Fin 1) dzero) with (Fin 1). cbn [dabs Z.abs]. rewrite Z0. unfold dzero at 2. rewrite Z0. reflexivity.
  - change (dadd (Fin 2) (Fin (-2))) with (Fin 0). cbn [dabs Z.abs]. rewrite Z0. unfold dzero, done. cbn [dmul]. rewrite Z.mul_0_l, rnd_zero by exact one_pos. reflexivity.
Qed.

(** ** A run: a problem with feasible and infeasible points *)
Definition mix_fit (x : list dbl) : outcome (list dbl) := match x with [a; b] => Ok [a; if dlt b a then dint 1 else dint 0] | _ => Throw (UserExn 1) end.
Definition mix_pop : pop (list Z) := four_pop mix_fit [[Fin 0; dint 0]; [Fin 1; dint 0]; [Fin 2; dint 0]; [Fin 3; dint 1]].
Lemma mix_rankable : rankable (con_problem mix_fit) (po_f mix_pop).
Proof.
  intros _ l H. assert (F : forall f, In f l -> exists a b, f = [a; b] /\ (b = dint 0 \/ b = dint 1)).
  { intros f Hf. destruct (H f Hf) as [[<-|[<-|[<-|[<-|[]]]]]|(x & _ & _ & E)]; [eauto|eauto|eauto|eauto|]. destruct x as [|a [|b [|c x]]]; try discriminate E. injection E as <-. destruct (dlt b a); eauto. }
  assert (TL : p_ctol (con_problem mix_fit) = [dint 0]) by (cbn [con_problem p_ctol]; change (Fin 0) with dzero; now rewrite dzero_int).
  rewrite TL. change (p_nec (con_problem mix_fit)) with 0. apply fc_lt_swo_norms.
  - intros f Hf. destruct (F f Hf) as (a & b & -> & _). split; cbn; lia.
  - repeat constructor.
  - intros f Hf _. destruct (F f Hf) as (a & b & -> & [-> | ->]); unfold eq_norm, ineq_norm, violation_norm; cbn [firstn skipn tl excesses fold_left]; unfold SpecConstrained.excess; rewrite ?dzero_int;
      repeat first [rewrite dsub_int by reflexivity|rewrite dmax_int|rewrite dmul_int by reflexivity|rewrite dadd_int by reflexivity|progress cbn [Z.sub Z.add Z.max Z.mul Z.compare Z.opp Pos.mul Pos.compare Pos.compare_cont]|rewrite (dsqrt_lit 0 0) by reflexivity|rewrite (dsqrt_lit 1 1) by reflexivity]; reflexivity.
Qed.
Lemma mix_defined : fitness_defined (con_problem mix_fit).
Proof. intros x _. destruct x as [|a [|b [|c x]]]; split; discriminate. Qed.
(** An inner algorithm: evaluates one new point and puts it in the first place *)
Definition one_step (it : nat) (X F : list (list dbl)) : itree := IEval [Fin 5; Fin 6] (fun _ => IRet ([Fin 5; Fin 6] :: tl X)).
Lemma one_step_ok EI it X F : length X = 4 -> (forall x, In x X -> length x = 2) -> well_behaved 4 2 EI X (one_step it X F).
Proof.
  intros L _. cbn. split; [reflexivity|]. intros v. split; [destruct X; [discriminate L|exact L]|]. intros x [<-|H]; [now left|]. right. destruct X; [destruct H|now right].
Qed.
(** An inner algorithm that returns a point it did not evaluate *)
Definition silent_step (it : nat) (X F : list (list dbl)) : itree := IRet [[Fin 5; Fin 6]; [Fin 0; Fin 1]; [Fin 0; Fin 1]; [Fin 0; Fin 1]].
Lemma silent_unseen y : nth_error [[Fin 5; Fin 6]; [Fin 0; Fin 1]; [Fin 0; Fin 1]; [Fin 0; Fin 1]] 0 = Some y -> ~ In y (po_x mix_pop).
Proof. intros H. injection H as <-. intros [H|[H|[H|[H|[]]]]]; discriminate H. Qed.
Lemma mix_valid : valid_pop mix_pop. Proof. apply four_valid. Qed.
Lemma mix_no_throw e : ~ fitness_throws (con_problem mix_fit) e.
Proof. intros (x & L & H). destruct x as [|a [|b [|c x]]]; try discriminate L. discriminate H. Qed.
Lemma mix_run dexp g iters : exists a s', cstrs_evolve dexp (@isort) one_step iters (g, mix_pop) = (Ok a, s') /\ (valid_pop (snd s') /\ cstrs_rounds mix_pop iters (snd s')).
Proof.
  apply (ends_ex (cstrs_evolve dexp (@isort) one_step iters) (g, mix_pop) (fun s' => valid_pop (snd s') /\ cstrs_rounds mix_pop iters (snd s'))).
  assert (E := evolve_ends dexp (@isort) (con_problem mix_fit) mix_defined one_step (fun _ => False) 4 (one_step_ok (fun _ => False)) eq_refl (le_n 1) (le_S 1 3 (le_S 1 2 (le_S 1 1 (le_n 1)))) isort_contract (po_f mix_pop) mix_rankable (g, mix_pop) iters mix_valid eq_refl eq_refl (le_n 4) eq_refl eq_refl).
  revert E. unfold ends_w. cbn [snd]. destruct (cstrs_evolve dexp (@isort) one_step iters (g, mix_pop)) as [[a|e| |] s']; auto. intros [H|[]]. exact (mix_no_throw e H).
Qed.
Lemma mix_best : exists f, unbeaten mix_pop f.
Proof.
  destruct (best_worst (@isort) mix_pop mix_valid eq_refl (le_n 1) (fun H => @nil_cons _ 7%Z _ (eq_sym H))) as (b & w & x & f & _ & _ & _ & _ & _ & U); [|exists f; exact U].
  intros _. split; [exact isort_contract|]. apply mix_rankable; [exact (le_n 1)|]. intros f Hf. left. exact Hf.
Qed.
Definition toy_exp (y : dbl) : dbl := if deq y dzero then done else if dlt (dint 100) y then PInf else dint 7.
Lemma toy_exp_values : toy_exp dzero = done /\ toy_exp (dint 2000) = PInf /\ dsub (toy_exp dtwo) done = dint 6 /\ (0 < 6 * one_z)%Z.
Proof.
  unfold toy_exp. rewrite !dzero_int, !deq_int. change (0 =? 0)%Z with true. change (2000 =? 0)%Z with false. cbv iota. split; [reflexivity|]. split; [rewrite dlt_int; reflexivity|]. unfold dtwo. rewrite (d_of_Z_lit 2) by reflexivity.
  rewrite deq_int, dlt_int. change (2 =? 0)%Z with false. change (100 <? 2)%Z with false. cbv iota. split; [rewrite done_int; now apply dsub_lit|]. pose proof one_pos. lia.
Qed.
Lemma toy_exp_ge1 y : dlt y dzero = false -> dlt (toy_exp y) done = false.
Proof. intros _. unfold toy_exp. destruct (deq _ _); [apply Z.ltb_irrefl|]. destruct (dlt _ y); [reflexivity|]. rewrite done_int. now apply dlt_lit. Qed.
Lemma top_positive f : In f (po_f top_pop) -> length f = 2 /\ positive_obj f.
Proof. intros [<-|[<-|[<-|[<-|[]]]]]; (split; [reflexivity|]); eexists; (split; [reflexivity|lia]). Qed.
Lemma zero_no_breach a : no_breach (con_problem con_fit) [a; Fin 0].
Proof. intros [|j] H; [reflexivity|]. cbn in H. lia. Qed.
Lemma top_feasible : exists f, In f (po_f top_pop) /\ no_breach (po_prob top_pop) f.
Proof. exists [Fin 1; Fin 0]. split; [now left|apply zero_no_breach]. Qed.
Lemma top_update : exists g, pen_update (po_prob top_pop) (po_x top_pop) (po_f top_pop) = Ok g /\ length (pn_cmax g) = 1.
Proof.
  destruct (update_ok (po_prob top_pop) (proj1 (four_valid con_fit (Fin 1) (Fin 3) (Fin 2) (Fin 1) (Fin 0) (Fin 1) (Fin 0) (Fin 0))) (po_x top_pop) (po_f top_pop)) as (g & E & L & _); [|exact (le_S 1 3 (le_S 1 2 (le_S 1 1 (le_n 1))))|exists g; split; [exact E|exact L]].
  intros f Hf. exact (proj1 (top_positive f Hf)).
Qed.
Lemma neg_reward : forall dexp w, dsub (dexp dtwo) done = Fin w -> (0 < w)%Z -> exists g,
  valid_pop neg_pop /\ In [Fin (-1); Fin 1] (po_f neg_pop) /\ In [Fin (-2); Fin 0] (po_f neg_pop) /\
  pen_update (po_prob neg_pop) (po_x neg_pop) (po_f neg_pop) = Ok g /\
  pen_value dexp g (po_prob neg_pop) [Fin (-1); Fin 1] = Ok (Fin (-3)) /\ pen_value dexp g (po_prob neg_pop) [Fin (-2); Fin 0] = Ok (Fin (-2)).
Proof. intros dexp w E W. destruct (neg_penalized dexp w E W) as (g & H). exists g. split; [apply four_valid|]. split; [right; now left|]. split; [now left|exact H]. Qed.
Lemma inf_reward : forall dexp w, dexp dzero = done -> dsub (dexp dtwo) done = Fin w -> (0 < w)%Z -> exists g i j,
  valid_pop inf_pop /\ In [Fin 1; Fin 1] (po_f inf_pop) /\ In [Fin 2; Fin 2] (po_f inf_pop) /\
  pen_update (po_prob inf_pop) (po_x inf_pop) (po_f inf_pop) = Ok g /\
  compute_infeasibility (pn_cmax g) 0 1 [Fin 0] [Fin 1; Fin 1] = Ok i /\ compute_infeasibility (pn_cmax g) 0 1 [Fin 0] [Fin 2; Fin 2] = Ok j /\ dlt i j = true /\
  pen_value dexp g (po_prob inf_pop) [Fin 1; Fin 1] = Ok (Fin 1) /\ pen_value dexp g (po_prob inf_pop) [Fin 2; Fin 2] = Ok (Fin 0).
Proof. intros dexp w E0 E W. destruct (inf_penalized dexp w E0 E W) as (g & i & j & H). exists g, i, j. split; [apply four_valid|]. split; [now left|]. split; [right; right; right; now left|exact H]. Qed.
Lemma con_update : exists g, pen_update (po_prob con_pop) (po_x con_pop) (po_f con_pop) = Ok g /\ length (pn_cmax g) = 1 /\ (forall f, In f (po_f con_pop) -> length f = 2 /\ no_breach (po_prob con_pop) f) /\
  ~ no_breach (po_prob con_pop) [Fin 0; Fin 3].
Proof.
  destruct (update_ok (po_prob con_pop) (proj1 con_pop_valid) (po_x con_pop) (po_f con_pop)) as (g & E & L & _); [intros f [<-|[<-|[]]]; reflexivity|exact (le_S 1 1 (le_n 1))|].
  exists g. split; [exact E|]. split; [exact L|]. split; [intros f [<-|[<-|[]]]; (split; [reflexivity|apply zero_no_breach])|]. intros H. specialize (H 0 (le_n 1)). discriminate H.
Qed.
