From Coq Require Import List Bool Arith ZArith Lia.
From Verif Require Import Dbl DblFacts IntDbl Outcome BaseFacts StdSort SpecOrder Problem SpecProblem ProblemFacts Rng Generic SpecGeneric GenericFacts GenericFacts2 GenericFacts3 SpecGenetic RmFacts
  GeneticOps GeneticFacts Population SpecPopulation PopulationFacts Algo SpecAlgo AlgoFacts AlgoFacts2 NotPop SpecLocal AlgCompass AlgCompassFacts AlgSa.
Import ListNotations.

(** ** Random numbers in an arbitrary range *)
Lemma urr_any {G} (r : rng G) (RC : rng_contract r) a b : always (uniform_real_from_range r a b) (SpecGeneric.within a b) (fun e => e = InvalidArgument /\ ~ (dle a b = true /\ ok_real a b)).
Proof.
  destruct (dle a b) eqn:D.
  - eapply always_weak; [apply (urr_ok r RC a b D)|auto|]. intros e [-> N]. split; [reflexivity|]. tauto.
  - intros g. unfold uniform_real_from_range, uniform_real_impl, rbind, rlift, real_checks, throw_if. cbn [andb].
    destruct (isfinite a) eqn:Fa; cbn [negb orb bind fst]; [|split; [reflexivity|intros [X _]; discriminate]].
    destruct (isfinite b) eqn:Fb; cbn [negb orb bind fst]; [|split; [reflexivity|intros [X _]; discriminate]].
    assert (E : dgt a b = true).
    { unfold dgt. destruct (dlt b a) eqn:X; [reflexivity|]. apply dlt_false_dle in X; [congruence| |]; intros ->; discriminate. }
    rewrite E. cbn [bind fst]. split; [reflexivity|]. intros [X _]. discriminate.
Qed.
Lemma dmax_ge a b : dmax a b <> NaN -> b <> NaN -> dle b (dmax a b) = true.
Proof. unfold dmax. intros H N. destruct (dlt a b) eqn:D; [now apply dle_refl|]. apply dlt_false_dle; auto. Qed.
Lemma dmin_le a b : dmin a b <> NaN -> b <> NaN -> dle (dmin a b) b = true.
Proof. unfold dmin. intros H N. destruct (dlt b a) eqn:D; [now apply dle_refl|]. apply dlt_false_dle; auto. Qed.
Lemma cut_within l u a b v : l <> NaN -> u <> NaN -> SpecGeneric.within (dmax a l) (dmin b u) v -> SpecGeneric.within l u v.
Proof.
  intros Nl Nu [H1 H2]. split.
  - eapply dle_trans; [|exact H1]. apply dmax_ge; [exact (proj1 (dle_not_nan _ _ H1))|exact Nl].
  - eapply dle_trans; [exact H2|]. apply dmin_le; [exact (proj2 (dle_not_nan _ _ H2))|exact Nu].
Qed.
Lemma dmax_le a b c : dle a c = true -> dle b c = true -> dle (dmax a b) c = true.
Proof. unfold dmax. destruct (dlt a b); auto. Qed.
Lemma dmin_ge a b c : dle c a = true -> dle c b = true -> dle c (dmin a b) = true.
Proof. unfold dmin. destruct (dlt b a); auto. Qed.
(** The range around x, cut at the bounds, is a range again. *)
Lemma cut_range l u x w : is_double l -> is_double u -> ok_real l u -> SpecGeneric.within l u x -> nonneg w ->
  dle (dmax (dsub x w) l) (dmin (dadd x w) u) = true /\ ok_real (dmax (dsub x w) l) (dmin (dadd x w) u).
Proof.
  intros Dl Du (Fl & Fu & FD) [H1 H2] N. destruct l as [| |zl|]; try discriminate. destruct u as [| |zu|]; try discriminate. destruct x as [| |z|]; try discriminate.
  pose proof H1 as H1'. pose proof H2 as H2'. apply dle_fin in H1'. apply dle_fin in H2'. apply nonneg_cases in N.
  assert (A1 : dle (dsub (Fin z) w) (Fin zu) = true).
  { destruct N as [->|(k & -> & Hk)]; [reflexivity|]. rewrite <- (rnd_exact zu Du). cbn [dsub dneg dadd]. apply rnd_mono; lia. }
  assert (A2 : dle (Fin zl) (dadd (Fin z) w) = true).
  { destruct N as [->|(k & -> & Hk)]; [reflexivity|]. rewrite <- (rnd_exact zl Dl). cbn [dadd]. apply rnd_mono; lia. }
  assert (A3 : dle (dsub (Fin z) w) (dadd (Fin z) w) = true).
  { destruct N as [->|(k & -> & Hk)]; [reflexivity|]. cbn [dsub dneg dadd]. apply rnd_mono; lia. }
  assert (A4 : dle (Fin zl) (Fin zu) = true) by (apply dle_fin; lia).
  assert (L : dle (dmax (dsub (Fin z) w) (Fin zl)) (dmin (dadd (Fin z) w) (Fin zu)) = true) by (apply dmax_le; apply dmin_ge; assumption).
  split; [exact L|]. destruct (dle_not_nan _ _ L) as [NA NB].
  pose proof (dmax_ge (dsub (Fin z) w) (Fin zl) NA ltac:(discriminate)) as B1. pose proof (dmin_le (dadd (Fin z) w) (Fin zu) NB ltac:(discriminate)) as B2.
  set (a := dmax _ _) in *. set (b := dmin _ _) in *. clearbody a b. clear A1 A2 A3.
  destruct a as [| |za|], b as [| |zb|]; try discriminate. apply dle_fin in B1, B2, L. split; [reflexivity|]. split; [reflexivity|].
  cbn [dsub dneg dadd] in *. assert (M : dle (rnd (zb + - za) 1) (rnd (zu + - zl) 1) = true) by (apply rnd_mono; lia).
  assert (M0 : nonneg (rnd (zb + - za) 1)) by (apply rnd_nonneg; lia). apply nonneg_cases in M0. destruct M0 as [E|(k & E & _)]; rewrite E in *; [|reflexivity]. destruct (rnd (zu + - zl) 1); discriminate.
Qed.

(** ** The step sizes *)
Lemma one_z_eq : one_z = (2 ^ 1074)%Z.
Proof. reflexivity. Qed.
Local Opaque one_z Z.pow.
Lemma d04_pos : exists z, d04 = Fin z /\ (0 < z)%Z.
Proof. exists (7205759403792794 * 2 ^ 1020)%Z. split; [reflexivity|]. assert (0 < 2 ^ 1020)%Z by (apply Z.pow_pos_nonneg; lia). lia. Qed.
Lemma dtwo_pos : exists z, dtwo = Fin z /\ (0 < z)%Z.
Proof. exists (2 * one_z)%Z. split; [unfold dtwo; rewrite d_of_Z_int by (rewrite Z.abs_eq; [reflexivity|lia]); reflexivity|]. pose proof one_z_pos. lia. Qed.
Lemma dmul_nonneg_pos z a : (0 < z)%Z -> nonneg a -> nonneg (dmul (Fin z) a).
Proof.
  intros Hz N. apply nonneg_cases in N. destruct N as [->|(w & -> & Hw)].
  - cbn [dmul dsgn]. rewrite Z.sgn_pos by lia. reflexivity.
  - apply nonneg_dmul_fin; lia.
Qed.
Lemma one_plus a : nonneg a -> dadd done a = PInf \/ exists z, dadd done a = Fin z /\ (0 < z)%Z.
Proof.
  intros N. apply nonneg_cases in N. rewrite done_fin. destruct N as [->|(w & -> & Hw)]; [left; reflexivity|]. cbn [dadd].
  assert (M : dle (rnd one_z 1) (rnd (one_z + w) 1) = true) by (apply rnd_mono; lia). rewrite (rnd_exact one_z) in M by (exact dbl1). pose proof one_z_pos.
  destruct (rnd (one_z + w) 1) as [| |k|]; try discriminate; [|left; reflexivity]. right. exists k. split; [reflexivity|]. apply dle_fin in M. lia.
Qed.
Lemma dgt_sub_nonneg a b : dgt a b = true -> isfinite b = true -> nonneg (dsub a b).
Proof.
  unfold dgt. intros H F. destruct b as [| |zb|]; try discriminate. destruct a as [| |za|]; try discriminate; [|reflexivity].
  unfold dlt in H. apply Z.ltb_lt in H. apply dsub_nonneg. lia.
Qed.
Lemma dgt_nan_l b : dgt NaN b = true -> False.
Proof. destruct b; discriminate. Qed.
Lemma dgt_nan_r b : dlt NaN b = true -> False.
Proof. destruct b; discriminate. Qed.
Lemma bnd_pow k x : (0 <= k)%Z -> bnd k (Fin x) <-> (Z.abs x <= 2 ^ k)%Z.
Proof. intros _. split; [intros (z & E & H); injection E as <-; exact H|intros H; exists x; auto]. Qed.
Lemma bnd_two k x : (0 <= k <= 2096)%Z -> bnd k x -> bnd (k + 1) (dmul dtwo x).
Proof.
  intros Hk (z & -> & Hz). unfold dtwo. rewrite d_of_Z_int by (rewrite Z.abs_eq; [reflexivity|lia]). unfold dint. cbn [dmul]. pose proof one_z_pos as OP. apply bnd_rnd; [exact OP|lia|].
  rewrite Z.pow_add_r by lia. change (2 ^ 1)%Z with 2%Z. rewrite !Z.abs_mul. rewrite (Z.abs_eq one_z) by lia. rewrite (Z.abs_eq 2) by lia. nia.
Qed.
Lemma bnd_div04 k x : (0 <= k <= 2095)%Z -> bnd k x -> bnd (k + 2) (ddiv x d04).
Proof.
  intros Hk (z & -> & Hz). unfold d04. set (q := (7205759403792794 * 2 ^ 1020)%Z). assert (Q : (one_z <= 4 * q)%Z).
  { unfold q. rewrite one_z_eq. replace 1074%Z with (54 + 1020)%Z by lia. rewrite Z.pow_add_r by lia. assert (0 < 2 ^ 1020)%Z by (apply Z.pow_pos_nonneg; lia). change (2 ^ 54)%Z with 18014398509481984%Z. nia. }
  pose proof one_z_pos as OP. clearbody q. cbn [ddiv]. destruct (Z.eqb_spec q 0); [lia|]. destruct (Z.ltb_spec q 0); [lia|]. apply bnd_rnd; [lia|lia|].
  rewrite Z.pow_add_r by lia. change (2 ^ 2)%Z with 4%Z. rewrite Z.abs_mul, (Z.abs_eq one_z) by lia. assert (0 < 2 ^ k)%Z by (apply Z.pow_pos_nonneg; lia). nia.
Qed.
Lemma sa_adjust_ok bin start stp acp : (exists z, start = Fin z /\ 0 < z)%Z -> SpecGeneric.within dzero start stp -> (0 <= acp < 2 ^ 53)%Z -> (Z.of_nat bin < 2 ^ 53)%Z -> (bin = 0 -> acp = 0%Z) -> SpecGeneric.within dzero start (sa_adjust bin start stp acp).
Proof.
  intros (zs & -> & Ps) [H1 H2] HA HB HZ. unfold sa_adjust. cbv zeta. set (ratio := ddiv _ _).
  assert (R : ratio = NaN \/ (nonneg ratio /\ bnd 1127 ratio)).
  { unfold ratio. rewrite !d_of_Z_int by (rewrite Z.abs_eq; lia). unfold dint. pose proof one_z_pos. destruct (Nat.eq_dec bin 0) as [Z0|NZ].
    - rewrite (HZ Z0), Z0. left. reflexivity.
    - right. assert (1 <= Z.of_nat bin)%Z by lia. split; [apply ddiv_nonneg; [apply nonneg_cases; right; eexists; split; [reflexivity|nia]|nia]|].
      cbn [ddiv]. destruct (Z.eqb_spec (Z.of_nat bin * one_z) 0); [nia|]. destruct (Z.ltb_spec (Z.of_nat bin * one_z) 0); [nia|]. apply bnd_rnd; [nia|lia|].
      replace 1127%Z with (53 + 1074)%Z by lia. rewrite Z.pow_add_r by lia. rewrite <- one_z_eq. rewrite Z.abs_eq by nia. set (b := Z.of_nat bin) in *. clearbody b. clear - HA H H0.
      apply Z.mul_le_mono_nonneg; try lia; nia. }
  clearbody ratio. destruct d04_pos as (z4 & E4 & P4). destruct dtwo_pos as (z2 & E2 & P2). clear HA HB HZ.
  assert (exists zt, stp = Fin zt) as (zt & ->) by (destruct stp as [| |zt|]; [discriminate H1|discriminate H1|eauto|discriminate H2]). pose proof H1 as H1'. apply dle_fin in H1'.
  set (stp' := if dgt ratio d06 then _ else _).
  assert (N : nonneg stp').
  { unfold stp'. clear stp'. destruct (dgt ratio d06) eqn:C1.
    - pose proof (dgt_sub_nonneg _ _ C1 eq_refl) as N1. pose proof (ddiv_nonneg (dmul dtwo (dsub ratio d06)) z4 ltac:(rewrite E2; apply dmul_nonneg_pos; assumption) P4) as N2. rewrite <- E4 in N2.
      assert (INF : dadd done (ddiv (dmul dtwo (dsub ratio d06)) d04) <> PInf).
      { destruct R as [->|[_ B]]; [exfalso; exact (dgt_nan_l _ C1)|]. assert (B6 : bnd 1127 d06).
        { exists (5404319552844595 * 2 ^ 1021)%Z. split; [reflexivity|]. rewrite Z.abs_eq by (assert (0 < 2 ^ 1021)%Z by (apply Z.pow_pos_nonneg; lia); lia). replace 1127%Z with (106 + 1021)%Z by lia. rewrite Z.pow_add_r by lia.
          apply Z.mul_le_mono_nonneg_r; [apply Z.pow_nonneg; lia|]. transitivity (2 ^ 53)%Z; [apply Z.leb_le; reflexivity|apply Z.pow_le_mono_r; lia]. }
        pose proof (bnd_sub 1127 _ _ ltac:(lia) B B6) as B1. pose proof (bnd_two (1127 + 1) _ ltac:(lia) B1) as B2. pose proof (bnd_div04 (1127 + 1 + 1) _ ltac:(lia) B2) as B3.
        assert (BD : bnd (1127 + 1 + 1 + 2) done). { rewrite done_fin. exists one_z. split; [reflexivity|]. pose proof one_z_pos. rewrite Z.abs_eq by lia. rewrite one_z_eq. apply Z.pow_le_mono_r; lia. }
        pose proof (bnd_add (1127 + 1 + 1 + 2) _ _ ltac:(lia) BD B3) as (k & E & _). rewrite E. discriminate. }
      destruct (one_plus _ N2) as [E|(k & -> & Hk)]; [contradiction|]. apply nonneg_dmul_fin; lia.
    - destruct (dlt ratio d04) eqn:C2; [|exact H1].
      pose proof (dgt_sub_nonneg d04 ratio C2 ltac:(destruct R as [->|[R _]]; [exfalso; exact (dgt_nan_r _ C2)|]; apply nonneg_cases in R; destruct R as [->|(k & -> & _)]; [rewrite E4 in C2; discriminate C2|reflexivity])) as N1.
      pose proof (ddiv_nonneg _ z4 N1 P4) as N2. rewrite <- E4 in N2. pose proof (dmul_nonneg_pos z2 _ P2 N2) as N3. rewrite <- E2 in N3.
      destruct (one_plus _ N3) as [->|(k & -> & Hk)]; [reflexivity|]. apply ddiv_nonneg; [exact H1|exact Hk]. }
  clearbody stp'. unfold dgt. destruct (dlt (Fin zs) stp') eqn:C.
  - split; [apply dle_fin; lia|apply dle_refl; discriminate].
  - split; [exact N|]. apply dlt_false_dle; [discriminate|exact (proj2 (dle_not_nan _ _ N))|exact C].
Qed.

(** ** The search *)
Lemma tried_in p (Box : list dbl -> Prop) (a : list dbl * list dbl) T q : length (fst a) = get_nx p -> length (snd a) = get_nf p -> Box (fst a) -> tried p Box a T -> In q (a :: T) -> length (fst q) = get_nx p /\ length (snd q) = get_nf p /\ Box (fst q).
Proof.
  intros L1 L2 B D. revert q. induction D as [|T x f i v f' D IH I EV BX]; intros q [<-|H]; auto; [contradiction|]. destruct H as [<-|H]; [|apply IH; now right].
  destruct EV as (A & C & _). auto.
Qed.
Lemma upd_back' {A} (x : list A) j v a : nth_error x j = Some a -> upd (upd x j v) j a = x.
Proof. revert j. induction x as [|b x IH]; intros [|j] H; cbn in *; try discriminate; [congruence|]. f_equal. now apply IH. Qed.
Lemma dsub_nan_r a : dsub a NaN = NaN.
Proof. destruct a; reflexivity. Qed.

Section S.
Context {G P : Type} (r r2 : rng G) (RC : rng_contract r) (RC2 : rng_contract r2) (srt : sorter) (sel rep : policy) (pw : dbl -> dbl -> dbl) (ex : dbl -> dbl) (EX : ex NaN = NaN).
Context (Ts Tf : dbl) (n_T_adj n_range_adj bin_size : nat) (start_range : dbl).
Context (p : problem) (PO : prob_obj p) (NF : get_nf p = 1) (FD : fitness_defined p) (DL : Forall is_double (p_lb p)) (DU : Forall is_double (p_ub p)).
Context (SR : exists z, (start_range = Fin z /\ 0 < z)%Z) (BN : (Z.of_nat bin_size * Z.of_nat (get_nx p) < 2 ^ 31)%Z).
Local Notation Box := (in_box (p_lb p) (p_ub p)).
Context (x0 f0 : list dbl) (L0 : length x0 = get_nx p) (LF0 : length f0 = 1) (B0 : Box x0).
Local Notation a0 := (x0, f0).

Definition binv (T : list (list dbl * list dbl)) (st : sa_state) : Prop :=
  (obj f0 = NaN /\ sa_fold st = f0 /\ sa_bestf st = f0) \/
  (obj f0 <> NaN /\ best_of a0 T (sa_bestx st, sa_bestf st) /\ dle (obj (sa_bestf st)) (obj (sa_fold st)) = true).
Definition sinv (c : Z) (T : list (list dbl * list dbl)) (st : sa_state) : Prop :=
  sa_new st = sa_old st /\ In (sa_old st, sa_fold st) (a0 :: T) /\ tried p Box a0 T /\ Forall (SpecGeneric.within dzero start_range) (sa_step st) /\ length (sa_step st) = get_nx p /\
  length (sa_acp st) = get_nx p /\ Forall (fun k => 0 <= k <= c)%Z (sa_acp st) /\ binv T st.
Lemma incr_ok c l i : i < length l -> Forall (fun k => 0 <= k <= c)%Z l -> (c < 2 ^ 31 - 1)%Z -> exists l', incr_int l i = Ok l' /\ length l' = length l /\ Forall (fun k => 0 <= k <= c + 1)%Z l'.
Proof.
  intros Hi F HC. unfold incr_int. destruct (vget_in_range l i Hi) as (k & E & N). rewrite E. cbn [bind]. assert (K : (0 <= k <= c)%Z) by (rewrite Forall_forall in F; apply F; eapply nth_error_In; eauto).
  destruct (Z.ltb_spec k (2 ^ 31 - 1)); [|lia]. exists (upd l i (k + 1)%Z). split; [apply vset_in_range, Hi|]. split; [apply upd_length|]. apply forall_upd; [|lia]. eapply Forall_impl; [|exact F]. cbv beta. intros; lia.
Qed.
Lemma sa_trial_ok c T st i (s : G * pop P) : po_prob (snd s) = p -> sinv c T st -> (c < 2 ^ 31 - 1)%Z -> i < get_nx p ->
  ends (sa_trial r ex st i) s (fun st' s' => exists q, sinv (c + 1) (q :: T) st' /\ only_evals 1 s s') (fails p).
Proof.
  intros EP (I1 & I2 & I3 & I4 & I5 & I6 & I7 & I8) HC Hi. unfold sa_trial. apply ends_bind, ends_getp. rewrite EP. destruct (prob_obj_lens p PO) as [L1 L2].
  destruct (tried_in p Box a0 T _ L0 ltac:(cbn [snd]; lia) B0 I3 I2) as (Lo & Lfo & Bo). cbn [fst snd] in Lo, Lfo, Bo.
  destruct (vget_in_range (p_lb p) i ltac:(lia)) as (l & El & Nl). destruct (vget_in_range (p_ub p) i ltac:(lia)) as (u & Eu & Nu). destruct (vget_in_range (sa_step st) i ltac:(lia)) as (sw & Es & Ns). destruct (vget_in_range (sa_old st) i ltac:(lia)) as (o & Eo & No).
  apply ends_bind. eapply ends_lift_ok; [exact El|]. apply ends_bind. eapply ends_lift_ok; [exact Eu|]. apply ends_bind. eapply ends_lift_ok; [exact Es|]. apply ends_bind. eapply ends_lift_ok; [exact Eo|]. cbv zeta.
  assert (Wo : SpecGeneric.within l u o) by (destruct Bo as (_ & _ & X); eapply X; eauto).
  assert (NN : l <> NaN /\ u <> NaN) by (destruct Wo as [X Y]; apply dle_not_nan in X, Y; tauto).
  apply ends_bind. eapply ends_eng.
  { eapply always_weak; [apply (urr_any r RC)|intros v Hv; exact (cut_within l u _ _ v (proj1 NN) (proj2 NN) Hv)|]. intros e [-> N]. right. split; [reflexivity|]. intros DR. apply N. specialize (DR i l u Nl Nu). rewrite Forall_forall in DL, DU, I4.
    apply cut_range; auto; [apply DL; eapply nth_error_In; eauto|apply DU; eapply nth_error_In; eauto|]. specialize (I4 sw (nth_error_In _ _ Ns)). destruct I4 as [S1 S2]. destruct SR as (zs & -> & _).
    destruct DR as (F1 & F2 & F3). destruct l as [| |zl|]; try discriminate F1. destruct u as [| |zu|]; try discriminate F2. assert (zl <= zu)%Z by (destruct Wo as [X Y]; apply dle_fin; eapply dle_trans; eauto).
    pose proof (dsub_nonneg zl zu H) as N1. destruct (dsub (Fin zu) (Fin zl)) as [| |w|]; try discriminate F3. destruct sw as [| |z|]; try discriminate S1; try discriminate S2. apply dle_fin in S1. apply nonneg_cases in N1. destruct N1 as [X|(w' & X & Hw)]; [discriminate|injection X as <-]. apply nonneg_dmul_fin; lia. }
  intros v g Wv. cbv beta in Wv. rewrite I1. apply ends_bind. eapply ends_lift_ok; [apply vset_in_range; lia|].
  assert (Ly : length (upd (sa_old st) i v) = get_nx p) by (rewrite upd_length; exact Lo). assert (By : Box (upd (sa_old st) i v)) by (eapply in_box_upd; eauto).
  apply ends_bind. apply (ends_peval p); auto; [intros e H; now left|]. intros fn EV. cbn [fst snd].
  assert (OE : only_evals 1 s (g, with_fevals (snd s) (wrap64 (po_fevals (snd s) + 1)))) by (split; [eexists; reflexivity|apply (evals_S 0), evals_0]).
  assert (Lfn : length fn = 1) by (rewrite <- NF; exact (proj1 (proj2 EV))).
  apply ends_bind. eapply ends_lift_ok; [apply obj_vget; exact Lfn|]. apply ends_bind. eapply ends_lift_ok; [apply obj_vget; lia|].
  set (y := upd (sa_old st) i v) in *. assert (TR : tried p Box a0 ((y, fn) :: T)) by (eapply tried_one; eauto).
  assert (IY : In (y, fn) (a0 :: (y, fn) :: T)) by (right; left; reflexivity).
  assert (IO : In (sa_old st, sa_fold st) (a0 :: (y, fn) :: T)) by (destruct I2 as [X|X]; [now left|right; now right]).
  destruct (incr_ok c (sa_acp st) i ltac:(lia) I7 HC) as (acp' & Ea & La & Fa).
  destruct (dle (obj fn) (obj (sa_fold st))) eqn:CMP.
  - apply ends_bind. eapply ends_lift_ok; [apply vset_in_range; lia|]. apply ends_bind. eapply ends_lift_ok; [exact Ea|].
    assert (HB : obj f0 <> NaN /\ best_of a0 T (sa_bestx st, sa_bestf st) /\ dle (obj (sa_bestf st)) (obj (sa_fold st)) = true).
    { destruct I8 as [(X & Y & _)|X]; [|exact X]. exfalso. rewrite Y, X in CMP. destruct (obj fn); discriminate. }
    destruct HB as (H1 & (H2 & H3 & H4) & H5). cbn [snd] in H3, H4.
    assert (LB : length (sa_bestf st) = 1). { destruct (tried_in p Box a0 T _ L0 ltac:(cbn [snd]; lia) B0 I3 H2) as (_ & X & _). cbn [snd] in X. lia. }
    apply ends_bind. eapply ends_lift_ok; [apply obj_vget; exact LB|]. apply ends_ret. exists (y, fn). split; [|exact OE].
    unfold sinv, binv. destruct (dle (obj fn) (obj (sa_bestf st))) eqn:C2; cbn [sa_new sa_old sa_fold sa_bestx sa_bestf sa_step sa_acp]; fold y.
    + repeat (split; [first [reflexivity|assumption|lia]|]). right. split; [exact H1|]. cbn [sa_bestx sa_bestf sa_fold]. split; [|apply dle_refl; exact (proj1 (dle_not_nan _ _ CMP))].
      split; [exact IY|]. cbn [snd]. split; [eapply dle_trans; eauto|]. intros q [<-|Hq] NQ; [cbn [snd]; apply dle_refl; exact (proj1 (dle_not_nan _ _ CMP))|]. eapply dle_trans; [exact C2|]. now apply H4.
    + repeat (split; [first [reflexivity|assumption|lia]|]). right. split; [exact H1|]. cbn [sa_bestx sa_bestf sa_fold].
      assert (C3 : dle (obj (sa_bestf st)) (obj fn) = true).
      { destruct (dlt (obj fn) (obj (sa_bestf st))) eqn:X; [apply dlt_dle in X; congruence|]. apply dlt_false_dle; [exact (proj1 (dle_not_nan _ _ CMP))|exact (proj1 (dle_not_nan _ _ H3))|exact X]. }
      split; [|exact C3]. split; [destruct H2 as [X|X]; [now left|right; now right]|]. cbn [snd]. split; [exact H3|]. intros q [<-|Hq] NQ; [exact C3|now apply H4].
  - apply ends_bind. eapply ends_eng; [apply (draw01_any r RC)|]. intros d g' _. cbn [fst snd]. assert (OE' : only_evals 1 s (g', with_fevals (snd s) (wrap64 (po_fevals (snd s) + 1)))) by exact OE.
    assert (C3 : obj f0 <> NaN -> obj fn <> NaN -> dle (obj (sa_bestf st)) (obj fn) = true).
    { intros N1 N2. destruct I8 as [(X & _)|(_ & _ & H5)]; [contradiction|]. eapply dle_trans; [exact H5|]. destruct (dlt (obj fn) (obj (sa_fold st))) eqn:X; [apply dlt_dle in X; congruence|]. apply dlt_false_dle; [exact N2|exact (proj2 (dle_not_nan _ _ H5))|exact X]. }
    destruct (dgt _ d) eqn:ACC.
    + assert (NN2 : obj f0 <> NaN /\ obj fn <> NaN).
      { assert (K : dsub (obj (sa_fold st)) (obj fn) <> NaN). { intros K. rewrite K in ACC. cbn [dabs dneg ddiv] in ACC. rewrite EX in ACC. unfold dgt in ACC. destruct d; discriminate. }
        split; intros X; apply K; [|rewrite X; apply dsub_nan_r]. destruct I8 as [(Y & E & _)|(Y & _)]; [|contradiction]. rewrite E, Y. reflexivity. }
      apply ends_bind. eapply ends_lift_ok; [apply vset_in_range; lia|]. apply ends_bind. eapply ends_lift_ok; [exact Ea|]. apply ends_ret. exists (y, fn). split; [|exact OE']. unfold sinv, binv.
      cbn [sa_new sa_old sa_fold sa_bestx sa_bestf sa_step sa_acp]; fold y. repeat (split; [first [reflexivity|assumption|lia]|]). right. destruct I8 as [(X & _)|(H1 & (H2 & H3 & H4) & H5)]; [tauto|]. split; [exact H1|].
      split; [|tauto]. split; [destruct H2 as [X|X]; [now left|right; now right]|]. split; [exact H3|]. intros q [<-|Hq] NQ; [cbn [snd]; tauto|now apply H4].
    + apply ends_bind. eapply ends_lift_ok; [apply vset_in_range; unfold y; rewrite upd_length; lia|]. apply ends_ret. exists (y, fn). split; [|exact OE']. unfold sinv, binv.
      cbn [sa_new sa_old sa_fold sa_bestx sa_bestf sa_step sa_acp]. split; [unfold y; apply upd_back'; exact No|]. repeat (split; [first [reflexivity|assumption|lia]|]).
      split; [eapply Forall_impl; [|exact I7]; cbv beta; intros; lia|]. destruct I8 as [X|(H1 & (H2 & H3 & H4) & H5)]; [left; exact X|right]. split; [exact H1|].
      split; [|exact H5]. split; [destruct H2 as [X|X]; [now left|right; now right]|]. split; [exact H3|]. intros q [<-|Hq] NQ; [cbn [snd] in *; tauto|now apply H4].
Qed.

Local Notation nx := (get_nx p).
Lemma sinv_weak c c' T st : (c <= c')%Z -> sinv c T st -> sinv c' T st.
Proof. intros H (I1 & I2 & I3 & I4 & I5 & I6 & I7 & I8). repeat (split; [assumption|]). split; [|exact I8]. eapply Forall_impl; [|exact I7]. cbv beta. intros; lia. Qed.
Definition grown (n : nat) (T T' : list (list dbl * list dbl)) : Prop := exists Q, T' = Q ++ T /\ length Q = n.
Lemma grown_0 T : grown 0 T T.
Proof. exists []. auto. Qed.
Lemma grown_trans m n T1 T2 T3 : grown m T1 T2 -> grown n T2 T3 -> grown (m + n) T1 T3.
Proof. intros (Q & -> & A) (R & -> & B). exists (R ++ Q). rewrite app_assoc, app_length. split; [reflexivity|lia]. Qed.
Definition stepped (n : nat) (T : list (list dbl * list dbl)) (s : G * pop P) (c : Z) (st' : sa_state) (s' : G * pop P) : Prop := exists T', grown n T T' /\ sinv c T' st' /\ only_evals n s s'.
Lemma sa_pass_ok c T st (s : G * pop P) : po_prob (snd s) = p -> sinv c T st -> (0 <= c)%Z -> (c + Z.of_nat nx < 2 ^ 31)%Z ->
  ends (sa_pass r ex st) s (stepped nx T s (c + Z.of_nat nx)) (fails p).
Proof.
  intros EP I HC0 HC. unfold sa_pass. apply ends_bind, ends_getp. cbv zeta. rewrite EP. destruct (prob_obj_facts p PO) as (NX & _).
  apply ends_bind. eapply ends_eng; [apply (draw_int_ok r RC); lia|]. intros k g _. cbv beta. apply ends_bind.
  eapply ends_weak; [apply (ends_seq _ (fun i a s' => stepped i T s (c + Z.of_nat i) (fst a) s') (fails p) nx 0)| |auto].
  - exists T. split; [apply grown_0|]. cbn [fst]. rewrite Z.add_0_r. split; [exact I|]. exact (only_refl s).
  - intros i a s1 Hi (T1 & G1 & I1 & O1). apply ends_bind. eapply ends_weak; [apply (sa_trial_ok (c + Z.of_nat i) T1 (fst a))| |auto].
    + rewrite (only_prob _ _ _ O1). exact EP.
    + exact I1.
    + lia.
    + apply Nat.mod_upper_bound. lia.
    + intros st' s2 (q & I2 & O2). apply ends_ret. exists (q :: T1). cbn [fst]. split; [eapply grown_trans; [exact G1|]; exists [q]; auto|].
      replace (c + Z.of_nat (i + 1))%Z with (c + Z.of_nat i + 1)%Z by lia. split; [exact I2|]. eapply only_trans; eauto.
  - intros a s1 H. apply ends_ret. exact H.
Qed.
Definition sflat (n : nat) (T : list (list dbl * list dbl)) (s : G * pop P) := stepped n T s 0.
Lemma sa_bin_ok T st (s : G * pop P) : po_prob (snd s) = p -> sinv 0 T st -> ends (sa_bin r ex bin_size start_range st) s (stepped (bin_size * nx) T s 0) (fails p).
Proof.
  intros EP I. unfold sa_bin. destruct (prob_obj_facts p PO) as (NX & _). apply ends_bind.
  eapply ends_weak; [apply (ends_seq _ (fun i st' s' => stepped (i * nx) T s (Z.of_nat (i * nx)) st' s') (fails p) bin_size 0)| |auto].
  - exists T. split; [apply grown_0|]. split; [exact I|]. exact (only_refl s).
  - intros i st1 s1 Hi (T1 & G1 & I1 & O1). eapply ends_weak; [apply (sa_pass_ok (Z.of_nat (i * nx)) T1 st1)| |auto].
    + rewrite (only_prob _ _ _ O1). exact EP.
    + exact I1.
    + lia.
    + eapply Z.le_lt_trans; [|exact BN]. rewrite <- !Nat2Z.inj_mul, <- Nat2Z.inj_add. apply inj_le. nia.
    + intros st2 s2 (T2 & G2 & I2 & O2). exists T2. replace ((i + 1) * nx) with (i * nx + nx) by nia. split; [eapply grown_trans; eauto|]. rewrite Nat2Z.inj_add. split; [exact I2|]. eapply only_trans; eauto.
  - intros st1 s1 (T1 & G1 & (I1 & I2 & I3 & I4 & I5 & I6 & I7 & I8) & O1). apply ends_ret. cbn [Nat.add] in *. exists T1. split; [exact G1|]. split; [|exact O1].
    unfold sinv. cbn [sa_new sa_old sa_fold sa_bestx sa_bestf sa_step sa_acp]. repeat (split; [assumption|]).
    split.
    { apply Forall_forall. intros v Hv. apply in_map_iff in Hv. destruct Hv as ([sv k] & <- & Hv). cbn [fst snd]. pose proof (in_combine_l _ _ _ _ Hv) as H1. pose proof (in_combine_r _ _ _ _ Hv) as H2.
      rewrite Forall_forall in I4, I7. specialize (I4 _ H1). specialize (I7 _ H2). cbv beta in I7. rewrite Nat2Z.inj_mul in I7. assert (2 ^ 31 < 2 ^ 53)%Z by (apply Z.pow_lt_mono_r; lia). apply sa_adjust_ok; auto; nia. }
    split; [rewrite map_length, combine_length; lia|]. split; [rewrite map_length; exact I6|]. split; [apply Forall_forall; intros v Hv; apply in_map_iff in Hv; destruct Hv as (? & <- & _); lia|]. exact I8.
Qed.
Lemma sa_cool_ok coeff T st (s : G * pop P) : po_prob (snd s) = p -> sinv 0 T st -> ends (sa_cool r ex n_range_adj bin_size start_range coeff st) s (stepped (n_range_adj * (bin_size * nx)) T s 0) (fails p).
Proof.
  intros EP I. unfold sa_cool. apply ends_bind.
  eapply ends_weak; [apply (ends_seq _ (fun i st' s' => stepped (i * (bin_size * nx)) T s 0 st' s') (fails p) n_range_adj 0)| |auto].
  - exists T. split; [apply grown_0|]. split; [exact I|]. exact (only_refl s).
  - intros i st1 s1 Hi (T1 & G1 & I1 & O1). eapply ends_weak; [apply (sa_bin_ok T1 st1)| |auto].
    + rewrite (only_prob _ _ _ O1). exact EP.
    + exact I1.
    + intros st2 s2 (T2 & G2 & I2 & O2). exists T2. replace ((i + 1) * (bin_size * nx)) with (i * (bin_size * nx) + bin_size * nx) by nia. split; [eapply grown_trans; eauto|]. split; [exact I2|]. eapply only_trans; eauto.
  - intros st1 s1 (T1 & G1 & I1 & O1). apply ends_ret. exists T1. auto.
Qed.
Lemma sa_all_ok coeff T st (s : G * pop P) : po_prob (snd s) = p -> sinv 0 T st -> ends (rfold (fun st (_ : nat) => sa_cool r ex n_range_adj bin_size start_range coeff st) st (seq 0 n_T_adj)) s (stepped (n_T_adj * (n_range_adj * (bin_size * nx))) T s 0) (fails p).
Proof.
  intros EP I. eapply ends_weak; [apply (ends_seq _ (fun i st' s' => stepped (i * (n_range_adj * (bin_size * nx))) T s 0 st' s') (fails p) n_T_adj 0)| |auto].
  - exists T. split; [apply grown_0|]. split; [exact I|]. exact (only_refl s).
  - intros i st1 s1 Hi (T1 & G1 & I1 & O1). eapply ends_weak; [apply (sa_cool_ok coeff T1 st1)| |auto].
    + rewrite (only_prob _ _ _ O1). exact EP.
    + exact I1.
    + intros st2 s2 (T2 & G2 & I2 & O2). exists T2. replace ((i + 1) * (n_range_adj * (bin_size * nx))) with (i * (n_range_adj * (bin_size * nx)) + n_range_adj * (bin_size * nx)) by nia. split; [eapply grown_trans; eauto|]. split; [exact I2|]. eapply only_trans; eauto.
  - auto.
Qed.
End S.

Lemma sa_constructor Ts Tf n m start : sa_construct Ts Tf n m start = Ok tt \/ sa_construct Ts Tf n m start = Throw InvalidArgument.
Proof. unfold sa_construct. repeat (match goal with |- (if ?c then _ else _) = _ \/ _ => destruct c; auto end). Qed.
Lemma dle_false_fin x y : dle (Fin x) (Fin y) = false <-> (y < x)%Z.
Proof. unfold dle, dlt, deq. rewrite orb_false_iff, Z.ltb_ge, Z.eqb_neq. lia. Qed.
Lemma dlt_fin x y : dlt (Fin x) (Fin y) = true <-> (x < y)%Z.
Proof. unfold dlt. apply Z.ltb_lt. Qed.
Lemma sa_construct_iff Ts Tf n m start : sa_construct Ts Tf n m start = Ok tt <->
  (isfinite Ts = true /\ dlt dzero Tf = true /\ dle Tf Ts = true) /\ (dlt dzero start = true /\ dle start done = true) /\ (n <> 0 /\ m <> 0).
Proof.
  unfold sa_construct, dgt. rewrite done_fin. unfold dzero. pose proof one_z_pos as OP. generalize dependent one_z. intros one OP.
  destruct Ts as [| |a|]; cbn [isfinite negb orb]; rewrite ?orb_true_r; try (split; [discriminate|intros ((H & _) & _); discriminate]).
  destruct Tf as [| |b|]; cbn [isfinite negb orb]; rewrite ?orb_true_r, ?orb_false_r; try (split; [intros H; destruct (dle (Fin a) (Fin 0)); discriminate|intros ((_ & H & H') & _); discriminate]).
  destruct start as [| |c|]; cbn [isfinite negb orb]; rewrite ?orb_true_r, ?orb_false_r;
    try (split; [intros H; destruct (dle (Fin a) (Fin 0)); [discriminate|]; destruct (dle (Fin b) (Fin 0)); [discriminate|]; destruct (dlt (Fin a) (Fin b)); discriminate|intros (_ & (H & H') & _); discriminate]).
  rewrite !dlt_fin, !dle_fin. unfold dle, dlt, deq.
  destruct (Z.ltb_spec a 0), (Z.eqb_spec a 0), (Z.ltb_spec b 0), (Z.eqb_spec b 0), (Z.ltb_spec a b), (Z.ltb_spec c 0), (Z.eqb_spec c 0), (Z.ltb_spec one c), (Nat.eqb_spec n 0), (Nat.eqb_spec m 0); cbn [orb];
    (split; [intros X; try discriminate X; repeat split; first [lia|assumption]|intros X; first [reflexivity|exfalso; lia]]).
Qed.
