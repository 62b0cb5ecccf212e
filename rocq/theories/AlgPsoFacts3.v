From Coq Require Import List Bool Arith ZArith Lia.
From Verif Require Import Dbl DblFacts IntDbl Outcome BaseFacts StdSort Problem SpecProblem ProblemFacts Rng Generic SpecGeneric GenericFacts GenericFacts3 SpecGenetic RmFacts GeneticOps GeneticFacts Population SpecPopulation PopulationFacts PopulationFacts3 Algo SpecAlgo AlgoFacts AlgoFacts2
  AlgSaFacts AlgSaFacts2 AlgGwoFacts AlgGwoFacts2 SpecSwarm AlgPso SpecPso AlgPsoFacts AlgPsoFacts2 AlgExamples.
Import ListNotations.

(** ** Constructor *)
Lemma dfour_eq : dfour = Fin (4 * one_z).
Proof. unfold dfour. apply d_of_Z_int, small53. lia. Qed.
Lemma construct_spec a : pso_construct a = Ok tt \/ pso_construct a = Throw InvalidArgument.
Proof. unfold pso_construct. repeat (match goal with |- context [throw_if ?b _] => destruct b; cbn [throw_if bind]; auto end). Qed.
Lemma construct_ok a : ps_omega a <> NaN -> ps_eta1 a <> NaN -> ps_eta2 a <> NaN -> ps_max_vel a <> NaN ->
  (pso_valid a /\ pso_construct a = Ok tt) \/ (~ pso_valid a /\ pso_construct a = Throw InvalidArgument).
Proof.
  intros N1 N2 N3 N4. assert (NZ : dzero <> NaN) by discriminate. assert (NO : done <> NaN) by discriminate. assert (NF : dfour <> NaN) by (rewrite dfour_eq; discriminate).
  assert (T : forall x, x <> NaN -> dle x dzero = negb (dlt dzero x)). { intros x Nx. destruct (dlt dzero x) eqn:D; cbn [negb]; [|now apply dlt_false_dle]. destruct (dle x dzero) eqn:D2; [|reflexivity]. apply dle_dlt_false in D2. congruence. }
  unfold pso_construct, pso_valid, within, dgt.
  destruct (dlt (ps_omega a) dzero) eqn:A1; [right; split; [|reflexivity]; intros ((H & _) & _); apply dle_dlt_false in H; congruence|]. apply (dlt_false_dle _ _ N1 NZ) in A1.
  destruct (dlt done (ps_omega a)) eqn:A2; [right; split; [|reflexivity]; intros ((_ & H) & _); apply dle_dlt_false in H; congruence|]. apply (dlt_false_dle _ _ NO N1) in A2. cbn [orb throw_if bind].
  destruct (dlt (ps_eta1 a) dzero) eqn:A3; [right; split; [|reflexivity]; intros (_ & (H & _) & _); apply dle_dlt_false in H; congruence|]. apply (dlt_false_dle _ _ N2 NZ) in A3.
  destruct (dlt (ps_eta2 a) dzero) eqn:A4; [right; split; [|reflexivity]; intros (_ & _ & (H & _) & _); apply dle_dlt_false in H; congruence|]. apply (dlt_false_dle _ _ N3 NZ) in A4.
  destruct (dlt dfour (ps_eta1 a)) eqn:A5; [right; split; [|reflexivity]; intros (_ & (_ & H) & _); apply dle_dlt_false in H; congruence|]. apply (dlt_false_dle _ _ NF N2) in A5.
  destruct (dlt dfour (ps_eta2 a)) eqn:A6; [right; split; [|reflexivity]; intros (_ & _ & (_ & H) & _); apply dle_dlt_false in H; congruence|]. apply (dlt_false_dle _ _ NF N3) in A6. cbn [orb throw_if bind].
  rewrite (T (ps_max_vel a) N4). destruct (dlt dzero (ps_max_vel a)) eqn:A7; [cbn [negb orb]|right; split; [|reflexivity]; intros (_ & _ & _ & H & _); congruence].
  destruct (dlt done (ps_max_vel a)) eqn:A8; [right; split; [|reflexivity]; intros (_ & _ & _ & _ & H & _); apply dle_dlt_false in H; congruence|]. apply (dlt_false_dle _ _ NO N4) in A8. cbn [throw_if bind].
  destruct (Nat.ltb_spec (ps_variant a) 1); [right; split; [lia|reflexivity]|]. destruct (Nat.ltb_spec 6 (ps_variant a)); [right; split; [lia|reflexivity]|]. cbn [orb throw_if bind].
  destruct (Nat.ltb_spec (ps_ntype a) 1); [right; split; [lia|reflexivity]|]. destruct (Nat.ltb_spec 4 (ps_ntype a)); [right; split; [lia|reflexivity]|]. cbn [orb throw_if bind].
  destruct (Nat.ltb_spec (ps_nparam a) 1); [right; split; [lia|reflexivity]|]. left. split; [|reflexivity]. refine (conj (conj A1 A2) (conj (conj A3 A5) (conj (conj A4 A6) (conj eq_refl (conj A8 _))))). repeat split; assumption.
Qed.
(** What an accepted set of parameters satisfies even if it has NaN in it *)
Lemma construct_facts a : pso_construct a = Ok tt -> dle (ps_max_vel a) dzero = false /\ dgt (ps_max_vel a) done = false /\ 1 <= ps_variant a <= 6 /\ 1 <= ps_ntype a <= 4 /\ 1 <= ps_nparam a.
Proof.
  unfold pso_construct. intros H. destruct (dlt (ps_omega a) dzero || dgt (ps_omega a) done); [discriminate|]. cbn [throw_if bind] in H. set (b := dlt (ps_eta1 a) dzero || dlt (ps_eta2 a) dzero || dgt (ps_eta1 a) dfour || dgt (ps_eta2 a) dfour) in H. clearbody b. destruct b; [discriminate|]. cbn [throw_if bind] in H.
  destruct (dle (ps_max_vel a) dzero) eqn:A; [discriminate|]. destruct (dgt (ps_max_vel a) done) eqn:B; [discriminate|]. cbn [orb throw_if bind] in H.
  destruct (Nat.ltb_spec (ps_variant a) 1); [discriminate|]. destruct (Nat.ltb_spec 6 (ps_variant a)); [discriminate|]. cbn [orb throw_if bind] in H.
  destruct (Nat.ltb_spec (ps_ntype a) 1); [discriminate|]. destruct (Nat.ltb_spec 4 (ps_ntype a)); [discriminate|]. cbn [orb throw_if bind] in H. destruct (Nat.ltb_spec (ps_nparam a) 1); [discriminate|]. repeat (split; [auto|]). lia.
Qed.

Section S.
Context {G P : Type} (srt : sorter) (r : rng G).
Lemma pso_rejects (a : pso_params) V0 (s : G * pop P) : ~ plain_single (po_prob (snd s)) \/ po_id (snd s) = [] -> pso_evolve srt r a V0 s = (Throw InvalidArgument, s).
Proof.
  intros H. unfold pso_evolve, rbind, getp, plain_single in *. cbv beta iota zeta. destruct (Nat.eqb_spec (get_nc (po_prob (snd s))) 0) as [E1|E1]; cbn [negb]; [|reflexivity].
  destruct (Nat.eqb_spec (get_nf (po_prob (snd s))) 1) as [E2|E2]; cbn [negb]; [|reflexivity]. destruct (u_set_seed _); [reflexivity|]. destruct (Nat.eqb_spec (length (po_id (snd s))) 0) as [Q|Q]; [reflexivity|]. exfalso. destruct H as [H|H]; [apply H; auto|]. rewrite H in Q. now apply Q.
Qed.
Context (RC : rng_contract r).
Lemma width_le (a : pso_params) l u : dle (ps_max_vel a) dzero = false -> dgt (ps_max_vel a) done = false -> dle l u = true -> isfinite (pso_width a l u) = true -> exists w, pso_width a l u = Fin w /\ (0 <= w)%Z.
Proof.
  intros H1 H2 H3 H4. unfold pso_width in *. destruct (ps_max_vel a) as [| |m|] eqn:EM; [destruct (dsub u l); discriminate H4|discriminate H1| |unfold dgt in H2; discriminate H2].
  assert (M : (0 < m)%Z). { destruct (Z.le_gt_cases m 0) as [Q|Q]; [|exact Q]. assert (dle (Fin m) dzero = true) by (apply dle_fin; exact Q). congruence. }
  assert (D : dsub u l = NaN \/ dsub u l = PInf \/ exists z, dsub u l = Fin z /\ (0 <= z)%Z).
  { destruct l as [| |x|], u as [| |y|]; try discriminate H3; cbn [dsub dneg dadd]; auto. right. apply dle_fin in H3. pose proof (dsub_nonneg x y H3) as N. apply nonneg_cases in N. exact N. }
  destruct D as [D|[D|(z & D & Hz)]]; rewrite D in *; [discriminate H4| |].
  - cbn [dmul dsgn] in H4. unfold sgn_inf in H4. destruct (_ <? _)%Z in H4; [discriminate|]. destruct (_ <? _)%Z in H4; discriminate.
  - pose proof (nonneg_dmul_fin z m Hz ltac:(lia)) as N. apply nonneg_cases in N. destruct N as [N|N]; [rewrite N in H4; discriminate|exact N].
Qed.
Lemma wide (a : pso_params) l u : dle (ps_max_vel a) dzero = false -> dgt (ps_max_vel a) done = false -> dle l u = true -> ok_real (dneg (pso_width a l u)) (pso_width a l u) -> dle (dneg (pso_width a l u)) (pso_width a l u) = true.
Proof. intros H1 H2 H3 (_ & H4 & _). destruct (width_le a l u H1 H2 H3 H4) as (w & -> & W). apply dle_fin. lia. Qed.
Lemma move_box (a : pso_params) l u v x : dle l u = true -> let y := snd (pso_move1 a l u v x) in y = NaN \/ within l u y.
Proof.
  intros H. cbv zeta. unfold pso_move1. cbv zeta. match goal with |- context [dadd x ?w] => set (v1 := w) end. set (y := dadd x v1). destruct (dle_not_nan l u H) as [Nl Nu].
  destruct (dlt y l) eqn:D1; [right; split; [now apply dle_refl|exact H]|]. destruct (dgt y u) eqn:D2; [right; split; [exact H|now apply dle_refl]|]. cbn [snd].
  destruct y as [| |z|] eqn:EY; [left; reflexivity| | |]; right; (split; (apply dlt_false_dle; [discriminate || assumption|discriminate || assumption|assumption])).
Qed.
Definition pso_most (a : pso_params) (n : nat) : nat := n + 4 + ps_nparam a + n * ps_nparam a.
Lemma pso_ok_nan (a : pso_params) V0 (s : G * pop P) p : pso_construct a = Ok tt -> po_prob (snd s) = p -> valid_pop (snd s) -> plain_single p -> fitness_defined p -> po_id (snd s) <> [] -> (Z.of_nat (length (po_id (snd s))) < 2 ^ 31)%Z ->
  ring_fits a (length (po_id (snd s))) -> speeds_fit a V0 (length (po_id (snd s))) (get_nx p) ->
  ends (pso_evolve srt r a V0) s (fun V s' => valid_pop (snd s') /\ replaced (remembered p (in_box_or_nan (p_lb p) (p_ub p))) (snd s) (snd s') /\ evals (ps_gen a * length (po_id (snd s))) (snd s) (snd s') /\
    length V = length (po_id (snd s)) /\ forall v, In v V -> get_nx p <= length v) (pso_fails a p).
Proof.
  intros CO EP V PS FD NE HS HR HV. pose proof V as (PO & _). rewrite EP in PO. destruct (construct_facts a CO) as (C1 & C2 & C3 & C4 & C5). set (n := length (po_id (snd s))) in *.
  assert (Hn : 0 < n) by (unfold n; destruct (po_id (snd s)); [congruence|cbn; lia]).
  assert (T : forall x : list dbl, Forall (fun _ => True) x) by (intros x; apply Forall_forall; auto).
  eapply ends_weak; [apply (evolve_ok srt r RC a p n (pso_most a n) PO PS FD Hn (fun l u v => v = NaN \/ within l u v) (fun _ => True) (fun _ => True) (fun _ => True) (fun _ => True)) with (V0 := V0)| |auto]; auto.
  - intros i l u v x Nl Nu _ _. split; [auto|]. split; [auto|]. apply move_box. exact (prob_obj_ord p PO i l u Nl Nu).
  - intros i l u Nl Nu. apply wide; auto. exact (prob_obj_ord p PO i l u Nl Nu).
  - intros _. unfold pso_most. lia.
  - assert (2 ^ 31 < 2 ^ 64)%Z by reflexivity. lia.
  - unfold pso_most. lia.
  - intros V' s' (A & B & C & D & F). split; [exact A|]. split; [exact B|]. split; [exact C|]. split; [exact D|]. intros v Hv. now apply F.
Qed.
End S.

(** ** No NaN for numbers below 2^900 *)
Local Open Scope Z_scope.
Lemma p64 : 2 ^ 63 < 2 ^ 64. Proof. reflexivity. Qed.
Lemma p63 : 2 ^ 31 * 2 ^ 32 = 2 ^ 63. Proof. reflexivity. Qed.
Lemma p_small : 2 ^ 31 + 4 + 2 ^ 32 + 2 ^ 63 < 2 ^ 64. Proof. reflexivity. Qed.
Lemma four_2p2 : 4 <= 2 ^ 2. Proof. discriminate. Qed.
Local Opaque one_z Z.pow.
Lemma count_pos k : 1 <= k < 2 ^ 64 -> exists z, d_of_Z k = Fin z /\ 0 < z.
Proof.
  intros H. pose proof one_z_pos as OP. assert (B : bnd (1074 + 64) (d_of_Z k)). { unfold d_of_Z. apply bnd_rnd; [lia|lia|]. rewrite Z.abs_eq by nia. rewrite Z.pow_add_r by lia. rewrite <- one_z_eq. nia. }
  destruct B as (z & E & _). exists z. split; [exact E|]. assert (M : dle (d_of_Z 1) (d_of_Z k) = true) by (unfold d_of_Z; apply rnd_mono; [lia|nia]). rewrite d_of_Z_int in M by (apply small53; lia). rewrite E in M. unfold dint in M. apply dle_fin in M. lia.
Qed.
Lemma dadd_nn s t : s <> NaN -> isfinite t = true -> dadd s t <> NaN.
Proof. destruct s, t; try discriminate; try congruence; intros _ _; cbn [dadd]; apply rnd_not_nan. Qed.
Lemma bnd_finite k x : bnd k x -> isfinite x = true. Proof. intros (z & -> & _). reflexivity. Qed.
Lemma dadd_nn' s t : t <> NaN -> isfinite s = true -> dadd s t <> NaN.
Proof. destruct s, t; try discriminate; try congruence; intros _ _; cbn [dadd]; apply rnd_not_nan. Qed.
Lemma four_bnd x : within dzero dfour x -> bnd 1076 x.
Proof. intros H. apply (bnd_within 1076 dzero dfour); [exists 0; split; [reflexivity|]; rewrite Z.abs_0; apply Z.pow_nonneg; lia| |exact H]. rewrite dfour_eq. change 1076 with (1074 + 2). apply bnd_fin; [lia|lia|exact four_2p2]. Qed.
Section B.
Context (a : pso_params) (PV : pso_valid a).
Lemma pull_nn v l x b r1 r2 : bnd 1975 v -> bnd 1974 l -> bnd 1974 x -> bnd 1974 b -> within dzero done r1 -> within dzero done r2 -> pso_pull a v l x b r1 r2 <> NaN.
Proof.
  intros Bv Bl Bx Bb [U1 U2] [W1 W2]. destruct PV as ((O1 & O2) & E1 & E2 & _). pose proof (bnd_unit _ O1 O2) as BO. pose proof (four_bnd _ E1) as BE1. pose proof (four_bnd _ E2) as BE2. pose proof (bnd_unit _ U1 U2) as BR1. pose proof (bnd_unit _ W1 W2) as BR2.
  assert (C : forall e rr y, bnd 1076 e -> bnd 1074 rr -> bnd 1974 y -> bnd 1977 (dmul (dmul e rr) (dsub y x))).
  { intros e rr y Be Br By. change 1977 with (1975 + 2). apply bnd_mul; [lia|lia|lia| |]; [apply bnd_mul_unit_r; [lia|exact Be|exact Br]|]. change 1975 with (1974 + 1). apply bnd_sub; [lia|exact By|exact Bx]. }
  unfold pso_pull. cbv zeta. destruct (Nat.eqb _ _).
  - apply (bnd_not_nan 1979). apply bnd_mul_unit; [lia|exact BO|]. change 1979 with (1978 + 1). apply bnd_add; [lia| |apply (bnd_weak 1977); [lia|now apply C]]. change 1978 with (1977 + 1). apply bnd_add; [lia|apply (bnd_weak 1975); [lia|exact Bv]|now apply C].
  - apply (bnd_not_nan 1979). change 1979 with (1978 + 1). apply bnd_add; [lia| |apply (bnd_weak 1977); [lia|now apply C]]. change 1978 with (1977 + 1). apply bnd_add; [lia| |now apply C]. apply (bnd_weak 1975); [lia|]. apply bnd_mul_unit; [lia|exact BO|exact Bv].
Qed.
Lemma sum_nn s u l x : s <> NaN -> within dzero done u -> bnd 1974 l -> bnd 1974 x -> dadd s (dmul (dmul u (dadd (ps_eta1 a) (ps_eta2 a))) (dsub l x)) <> NaN.
Proof.
  intros Hs [U1 U2] Bl Bx. destruct PV as (_ & E1 & E2 & _). apply dadd_nn; [exact Hs|]. apply (bnd_finite (1975 + 3)). apply bnd_mul; [lia|lia|lia| |].
  - apply bnd_mul_unit; [lia|now apply bnd_unit|]. change (1074 + 3) with (1076 + 1). apply bnd_add; [lia|now apply four_bnd|now apply four_bnd].
  - change 1975 with (1974 + 1). apply bnd_sub; [lia|exact Bl|exact Bx].
Qed.
Lemma fips_nn v s k : dlt dzero (ps_omega a) = true -> bnd 1975 v -> s <> NaN -> 1 <= k < 2 ^ 64 -> dmul (ps_omega a) (dadd v (ddiv s (d_of_Z k))) <> NaN.
Proof.
  intros HO Bv Hs Hk. destruct PV as ((O1 & O2) & _). destruct (count_pos k Hk) as (z & -> & Hz).
  assert (D : ddiv s (Fin z) <> NaN). { destruct s as [| |x|]; [congruence| | |]; cbn [ddiv]; destruct (Z.ltb_spec z 0); try lia; try discriminate. destruct (Z.eqb_spec z 0); [lia|]. apply rnd_not_nan. }
  pose proof (dadd_nn' v _ D (bnd_finite _ _ Bv)) as A. destruct (bnd_unit _ O1 O2) as (o & Eo & _). rewrite Eo in *. apply dlt_fin in HO. destruct (dadd v (ddiv s (Fin z))) as [| |y|]; [congruence| | |]; cbn [dmul dsgn]; [| apply rnd_not_nan|].
  all: rewrite Z.sgn_pos by exact HO; discriminate.
Qed.
Lemma move_bnd l u v x : dle l u = true -> bnd 1974 l -> bnd 1974 u -> bnd 1974 x -> v <> NaN -> bnd 1975 (fst (pso_move1 a l u v x)) /\ bnd 1974 (snd (pso_move1 a l u v x)) /\ within l u (snd (pso_move1 a l u v x)).
Proof.
  intros HL Bl Bu Bx Nv. destruct PV as (_ & _ & _ & M1 & M2 & _). assert (BM : bnd 1074 (ps_max_vel a)). { apply bnd_unit; [now apply dlt_dle|exact M2]. }
  assert (BW : bnd 1975 (pso_width a l u)). { unfold pso_width. apply bnd_mul_unit_r; [lia| |exact BM]. change 1975 with (1974 + 1). apply bnd_sub; [lia|exact Bu|exact Bl]. }
  assert (M0 : dle (ps_max_vel a) dzero = false). { destruct (dle (ps_max_vel a) dzero) eqn:Q; [|reflexivity]. apply dle_dlt_false in Q. congruence. }
  assert (M3 : dgt (ps_max_vel a) done = false) by (unfold dgt; now apply dle_dlt_false).
  destruct (width_le a l u M0 M3 HL (bnd_finite _ _ BW)) as (w & EW & Hw).
  unfold pso_move1. cbv zeta. rewrite EW in *. set (v1 := if dgt v (Fin w) then Fin w else if dlt v (dneg (Fin w)) then dneg (Fin w) else v).
  assert (B1 : bnd 1975 v1).
  { unfold v1. destruct (dgt v (Fin w)) eqn:D1; [exact BW|]. destruct (dlt v (dneg (Fin w))) eqn:D2; [now apply bnd_neg|]. unfold dgt in D1. apply (bnd_within 1975 (dneg (Fin w)) (Fin w)); [now apply bnd_neg|exact BW|]. cbn [dneg] in *. split; apply dlt_false_dle; auto; discriminate. }
  clearbody v1. assert (NY : dadd x v1 <> NaN). { apply (bnd_not_nan 1976). change 1976 with (1975 + 1). apply bnd_add; [lia|apply (bnd_weak 1974); [lia|exact Bx]|exact B1]. }
  destruct (dle_not_nan l u HL) as [Nl Nu]. assert (B0 : bnd 1975 dzero) by (exists 0; split; [reflexivity|rewrite Z.abs_0; apply Z.pow_nonneg; lia]).
  destruct (dlt (dadd x v1) l) eqn:D1; cbn [fst snd]; [split; [exact B0|split; [exact Bl|split; [now apply dle_refl|exact HL]]]|].
  destruct (dgt (dadd x v1) u) eqn:D2; cbn [fst snd]; [split; [exact B0|split; [exact Bu|split; [exact HL|now apply dle_refl]]]|].
  assert (W : within l u (dadd x v1)) by (split; apply dlt_false_dle; auto). split; [exact B1|]. split; [|exact W]. now apply (bnd_within 1974 l u).
Qed.
End B.
Close Scope Z_scope.
Lemma pso_ok_box {G P} srt (r : rng G) (RC : rng_contract r) (a : pso_params) V0 (s : G * pop P) p : pso_valid a -> (ps_variant a = 6 -> dlt dzero (ps_omega a) = true) -> (Z.of_nat (ps_nparam a) < 2 ^ 32)%Z ->
  po_prob (snd s) = p -> valid_pop (snd s) -> plain_single p -> fitness_defined p -> po_id (snd s) <> [] -> (Z.of_nat (length (po_id (snd s))) < 2 ^ 31)%Z ->
  ring_fits a (length (po_id (snd s))) -> speeds_fit a V0 (length (po_id (snd s))) (get_nx p) ->
  (forall l, In l (p_lb p) -> below_2p900 l) -> (forall u, In u (p_ub p) -> below_2p900 u) -> (forall x v, In x (po_x (snd s)) -> In v x -> below_2p900 v) -> (forall x v, In x V0 -> In v x -> below_2p900 v) ->
  ends (pso_evolve srt r a V0) s (fun V s' => valid_pop (snd s') /\ replaced (remembered p (in_box (p_lb p) (p_ub p))) (snd s) (snd s') /\ evals (ps_gen a * length (po_id (snd s))) (snd s) (snd s') /\
    length V = length (po_id (snd s)) /\ forall v, In v V -> get_nx p <= length v) (pso_fails a p).
Proof.
  intros PV HO HP EP V PS FD NE HS HR HV BL BU BX BV. pose proof V as (PO & _). rewrite EP in PO. set (n := length (po_id (snd s))) in *.
  assert (Hn : 0 < n) by (unfold n; destruct (po_id (snd s)); [congruence|cbn; lia]). pose proof PV as (_ & _ & _ & M1 & M2 & VA & NT & NP).
  assert (M0 : dle (ps_max_vel a) dzero = false). { destruct (dle (ps_max_vel a) dzero) eqn:Q; [|reflexivity]. apply dle_dlt_false in Q. congruence. }
  assert (M3 : dgt (ps_max_vel a) done = false) by (unfold dgt; now apply dle_dlt_false).
  assert (B0 : forall k, (0 <= k)%Z -> bnd k dzero) by (intros k Hk; exists 0%Z; split; [reflexivity|rewrite Z.abs_0; apply Z.pow_nonneg; lia]).
  assert (ML : (Z.of_nat (pso_most a n) < 2 ^ 64)%Z). { unfold pso_most. rewrite !Nat2Z.inj_add, Nat2Z.inj_mul. pose proof p_small. pose proof p63. assert (Z.of_nat n * Z.of_nat (ps_nparam a) <= 2 ^ 31 * 2 ^ 32)%Z by (apply Z.mul_le_mono_nonneg; lia). lia. }
  eapply ends_weak; [apply (evolve_ok srt r RC a p n (pso_most a n) PO PS FD Hn (fun l u v => within l u v) (bnd 1974) (bnd 1975) (fun v => v <> NaN) (fun v => v <> NaN)) with (V0 := V0)| |auto]; auto.
  - apply B0. lia.
  - discriminate.
  - intros v l x b r1 r2 _ H1 H2 H3 H4 H5 H6. now apply pull_nn.
  - intros s' u l x H1 H2 H3 H4. now apply sum_nn.
  - intros v s' k H6 H1 H2 H3. apply fips_nn; auto. lia.
  - intros i l u v x Nl Nu Gx Rv. apply move_bnd; auto; [exact (prob_obj_ord p PO i l u Nl Nu)|apply BL; eapply nth_error_In; eauto|apply BU; eapply nth_error_In; eauto].
  - intros i l u v Nl Nu W. assert (BW : bnd 1975 (pso_width a l u)). { unfold pso_width. apply bnd_mul_unit_r; [lia| |apply bnd_unit; [now apply dlt_dle|exact M2]]. change 1975%Z with (1974 + 1)%Z. apply bnd_sub; [lia|apply BU; eapply nth_error_In; eauto|apply BL; eapply nth_error_In; eauto]. }
    apply (bnd_within 1975 (dneg (pso_width a l u)) (pso_width a l u)); [now apply bnd_neg|exact BW|exact W].
  - intros i l u Nl Nu. apply wide; auto. exact (prob_obj_ord p PO i l u Nl Nu).
  - intros _. unfold pso_most. lia.
  - assert (2 ^ 31 < 2 ^ 64)%Z by (vm_compute; reflexivity). lia.
  - unfold pso_most. lia.
  - intros EM EL v Hv. split; [now apply HV|]. apply Forall_forall. intros w Hw. apply (bnd_weak 1974); [lia|]. now apply (BV v).
  - intros V' s' (A & B & C & D & F). split; [exact A|]. split; [exact B|]. split; [exact C|]. split; [exact D|]. intros v Hv. now apply F.
Qed.
