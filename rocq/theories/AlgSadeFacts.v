From Coq Require Import List Bool Arith ZArith Lia.
From Verif Require Import Dbl DblFacts IntDbl Outcome BaseFacts StdSort Problem SpecProblem ProblemFacts Rng Generic SpecGeneric GenericFacts3 SpecGenetic RmFacts
  GeneticOps GeneticFacts Population SpecPopulation PopulationFacts PopulationFacts3 Algo SpecAlgo AlgoFacts AlgoFacts2 AlgDe AlgDeFacts AlgDeFacts2 AlgSade SpecSade.
Import ListNotations.
Local Opaque one_z.

Definition good_variant (v : nat) : Prop := 1 <= v <= 18.
Lemma good_cases v (Q : nat -> Prop) : good_variant v -> Q 1 -> Q 2 -> Q 3 -> Q 4 -> Q 5 -> Q 6 -> Q 7 -> Q 8 -> Q 9 -> Q 10 -> Q 11 -> Q 12 -> Q 13 -> Q 14 -> Q 15 -> Q 16 -> Q 17 -> Q 18 -> Q v.
Proof. intros [A B]. intros. do 19 (destruct v as [|v]; [first [lia|assumption]|]). lia. Qed.

(** ** The mutated component *)
Definition mut2 (variant : nat) (F best cur par x0 x1 x2 x3 x4 x5 x6 : dbl) : dbl :=
  match strategy variant with
  | 0 => dadd best (dmul F (dsub x1 x2))
  | 1 => dadd x0 (dmul F (dsub x1 x2))
  | 2 => dadd (dadd cur (dmul F (dsub best cur))) (dmul F (dsub x0 x1))
  | 3 => dadd (dadd best (dmul (dsub x0 x1) F)) (dmul (dsub x2 x3) F)
  | 4 => dadd (dadd x4 (dmul (dsub x0 x1) F)) (dmul (dsub x2 x3) F)
  | 5 => dadd (dadd (dadd x0 (dmul (dsub x1 x2) F)) (dmul (dsub x3 x4) F)) (dmul (dsub x5 x6) F)
  | 6 => dadd (dadd (dadd best (dmul (dsub x1 x2) F)) (dmul (dsub x3 x4) F)) (dmul (dsub x5 x6) F)
  | 7 => dadd (dadd x0 (dmul (dsub x1 par) F)) (dmul (dsub x2 x3) F)
  | _ => dsub (dadd x0 (dmul (dsub x1 par) F)) (dmul (dsub x2 best) F)
  end.
Lemma mut2_same v F b o x0 x1 x2 x3 x4 x5 x6 : mut2 v F b o o x0 x1 x2 x3 x4 x5 x6 = sade_formula v F b o x0 x1 x2 x3 x4 x5 x6.
Proof. reflexivity. Qed.
Definition seven (NP : nat) (ri : list nat) : Prop := length ri = 7 /\ NoDup ri /\ forall a, In a ri -> a < NP.
Lemma sade_value_formula v F dim old gb ri i tmp m c : good_variant v -> (forall x, In x old -> length x = dim) -> length gb = dim -> seven (length old) ri -> i < length old ->
  nth_error tmp m = Some c -> length tmp = dim ->
  sade_value v F old gb ri i tmp m = Ok (mut2 v F (nth m gb NaN) c (comp old i m) (comp old (nth 0 ri 0) m) (comp old (nth 1 ri 0) m) (comp old (nth 2 ri 0) m) (comp old (nth 3 ri 0) m) (comp old (nth 4 ri 0) m) (comp old (nth 5 ri 0) m) (comp old (nth 6 ri 0) m)).
Proof.
  intros GV LO LG (L7 & _ & R7) Hi Et Lt. unfold sade_value. assert (Hm : m < dim) by (rewrite <- Lt; apply nth_error_Some; congruence).
  assert (C : forall k, k < 7 -> bind (vget ri k) (fun a => at2 old a m) = Ok (comp old (nth k ri 0) m)).
  { intros k Hk. rewrite (vget_nth ri k 0) by lia. cbn [bind]. apply vget_comp; [apply R7; apply nth_In; lia|]. intros x Hx. now rewrite (LO x Hx). }
  rewrite !C by lia. rewrite (vget_nth gb m NaN) by lia. rewrite vget_comp by (try exact Hi; intros x Hx; now rewrite (LO x Hx)).
  unfold vget. rewrite Et. cbn [bind]. unfold mut2. pattern v. apply good_cases; [exact GV|..]; reflexivity.
Qed.
Lemma is_exp_iff v : good_variant v -> is_exp v = true <-> exponential v.
Proof. intros GV. unfold exponential. pattern v. apply good_cases; [exact GV|..]; cbn; intuition (try congruence; try discriminate; auto 12). Qed.

(** ** The trial vector *)
Section T.
Context {G : Type} (r : rng G) (RC : rng_contract r).
Lemma seven_ok NP E : 7 <= NP -> always (pick_seven r NP) (seven NP) E.
Proof. exact (pick_some_ok r RC 7 NP E). Qed.
Lemma run_dec dim n L m : in_run dim n L m \/ ~ in_run dim n L m.
Proof.
  destruct (existsb (fun k => Nat.eqb m ((n + k) mod dim)) (seq 0 L)) eqn:B.
  - left. apply existsb_exists in B. destruct B as (k & Hk & B). apply in_seq in Hk. apply Nat.eqb_eq in B. exists k. split; [lia|exact B].
  - right. intros (k & Hk & ->). assert (existsb (fun k0 => Nat.eqb ((n + k) mod dim) ((n + k0) mod dim)) (seq 0 L) = true); [|congruence].
    apply existsb_exists. exists k. split; [apply in_seq; lia|apply Nat.eqb_refl].
Qed.
Lemma sade_trial_run v F CR dim old gb ri i E : 1 <= v <= 18 -> 1 <= dim -> (forall x, In x old -> length x = dim) -> length gb = dim -> seven (length old) ri -> i < length old ->
  always (sade_trial r v F CR dim old gb ri i) (fun t => length t = dim /\
    (forall m, m < dim -> nth m t NaN = sade_mutant v F old gb ri i m \/ nth m t NaN = comp old i m) /\
    (exists m, m < dim /\ nth m t NaN = sade_mutant v F old gb ri i m) /\
    (exponential v -> exists n L, n < dim /\ 1 <= L <= dim /\ forall m, m < dim ->
       (in_run dim n L m -> nth m t NaN = sade_mutant v F old gb ri i m) /\ (~ in_run dim n L m -> nth m t NaN = comp old i m))) E.
Proof.
  intros GV HD LO LG F7 Hi. unfold sade_trial. destruct (vget_in_range old i Hi) as (x & Ex & Nx). pose proof (LO x (nth_error_In _ _ Nx)) as Lx.
  eapply always_bind; [apply (always_vget _ _ x (fun v => v = x)); auto|]. intros t ->.
  eapply always_bind; [apply (draw_int_ok r RC 0 (Z.of_nat dim - 1)); lia|]. intros n Hn. cbv beta in Hn.
  set (mu := fun m c => mut2 v F (nth m gb NaN) c (comp old i m) (comp old (nth 0 ri 0) m) (comp old (nth 1 ri 0) m) (comp old (nth 2 ri 0) m) (comp old (nth 3 ri 0) m) (comp old (nth 4 ri 0) m) (comp old (nth 5 ri 0) m) (comp old (nth 6 ri 0) m)).
  assert (HV : forall t m c, nth_error t m = Some c -> length t = dim -> sade_value v F old gb ri i t m = Ok (mu m c)) by (intros t m c A B; apply (sade_value_formula v F dim); auto).
  assert (CX : forall m, m < dim -> nth_error x m = Some (comp old i m)). { intros m Hm. unfold comp. rewrite (nth_error_nth old i [] Nx). apply nth_error_nth'. lia. }
  assert (MU : forall m, mu m (comp old i m) = sade_mutant v F old gb ri i m) by reflexivity.
  destruct (is_exp v) eqn:C.
  - eapply always_weak; [apply (exp_loop_run r RC _ dim mu (sade_value v F old gb ri i) HV E dim (Z.to_nat n) x); lia| |auto].
    intros t (Lt & L & H1 & H2 & H). split; [exact Lt|].
    assert (K : forall m, m < dim -> (in_run dim (Z.to_nat n) L m -> nth m t NaN = sade_mutant v F old gb ri i m) /\ (~ in_run dim (Z.to_nat n) L m -> nth m t NaN = comp old i m)).
    { intros m Hm. destruct (H m _ (CX m Hm)) as [K1 K2]. split; intros X; apply nth_error_nth; [rewrite <- MU|]; auto. }
    split; [intros m Hm; destruct (run_dec dim (Z.to_nat n) L m); [left|right]; now apply K|]. split.
    + exists (Z.to_nat n). split; [lia|]. apply K; [lia|]. exists 0. split; [lia|]. rewrite Nat.add_0_r. symmetry. apply Nat.mod_small. lia.
    + intros _. exists (Z.to_nat n), L. split; [lia|]. split; [lia|]. exact K.
  - eapply always_weak; [apply (bin_loop_run r RC _ dim mu (sade_value v F old gb ri i) HV E (Z.to_nat n) x); lia| |auto].
    intros t (Lt & (m0 & c0 & Q1 & Q2) & H). split; [exact Lt|]. split; [|split].
    + intros m Hm. destruct (H m _ (CX m Hm)) as [K|K]; [left; rewrite <- MU|right]; now apply nth_error_nth.
    + assert (Hm : m0 < dim) by (rewrite <- Lx; apply nth_error_Some; congruence). exists m0. split; [exact Hm|]. assert (c0 = comp old i m0) by (rewrite (CX m0 Hm) in Q1; congruence). subst c0. rewrite <- MU. now apply nth_error_nth.
    + intros X. apply (is_exp_iff v GV) in X. congruence.
Qed.
End T.

(** ** Adapting F, CR and the variant; FV and CV are what is kept true of F and CR *)
Section D.
Context {G P : Type} (r : rng G) (RC : rng_contract r) (srt : sorter) (a : sade_params).
Context (FV CV : dbl -> Prop) (HF : forall E, always (draw_F r) FV E) (HC : forall E, always (draw01 r) CV E).
Context (H2 : sa_adptv a <> 1 -> (forall x, FV x) /\ (forall x, CV x)).
Definition pool_ok : Prop := match sa_pool a with Fixed v => good_variant v | Among l => l <> [] /\ (forall v, In v l -> good_variant v) /\ (Z.of_nat (length l) <= 2 ^ 64)%Z end.
Context (PK : pool_ok).
Definition permitted (v : nat) : Prop := match sa_pool a with Fixed w => v = w | Among l => In v l end.
Definition V_ok (V : list nat) : Prop := match sa_pool a with Fixed _ => True | Among l => forall v, In v V -> In v l end.
Definition vals (k : kept) : Prop := Forall FV (k_F k) /\ Forall CV (k_CR k) /\ V_ok (k_V k).
Definition full (NP : nat) (k : kept) : Prop :=
  length (k_F k) = NP /\ length (k_CR k) = NP /\ match sa_pool a with Fixed _ => True | Among _ => length (k_V k) = NP end /\ vals k.
Lemma permitted_good v : permitted v -> good_variant v.
Proof. unfold permitted. unfold pool_ok in PK. destruct (sa_pool a) as [w|l]; [intros ->; exact PK|]. apply PK. Qed.

Lemma norm_any E : always (draw_norm r) (fun _ => True) E.
Proof. intros g. unfold draw_norm, rdraw. now destruct (g_norm r dzero done g). Qed.
Lemma half_any E : always (draw_half r) (fun _ => True) E.
Proof. unfold draw_half. eapply always_bind; [apply norm_any|]. intros z _. now apply always_ret. Qed.
Lemma draw_variant_ok l E : l <> [] -> (Z.of_nat (length l) <= 2 ^ 64)%Z -> always (draw_variant r l) (fun v => In v l) E.
Proof.
  intros NE L. unfold draw_variant. assert (0 < length l) by (destruct l; [congruence|cbn; lia]).
  rewrite Z.mod_small by (revert L; generalize (2 ^ 64)%Z; lia).
  eapply always_bind; [apply (draw_int_ok r RC); lia|]. intros k Hk. cbv beta in Hk. destruct (nth_ex l (Z.to_nat k) ltac:(lia)) as (v & Ev).
  apply (always_vget _ _ v (fun v => In v l)); [exact Ev|]. eapply nth_error_In; eauto.
Qed.
Lemma forall2_len {A B} (R : A -> B -> Prop) l1 l2 : Forall2 R l1 l2 -> length l2 = length l1.
Proof. induction 1; cbn; congruence. Qed.
Lemma forall2_r {A B} (Q : B -> Prop) (l1 : list A) l2 : Forall2 (fun _ => Q) l1 l2 -> Forall Q l2.
Proof. induction 1; auto. Qed.
Lemma start_kept_ok k NP E : vals k -> always (start_kept r a k NP) (full NP) E.
Proof.
  intros HV. unfold start_kept. destruct (start_new a k NP) eqn:SN.
  - eapply always_bind with (P := fun FC => Forall2 (fun (_ : nat) c => FV (fst c) /\ CV (snd c)) (seq 0 NP) FC).
    { apply always_map. intros j _. destruct (Nat.eqb_spec (sa_adptv a) 1) as [E1|E1].
      - eapply always_bind; [apply HC|]. intros c Hc. eapply always_bind; [apply HF|]. intros f Hf. apply always_ret. split; assumption.
      - destruct (H2 E1) as [X1 X2]. eapply always_bind; [apply half_any|]. intros c _. eapply always_bind; [apply half_any|]. intros f _. apply always_ret. split; auto. }
    intros FC HFC. eapply always_bind with (P := fun V => V_ok V /\ match sa_pool a with Fixed _ => True | Among _ => length V = NP end).
    { unfold V_ok. unfold pool_ok in PK. destruct (sa_pool a) as [w|l]; [now apply always_ret|]. destruct PK as (NE & _ & LB).
      eapply always_weak with (E := E); [apply (always_map _ (fun _ v => In v l)); intros j _; apply draw_variant_ok; assumption| |auto].
      intros V HVV. split; [apply forall2_r in HVV; now rewrite Forall_forall in HVV|]. apply forall2_len in HVV. rewrite HVV. apply seq_length. }
    intros V [V1 V2]. apply always_ret. unfold full, vals. cbn [k_F k_CR k_V]. rewrite !map_length, (forall2_len _ _ _ HFC), seq_length. split; [reflexivity|]. split; [reflexivity|]. split; [exact V2|].
    apply forall2_r in HFC. rewrite Forall_forall in HFC. split; [|split; [|exact V1]]; apply Forall_forall; intros v Hv; apply in_map_iff in Hv; destruct Hv as (c & <- & Hc); now apply HFC.
  - apply always_ret. unfold start_new in SN. apply orb_false_elim in SN. destruct SN as [SN _]. apply orb_false_elim in SN. destruct SN as [SN S3]. apply orb_false_elim in SN. destruct SN as [S1 S2].
    apply negb_false_iff, Nat.eqb_eq in S1, S2. unfold full. split; [exact S2|]. split; [exact S1|]. split; [|exact HV]. destruct (sa_pool a); [exact I|]. now apply negb_false_iff, Nat.eqb_eq in S3.
Qed.
Lemma noise_any x y E : always (noise r x y) (fun _ => True) E.
Proof. unfold noise. eapply always_bind; [apply norm_any|]. intros z _. now apply always_ret. Qed.
Ltac steps := repeat (first [ now apply always_ret | eapply always_bind; [first [apply noise_any|apply norm_any]|intros ? _] ]).
Lemma look (M : list dbl) NP ri j E : seven NP ri -> length M = NP -> j < 7 -> always (G := G) (rlift (bind (vget ri j) (vget M))) (fun _ => True) E.
Proof.
  intros (L & _ & R) LM Hj. destruct (vget_in_range ri j ltac:(lia)) as (b & Eb & Nb). apply always_lift. rewrite Eb. cbn [bind].
  destruct (vget_in_range M b) as (v & -> & _); [rewrite LM; apply R; eapply nth_error_In; eauto|exact I].
Qed.
Lemma ide_F_any v i M g ri NP E : good_variant v -> seven NP ri -> length M = NP -> i < NP -> always (ide_F r v i M g ri) (fun _ => True) E.
Proof.
  intros GV S7 LM Hi. unfold ide_F. destruct (vget_in_range M i ltac:(lia)) as (mi & Ei & Ni).
  eapply always_bind; [apply (always_vget _ _ mi (fun _ => True)); auto|]. intros m' _. cbv zeta.
  do 7 (eapply always_bind; [apply (look M NP); auto; lia|intros ? _]). pattern v. apply good_cases; [exact GV|..]; cbv beta iota; steps.
Qed.
Lemma ide_CR_any v i M g ri NP E : good_variant v -> seven NP ri -> length M = NP -> i < NP -> always (ide_CR r v i M g ri) (fun _ => True) E.
Proof.
  intros GV S7 LM Hi. unfold ide_CR. destruct (vget_in_range M i ltac:(lia)) as (mi & Ei & Ni).
  eapply always_bind; [apply (always_vget _ _ mi (fun _ => True)); auto|]. intros m' _. cbv zeta.
  do 5 (eapply always_bind; [apply (look M NP); auto; lia|intros ? _]).
  pose proof (fun E' => ide_F_any v i M g ri NP E' GV S7 LM Hi) as K. revert K. pattern v. apply good_cases; [exact GV|..]; cbv beta iota; intros K; first [apply K|steps].
Qed.
Lemma choose_ok k i NP E : full NP k -> i < NP -> always (choose_variant r a k i) permitted E.
Proof.
  intros (L1 & L2 & L3 & F1 & F2 & F3) Hi. unfold choose_variant, permitted. unfold V_ok in F3. unfold pool_ok in PK. destruct (sa_pool a) as [w|l]; [now apply always_ret|].
  eapply always_bind; [apply (draw01_any r RC)|]. intros u _. destruct (dlt u lit_0_9).
  - destruct (vget_in_range (k_V k) i ltac:(lia)) as (v & Ev & Nv). apply (always_vget _ _ v (fun v => In v l)); [exact Nv|]. apply F3. eapply nth_error_In; eauto.
  - apply draw_variant_ok; apply PK.
Qed.
Definition adapted (w : nat * dbl * dbl) : Prop := permitted (fst (fst w)) /\ FV (snd (fst w)) /\ CV (snd w).
Lemma adapt_ok st ri i NP E : full NP (s_kept st) -> seven NP ri -> i < NP -> always (adapt r a st ri i) adapted E.
Proof.
  intros FU S7 Hi. pose proof FU as (L1 & L2 & L3 & F1 & F2 & F3). unfold adapt. eapply always_bind; [apply (choose_ok _ i NP); assumption|]. intros v Hv.
  destruct (Nat.eqb_spec (sa_adptv a) 1) as [E1|E1].
  - eapply always_bind; [apply (draw01_any r RC)|]. intros u _. eapply always_bind with (P := FV).
    { destruct (dlt u lit_0_9); [|apply HF]. destruct (Forall_nth_ok FV (k_F (s_kept st)) i F1 ltac:(lia)) as (f & _ & Nf & Vf). now apply (always_vget _ _ f FV). }
    intros F HFv. eapply always_bind; [apply (draw01_any r RC)|]. intros w _. eapply always_bind with (P := CV).
    { destruct (dlt w lit_0_9); [|apply HC]. destruct (Forall_nth_ok CV (k_CR (s_kept st)) i F2 ltac:(lia)) as (f & _ & Nf & Vf). now apply (always_vget _ _ f CV). }
    intros CR HCv. apply always_ret. split; [exact Hv|split; assumption].
  - destruct (H2 E1) as [X1 X2]. eapply always_bind; [apply (ide_F_any v i _ _ ri NP); auto; now apply permitted_good|]. intros F _.
    eapply always_bind; [apply (ide_CR_any v i _ _ ri NP); auto; now apply permitted_good|]. intros CR _. apply always_ret. split; [exact Hv|split; auto].
Qed.

(** ** One individual *)
Context (p : problem) (PO : prob_obj p) (NC : get_nc p = 0) (NF : get_nf p = 1) (FD : fitness_defined p).
Context (Val Res : dbl -> Prop) (Box : list dbl -> Prop).
Context (VR : forall v F g t xi x0 x1 x2 x3 x4 x5 x6, good_variant v -> FV F -> Val g -> Val t -> Val xi -> Val x0 -> Val x1 -> Val x2 -> Val x3 -> Val x4 -> Val x5 -> Val x6 ->
  Res (mut2 v F g t xi x0 x1 x2 x3 x4 x5 x6)).
Context (HB : forall x y, length x = get_nx p -> Forall (Any Val Res) x -> bounded_from (p_lb p) (p_ub p) x y -> Box y /\ Forall Val y).
Let dd := mkde 0 dzero dzero 1 dzero dzero.
Lemma dd_var F CR : 1 <= de_variant (mkde 0 F CR 1 dzero dzero) <= 10.
Proof. cbn. lia. Qed.
Local Notation goodx := (AlgDeFacts.goodx p Val).
Lemma good_comp old k n : Forall goodx old -> k < length old -> n < get_nx p -> Val (comp old k n).
Proof.
  intros FO Hk Hn. unfold comp. destruct (Forall_nth_ok goodx old k FO Hk) as (x & _ & Nx & Lx & Vx). rewrite (nth_error_nth old k [] Nx). rewrite Forall_forall in Vx. apply Vx. apply nth_In. lia.
Qed.
Lemma sade_trial_ok v F CR old gb ri i E : good_variant v -> FV F -> Forall goodx old -> goodx gb -> seven (length old) ri -> i < length old ->
  always (sade_trial r v F CR (get_nx p) old gb ri i) (fun t => length t = get_nx p /\ Forall (Any Val Res) t) E.
Proof.
  intros GV HFv FO (Lg & Vg) S7 Hi. unfold sade_trial. destruct (Forall_nth_ok goodx old i FO Hi) as (x & Ex & Ex' & Lx & Vx). destruct (prob_obj_facts p PO) as (NX & _).
  eapply always_bind; [apply (always_vget _ _ x (fun v => v = x)); auto|]. intros t ->.
  eapply always_bind; [apply (draw_int_ok r RC 0 (Z.of_nat (get_nx p) - 1)); lia|]. intros n Hn. cbv beta in Hn.
  assert (LO : forall x, In x old -> length x = get_nx p) by (intros y Hy; rewrite Forall_forall in FO; now apply FO).
  pose proof S7 as (L7 & _ & R7).
  assert (HV : forall t m, length t = get_nx p -> m < get_nx p -> (forall w, nth_error t m = Some w -> Val w) -> exists w, sade_value v F old gb ri i t m = Ok w /\ Res w).
  { intros t m Lt Hm VT. destruct (nth_ex t m ltac:(lia)) as (c & Ec). eexists. split; [apply (sade_value_formula v F (get_nx p)); eauto|].
    assert (C : forall k, k < 7 -> Val (comp old (nth k ri 0) m)) by (intros k Hk; apply good_comp; auto; apply R7; apply nth_In; lia).
    apply VR; auto; try (apply C; lia); [rewrite Forall_forall in Vg; apply Vg; apply nth_In; lia|now apply good_comp]. }
  destruct (is_exp v).
  - apply (exp_loop_ok r RC _ p NC NF Val Res (dd_var F CR)); auto; [lia|eapply Forall_impl; [|exact Vx]; intros; now left|]. intros j w _ Hw. rewrite Forall_forall in Vx. apply Vx. eapply nth_error_In; eauto.
  - apply (bin_loop_ok r RC _ p NC NF Val Res (dd_var F CR)); auto. lia.
Qed.

Local Notation better_point := (SpecAlgo.better_point p Box).
Local Notation fails := (SpecAlgo.fails p).
Context (s0 : pop P) (EP0 : po_prob s0 = p) (V0 : valid_pop s0).
Let NP := length (po_id s0).
Definition sinv (k : nat) (st : sst) (s : G * pop P) : Prop := AlgDeFacts.inv p Val Box s0 k (s_de st) s /\ full NP (s_kept st).
Lemma full_upd k i F CR V : full NP k -> FV F -> CV CR -> match sa_pool a with Fixed _ => V = k_V k | Among _ => exists v, permitted v /\ V = upd (k_V k) i v end ->
  full NP (mkkept (upd (k_F k) i F) (upd (k_CR k) i CR) V).
Proof.
  intros (L1 & L2 & L3 & F1 & F2 & F3) HFv HCv HVv. unfold full, vals. cbn [k_F k_CR k_V]. rewrite !upd_len. unfold permitted, V_ok in *. split; [exact L1|]. split; [exact L2|].
  destruct (sa_pool a) as [w|l].
  - split; [exact I|]. split; [now apply forall_upd|]. split; [now apply forall_upd|]. exact I.
  - destruct HVv as (v & PV & ->). rewrite upd_len. split; [exact L3|]. split; [now apply forall_upd|]. split; [now apply forall_upd|]. intros w Hw. apply upd_in in Hw. destruct Hw as [->|Hw]; auto.
Qed.
Lemma sade_one_ok k st s i : 7 <= NP -> i < NP -> sinv k st s -> ends (sade_one r a p NP st i) s (sinv (k + 1)) fails.
Proof.
  intros H7 Hi ((V & RP & FE & EF & L1 & L2 & G1 & G2 & G3 & G4 & L3) & FU). pose proof RP as (E1 & E2 & E3 & E4 & RR).
  assert (EP : po_prob (snd s) = p) by congruence. pose proof V as (_ & (S1 & S2 & Fx & Ff & _) & _).
  assert (LN : length (po_id (snd s)) = NP) by (unfold NP; congruence). unfold sade_one.
  apply ends_bind. eapply ends_eng; [apply (seven_ok r RC NP _ H7)|]. intros ri g S7. cbv beta zeta.
  apply ends_bind. eapply ends_eng; [apply (adapt_ok st ri i NP _ FU S7 Hi)|]. intros w g0 (PV & HFv & HCv). cbv beta zeta. pose proof (permitted_good _ PV) as GV.
  apply ends_bind. eapply ends_eng; [apply sade_trial_ok; [exact GV|exact HFv|exact G1|exact G4|rewrite L1; exact S7|lia]|]. intros t0 g1 (Lt & At). cbv beta.
  apply ends_bind. eapply ends_eng; [apply (fbr_ok r RC p t0); auto; intros ND; right; auto|]. intros t g2 BF. cbv beta.
  assert (Lt' : length t = get_nx p) by (destruct BF; congruence). destruct (HB t0 t Lt At BF) as [BX VX].
  apply ends_bind. apply (ends_peval p); auto; [intros e He; now left|]. intros f EV. cbn [fst snd]. pose proof EV as (_ & Lf & _).
  rewrite NF in Lf. apply ends_bind. eapply ends_lift_ok; [apply obj_vget; exact Lf|].
  destruct (vget_in_range (po_f (snd s)) i ltac:(lia)) as (fi & Efi & Nfi). assert (Lfi : length fi = 1) by (rewrite <- NF, <- EP; apply Ff; eapply nth_error_In; eauto).
  apply ends_bind. eapply ends_lift_ok; [unfold at2; rewrite EF, Efi; cbn [bind]; apply obj_vget; exact Lfi|].
  assert (FE' : evals (k + 1) s0 (with_fevals (snd s) (wrap64 (po_fevals (snd s) + 1)))) by (now apply evals_S).
  assert (GX : goodx t) by (split; assumption). pose proof FU as (K1 & K2 & K3 & _).
  destruct (dle (obj f) (obj fi)) eqn:D.
  - apply ends_bind. eapply ends_lift_ok; [apply vset_in_range; rewrite EF; lia|]. apply ends_bind. eapply ends_lift_ok; [apply vset_in_range; lia|].
    apply ends_bind. apply ends_pset; cbn [snd fst]; [apply valid_fevals; exact V|cbn; lia|cbn; congruence|cbn; rewrite EP, NF; exact Lf|].
    intros c _ V'. apply ends_bind. eapply ends_lift_ok; [apply vset_in_range; lia|]. apply ends_bind. eapply ends_lift_ok; [apply vset_in_range; lia|].
    apply ends_bind.
    assert (EV' : exists V', match sa_pool a with Fixed _ => rret (k_V (s_kept st)) | Among _ => rlift (vset (k_V (s_kept st)) i (fst (fst w))) end = rlift (G := G * pop P) (Ok V') /\
       match sa_pool a with Fixed _ => V' = k_V (s_kept st) | Among _ => exists v, permitted v /\ V' = upd (k_V (s_kept st)) i v end).
    { destruct (sa_pool a) as [w'|l] eqn:EPL; [exists (k_V (s_kept st)); split; reflexivity|]. exists (upd (k_V (s_kept st)) i (fst (fst w))). split; [rewrite vset_in_range by lia; reflexivity|]. eauto. }
    destruct EV' as (V1 & EV1 & HV1). rewrite EV1. eapply ends_lift_ok; [reflexivity|].
    apply ends_bind. eapply ends_lift_ok; [apply obj_vget; exact L3|].
    assert (FU' : full NP (mkkept (upd (k_F (s_kept st)) i (snd (fst w))) (upd (k_CR (s_kept st)) i (snd w)) V1)) by (apply full_upd; assumption).
    assert (RP' : replaced better_point s0 (setp (with_fevals (snd s) (wrap64 (po_fevals (snd s) + 1))) i t f c)).
    { apply replaced_set; [exact RP|destruct V0 as (_ & (_ & S2' & _) & _); exact S2'|]. intros x0 f0 A B. split; [exact EV|]. split; [exact BX|].
      destruct (vget_in_range (po_x (snd s)) i ltac:(lia)) as (xi & _ & Nxi). destruct (RR i x0 f0 xi fi A B Nxi Nfi) as [[_ ->]|(_ & _ & D')]; [exact D|]. eapply dle_trans; eauto. }
    destruct (dle (obj f) (obj (d_gbfit (s_de st)))); apply ends_ret; (split; [|exact FU']); unfold inv; cbn [s_de snd fst d_fit d_old d_new d_gbX d_gbfit d_gbIter setp po_f po_fevals with_fevals]; rewrite ?upd_len;
      (split; [exact V'|]); (split; [exact RP'|]); (split; [exact FE'|]); (split; [rewrite EF; reflexivity|]);
      (split; [exact L1|]); (split; [exact L2|]); (split; [exact G1|]); (split; [apply forall_upd; auto|]); auto.
  - destruct (Forall_nth_ok goodx (d_old (s_de st)) i G1 ltac:(lia)) as (xi & Exi & _ & GXi).
    apply ends_bind. eapply ends_lift_ok; [exact Exi|]. apply ends_bind. eapply ends_lift_ok; [apply vset_in_range; lia|]. apply ends_ret. split; [|exact FU]. unfold inv.
    cbn [s_de snd fst d_fit d_old d_new d_gbX d_gbfit d_gbIter po_f po_fevals with_fevals]. rewrite ?upd_len.
    split; [exact V|]. split; [exact RP|]. split; [exact FE'|]. split; [exact EF|]. split; [exact L1|]. split; [exact L2|]. split; [exact G1|]. split; [apply forall_upd; auto|]. auto.
Qed.
Lemma sade_generation_ok k st s : 7 <= NP -> sinv k st s -> ends (rfold (sade_one r a p NP) st (seq 0 NP)) s (sinv (k + NP)) fails.
Proof.
  intros H7 I. apply (ends_seq (sade_one r a p NP) (fun i => sinv (k + i)) fails NP 0); [rewrite Nat.add_0_r; exact I|].
  intros i t s' Hi I'. replace (k + (i + 1)) with (k + i + 1) by lia. apply sade_one_ok; auto. lia.
Qed.

(** ** The generations *)
Local Notation flat_end := (flat srt (sa_xtol a) (sa_ftol a)).
Definition sade_done (gen : nat) (kk : kept) (s : G * pop P) : Prop :=
  valid_pop (snd s) /\ replaced better_point s0 (snd s) /\
  (exists k, 1 <= k <= gen /\ evals (k * NP) s0 (snd s) /\ (k < gen -> flat_end (snd s))) /\ full NP kk.
Lemma sade_gens_ok gen : 7 <= NP -> forall n k st s, n + k = gen -> (k = 0 -> 0 < n) -> sinv (k * NP) st s ->
  (n = 0 -> sade_done gen (s_kept st) s) -> ends (sade_gens r srt a p NP n st) s (sade_done gen) fails.
Proof.
  intros H7. induction n as [|n IH]; intros k st s EG H0 I HD; cbn [sade_gens]; [apply ends_ret; apply HD; reflexivity|].
  apply ends_bind. eapply ends_weak; [apply sade_generation_ok; [exact H7|exact I]| |auto].
  intros st1 s1 (I1 & FU). cbv beta. pose proof I1 as (V & RP & FE & EF & L1 & L2 & G1 & G2 & G3 & G4 & L3). pose proof RP as (E1 & E2 & _).
  assert (EP : po_prob (snd s1) = p) by congruence. assert (LN : length (po_id (snd s1)) = NP) by (unfold NP; congruence).
  assert (NO : p_nobj (po_prob (snd s1)) = 1). { rewrite EP. destruct (prob_obj_facts p PO) as (_ & _ & _ & X). lia. }
  assert (NC' : get_nc (po_prob (snd s1)) = 0) by congruence. assert (NE : po_id (snd s1) <> []) by (intros X; rewrite X in LN; cbn in LN; lia).
  destruct (best_idx_lt srt (snd s1) NO NC' (proj1 (proj2 V)) NE) as (b & Eb & Hb). destruct (worst_idx_lt srt (snd s1) NO NC' (proj1 (proj2 V)) NE) as (w & Ew & Hw).
  apply ends_bind, ends_getp. apply ends_bind. eapply ends_lift_ok; [exact Eb|]. apply ends_bind. eapply ends_lift_ok; [exact Ew|].
  pose proof V as (_ & (S1 & S2 & _) & _). destruct (nth_ex (po_x (snd s1)) b ltac:(lia)) as (xb & Nxb). destruct (nth_ex (po_x (snd s1)) w ltac:(lia)) as (xw & Nxw).
  destruct (nth_ex (po_f (snd s1)) b ltac:(lia)) as (fb & Nfb). destruct (nth_ex (po_f (snd s1)) w ltac:(lia)) as (fw & Nfw).
  pose proof (flat_x_ok dd p NC NF (dd_var _ _) (snd s1) (snd s1) b w xb xw V EP Nxb Nxw) as Edx. pose proof (flat_f_ok p NF (snd s1) b w fb fw V EP Nfb Nfw) as Edf.
  apply ends_bind. eapply ends_lift_ok; [exact Edx|].
  assert (FE' : evals (S k * NP) s0 (snd s1)) by (replace (S k * NP) with (k * NP + NP) by lia; exact FE).
  destruct (dlt (manhattan xw xb) (sa_xtol a)) eqn:D1.
  { apply ends_ret. split; [exact V|]. split; [exact RP|]. split; [|exact FU]. exists (S k). split; [lia|]. split; [exact FE'|]. intros _. exists b, w, xb, fb, xw, fw. auto 9. }
  apply ends_bind. eapply ends_lift_ok; [exact Edf|]. destruct (dlt (dabs (dsub (obj fw) (obj fb))) (sa_ftol a)) eqn:D2.
  { apply ends_ret. split; [exact V|]. split; [exact RP|]. split; [|exact FU]. exists (S k). split; [lia|]. split; [exact FE'|]. intros _. exists b, w, xb, fb, xw, fw. auto 9. }
  apply (IH (S k)); [lia|lia| |].
  - split; [|exact FU]. unfold inv. cbn [s_de d_fit d_old d_new d_gbX d_gbfit d_gbIter]. auto 12.
  - intros ->. split; [exact V|]. split; [exact RP|]. split; [|exact FU]. exists (S k). split; [lia|]. split; [exact FE'|]. intros; lia.
Qed.
End D.
