From Coq Require Import List Bool Arith ZArith Lia.
From Verif Require Import AlgDe AlgDeFacts Dbl DblFacts IntDbl Outcome BaseFacts StdSort Problem SpecProblem ProblemFacts Rng Generic SpecGeneric GenericFacts GenericFacts2 GenericFacts3 SpecGenetic RmFacts
  GeneticOps GeneticFacts Population SpecPopulation PopulationFacts Algo SpecAlgo AlgoFacts AlgoFacts2 AlgSaFacts AlgSaFacts2 AlgBee.
Import ListNotations.

Lemma done_pos : dlt dzero done = true. Proof. rewrite done_fin. apply dlt_fin. exact one_z_pos. Qed.
Lemma phi_ok {G} (r : rng G) (RC : rng_contract r) E : always (draw_real r (dneg done) done) (within (dneg done) done) E.
Proof.
  intros g. destruct (draw_real_ok r RC (dneg done) done g) as (v & H & W).
  - rewrite done_fin. apply dlt_fin. pose proof one_z_pos. lia.
  - split; [reflexivity|]. split; [reflexivity|]. vm_compute. reflexivity.
  - rewrite H. exact W.
Qed.
Lemma clamp_within l u v : dle l u = true -> v <> NaN -> within l u (bee_clamp l u v).
Proof.
  intros H N. destruct (dle_not_nan _ _ H) as [Nl Nu]. unfold bee_clamp, dgt. destruct (dlt v l) eqn:D1.
  - destruct (dlt u l) eqn:D2; [split; [exact H|now apply dle_refl]|]. split; [now apply dle_refl|exact H].
  - apply dlt_false_dle in D1; auto. destruct (dlt u v) eqn:D2; [split; [exact H|now apply dle_refl]|]. split; [exact D1|]. apply dlt_false_dle; auto.
Qed.
Lemma clamp_nan l u : bee_clamp l u NaN = NaN.
Proof. unfold bee_clamp. assert (H : dlt NaN l = false) by reflexivity. rewrite H. unfold dgt. destruct u; reflexivity. Qed.
Lemma mtried_ok trial NP : length trial = NP -> 1 <= NP ->
  exists mi t, most_tried trial NP = Ok mi /\ mi < NP /\ nth_error trial mi = Some t /\ (forall x, In x trial -> (x <= t)%Z).
Proof.
  intros L H. unfold most_tried.
  assert (K : forall n, n <= NP - 1 -> exists mi, mfold (fun mi i => bind (vget trial i) (fun a => bind (vget trial mi) (fun b => Ok (if (b <? a)%Z then i else mi)))) 0 (seq 1 n) = Ok mi /\ mi < NP /\
     forall i, i < 1 + n -> (nth i trial 0 <= nth mi trial 0)%Z).
  { induction n as [|n IH]; intros Hn.
    - exists 0. split; [reflexivity|]. split; [lia|]. intros i Hi. replace i with 0 by lia. lia.
    - destruct IH as (mi & E & M & B); [lia|]. rewrite seq_S, mfold_app, E. cbn [bind mfold]. unfold vget.
      rewrite (nth_error_nth' trial 0%Z) by lia. cbn [bind]. rewrite (nth_error_nth' trial 0%Z) by lia. cbn [bind].
      destruct (Z.ltb_spec (nth mi trial 0%Z) (nth (1 + n) trial 0%Z)).
      + exists (1 + n). split; [reflexivity|]. split; [lia|]. intros i Hi. destruct (Nat.eq_dec i (1 + n)) as [->|]; [lia|]. specialize (B i ltac:(lia)). lia.
      + exists mi. split; [reflexivity|]. split; [lia|]. intros i Hi. destruct (Nat.eq_dec i (1 + n)) as [->|]; [lia|]. apply B. lia. }
  destruct (K (NP - 1) (le_n _)) as (mi & E & M & B). exists mi, (nth mi trial 0%Z). split; [exact E|]. split; [exact M|]. split; [apply nth_error_nth'; lia|].
  intros x Hx. apply In_nth_error in Hx. destruct Hx as (i & Hi). assert (i < length trial) by (apply nth_error_Some; congruence).
  specialize (B i ltac:(lia)). rewrite (nth_error_nth _ _ 0%Z Hi) in B. exact B.
Qed.

Section B.
Context {G P : Type} (r : rng G) (RC : rng_contract r) (limit : Z) (p : problem) (Box : list dbl -> Prop).
Context (PO : prob_obj p) (NF : get_nf p = 1) (FD : fitness_defined p).
(** A candidate near a point, and a random point, have the property Box *)
Context (Bnear : forall x y c a b l u phi, Box x -> Box y -> length x = get_nx p -> length y = get_nx p -> within (dneg done) done phi ->
   nth_error x c = Some a -> nth_error y c = Some b -> nth_error (p_lb p) c = Some l -> nth_error (p_ub p) c = Some u -> Box (upd x c (bee_clamp l u (dadd a (dmul phi (dsub a b)))))).
Context (Brand : forall x, in_box (p_lb p) (p_ub p) x -> Box x).

Definition R1 (x f x' f' : list dbl) : Prop := evaluated p x' f' /\ Box x'.
Definition R2 (x f x' f' : list dbl) : Prop := evaluated p x' f' /\ Box x' /\ dlt (obj f') (obj f) = true.
Definition trials_le (b : Z) (st : bees) : Prop := Forall (fun t => (0 <= t <= b)%Z) (b_trial st).
(** The state fits the population *)
Definition binv (st : bees) (s : pop P) : Prop :=
  valid_pop s /\ po_prob s = p /\ b_X st = po_x s /\ Forall Box (po_x s) /\ length (b_fit st) = length (po_id s) /\ Forall (fun f => length f = 1) (b_fit st) /\ length (b_trial st) = length (po_id s).
(** From one state to the next: n evaluations, b failures at most *)
Definition brel (ex : Prop) (n : nat) (b : Z) (st : bees) (s : pop P) (st' : bees) (s' : pop P) : Prop :=
  binv st' s' /\ evals n s s' /\ replaced R1 s s' /\ (ex -> b_fit st = po_f s -> b_fit st' = po_f s' /\ replaced R2 s s') /\ (forall b0, (0 <= b0)%Z -> trials_le b0 st -> trials_le (b0 + b) st') /\
  (forall j fj, nth_error (b_fit st) j = Some fj -> obj fj = NaN -> nth_error (b_fit st') j = Some fj).
Lemma R1_trans x1 f1 x2 f2 x3 f3 : R1 x1 f1 x2 f2 -> R1 x2 f2 x3 f3 -> R1 x1 f1 x3 f3.
Proof. intros _ H. exact H. Qed.
Lemma dlt_trans' a b c : dlt a b = true -> dlt b c = true -> dlt a c = true.
Proof.
  intros H1 H2. destruct (dlt a c) eqn:E; [reflexivity|exfalso]. assert (a <> NaN) by (intros ->; discriminate). assert (c <> NaN) by (intros ->; destruct b; discriminate).
  apply dlt_false_dle in E; auto. pose proof (dle_trans _ _ _ E (dlt_dle _ _ H1)) as K. apply dle_dlt_false in K. congruence.
Qed.
Lemma R2_trans x1 f1 x2 f2 x3 f3 : R2 x1 f1 x2 f2 -> R2 x2 f2 x3 f3 -> R2 x1 f1 x3 f3.
Proof. intros (_ & _ & H1) (A & B & H2). split; [exact A|]. split; [exact B|]. eapply dlt_trans'; eauto. Qed.
Lemma brel_refl ex st s : binv st s -> brel ex 0 0 st s st s.
Proof.
  intros I. split; [exact I|]. split; [apply evals_0|]. split; [apply replaced_refl|]. split; [intros _ H; split; [exact H|apply replaced_refl]|]. split; [|auto]. intros b0 _ H. now rewrite Z.add_0_r.
Qed.
Lemma brel_trans (ex : Prop) n1 n2 b1 b2 st1 s1 st2 s2 st3 s3 : (0 <= b1)%Z -> length (po_x s1) = length (po_f s1) -> brel ex n1 b1 st1 s1 st2 s2 -> brel ex n2 b2 st2 s2 st3 s3 -> brel ex (n1 + n2) (b1 + b2) st1 s1 st3 s3.
Proof.
  intros Hb L (_ & E1 & A1 & X1 & T1 & N1) (I & E2 & A2 & X2 & T2 & N2). split; [exact I|]. split; [eapply evals_trans; eauto|]. split; [eapply replaced_trans; eauto; apply R1_trans|].
  split; [intros e H; destruct (X1 e H) as [Y1 Z1]; destruct (X2 e Y1) as [Y2 Z2]; split; [exact Y2|]; eapply replaced_trans; eauto; apply R2_trans|].
  split; [|intros j fj A B; apply N2; [apply N1|]; auto]. intros b0 H0 H. rewrite Z.add_assoc. apply T2; [lia|]. now apply T1.
Qed.
Lemma binv_len st (s : pop P) : binv st s -> length (po_x s) = length (po_f s) /\ length (po_x s) = length (po_id s).
Proof. intros ((_ & (A & B & _) & _) & _). lia. Qed.

(** One candidate; the other counters are unchanged. *)
Lemma bee_try_ok W ex st i (s : G * pop P) : binv st (snd s) -> i < length (po_id (snd s)) -> 2 <= length (po_id (snd s)) ->
  ends_w W (bee_try r st i) s (fun st' s' => brel ex 1 1 st (snd s) st' (snd s') /\ forall j, j <> i -> nth_error (b_trial st') j = nth_error (b_trial st) j) (fails p).
Proof.
  intros I Hi HN. pose proof I as (V & EP & EX & FB & LF & FF & LT). pose proof V as (_ & ST & _). pose proof ST as (S1 & S2 & Fx & Ff & _). rewrite EP in Fx, Ff.
  destruct (prob_obj_lens p PO) as [Ll Lu]. assert (HX : get_nx p <> 0). { pose proof (prob_obj_bounds p PO) as (K & _). unfold get_nx. intros Z0. apply length_zero_iff_nil in Z0. rewrite Z0 in K. now apply K. }
  unfold bee_try. apply ends_bind, ends_getp. cbv zeta. rewrite EP, EX.
  destruct (vget_in_range (po_x (snd s)) i ltac:(lia)) as (x & E1 & N1). apply ends_bind. eapply ends_lift_ok; [exact E1|].
  apply ends_bind. eapply ends_eng; [apply (draw_int_ok r RC); lia|]. intros c g1 Hc. apply ends_bind. eapply ends_eng; [apply (draw_int_ok r RC); lia|]. intros k g2 Hk. cbn [snd fst] in *.
  set (kk := if Nat.leb i (Z.to_nat k) then Z.to_nat k + 1 else Z.to_nat k). assert (HK : kk < length (po_id (snd s))) by (unfold kk; destruct (Nat.leb_spec i (Z.to_nat k)); lia). clearbody kk.
  apply ends_bind. eapply ends_eng; [apply (phi_ok r RC)|]. intros phi g3 Hphi. cbn [snd fst] in *.
  assert (Lx : length x = get_nx p) by (apply Fx; eapply nth_error_In; eauto).
  destruct (vget_in_range x (Z.to_nat c) ltac:(lia)) as (a & E2 & N2). apply ends_bind. eapply ends_lift_ok; [exact E2|].
  destruct (vget_in_range (po_x (snd s)) kk ltac:(lia)) as (y & E3 & N3). assert (Ly : length y = get_nx p) by (apply Fx; eapply nth_error_In; eauto).
  destruct (vget_in_range y (Z.to_nat c) ltac:(lia)) as (b & E4 & N4). apply ends_bind. eapply ends_lift_ok; [rewrite E3; exact E4|].
  destruct (vget_in_range (p_lb p) (Z.to_nat c) ltac:(lia)) as (l & E5 & N5). apply ends_bind. eapply ends_lift_ok; [exact E5|].
  destruct (vget_in_range (p_ub p) (Z.to_nat c) ltac:(lia)) as (u & E6 & N6). apply ends_bind. eapply ends_lift_ok; [exact E6|].
  set (v := bee_clamp l u (dadd a (dmul phi (dsub a b)))).
  assert (BX : Box (upd x (Z.to_nat c) v)). { rewrite Forall_forall in FB. apply (Bnear x y); auto; apply FB; eapply nth_error_In; eauto. }
  clearbody v.
  apply ends_bind. eapply ends_lift_ok; [apply vset_in_range; lia|].
  apply ends_bind. eapply (ends_peval p); [exact EP|exact FD|rewrite upd_len; exact Lx|intros e He; left; exact He|]. intros f EV. cbn [fst snd].
  pose proof EV as (_ & LEF & _). rewrite NF in LEF. apply ends_bind. eapply ends_lift_ok; [apply obj_vget; exact LEF|].
  destruct (vget_in_range (b_fit st) i ltac:(lia)) as (old & E7 & N7). apply ends_bind. eapply ends_lift_ok; [exact E7|].
  assert (LO : length old = 1) by (rewrite Forall_forall in FF; apply FF; eapply nth_error_In; eauto). apply ends_bind. eapply ends_lift_ok; [apply obj_vget; exact LO|].
  destruct (dlt (obj f) (obj old)) eqn:D.
  - apply ends_bind. eapply ends_lift_ok; [apply vset_in_range; lia|]. apply ends_bind. eapply ends_lift_ok; [apply vset_in_range; lia|].
    apply ends_bind. eapply ends_lift_ok; [exact E1|]. apply ends_bind. eapply ends_lift_ok; [apply vset_in_range; lia|]. apply ends_bind. eapply ends_lift_ok; [apply vset_in_range; lia|].
    assert (EO : upd old 0 (obj f) = f). { destruct old as [|o [|]]; try discriminate LO. destruct f as [|f0 [|]]; try discriminate LEF. reflexivity. } rewrite EO.
    apply ends_bind. apply ends_pset; cbn [fst snd]; [now apply valid_fevals|exact Hi|cbn [with_fevals po_prob]; rewrite EP, upd_len; exact Lx|cbn [with_fevals po_prob]; rewrite EP, NF; exact LEF|].
    intros ch _ V'. cbn [fst snd]. apply ends_bind. eapply ends_lift_ok; [apply vset_in_range; lia|]. apply ends_ret. cbn [snd b_trial].
    split; [|intros j Hj; now rewrite upd_other].
    assert (K1 : forall x0 f0, nth_error (po_x (snd s)) i = Some x0 -> nth_error (po_f (snd s)) i = Some f0 -> R1 x0 f0 (upd x (Z.to_nat c) v) f) by (intros; split; assumption).
    split; [|split; [|split; [|split; [|split]]]].
    + split; [exact V'|]. split; [exact EP|]. cbn [setp po_x po_id with_fevals b_X b_fit b_trial]. split; [reflexivity|]. split; [apply forall_upd; auto|]. rewrite !upd_len. split; [lia|]. split; [apply forall_upd; auto|lia].
    + unfold evals. cbn [setp po_fevals with_fevals]. pose proof (evals_S 0 (snd s) (snd s) (evals_0 _)) as K. unfold evals in K. exact K.
    + apply replaced_set; [apply replaced_fevals, replaced_refl|lia|exact K1].
    + intros _ EF. cbn [b_fit setp po_f with_fevals]. rewrite EF. split; [reflexivity|]. apply replaced_set; [apply replaced_fevals, replaced_refl|lia|]. intros x0 f0 _ Hf0. rewrite EF in N7. rewrite N7 in Hf0. injection Hf0 as <-. split; [exact EV|]. split; [exact BX|exact D].
    + intros b0 Hb0 T. unfold trials_le in *. cbn [b_trial]. apply forall_upd; [|lia]. eapply Forall_impl; [|exact T]. cbv beta. intros t Ht. lia.
    + cbn [b_fit]. intros j fj A B. destruct (Nat.eq_dec j i) as [->|Nj]; [|now rewrite upd_other]. rewrite N7 in A. injection A as <-. rewrite B in D. destruct (obj f); discriminate D.
  - unfold bump. destruct (vget_in_range (b_trial st) i ltac:(lia)) as (t & E8 & N8). rewrite E8. cbn [bind]. apply ends_bind. eapply ends_lift_ok; [apply vset_in_range; lia|]. apply ends_ret. cbn [snd b_trial].
    split; [|intros j Hj; now rewrite upd_other].
    split; [|split; [|split; [|split; [|split]]]].
    + split; [now apply valid_fevals|]. split; [exact EP|]. cbn [po_x po_id with_fevals b_X b_fit b_trial]. rewrite !upd_len. split; [reflexivity|]. repeat (split; [assumption|]). exact LT.
    + apply (evals_S 0), evals_0.
    + apply replaced_fevals, replaced_refl.
    + intros _ EF. split; [exact EF|]. apply replaced_fevals, replaced_refl.
    + intros b0 Hb0 T. unfold trials_le in *. cbn [b_trial]. rewrite Forall_forall in T. pose proof (T t ltac:(eapply nth_error_In; eauto)) as Ht. apply forall_upd.
      * apply Forall_forall. intros z Hz. apply T in Hz. lia.
      * pose proof (Z.mod_pos_bound (t + 1) (2 ^ 32) ltac:(lia)). pose proof (Z.mod_le (t + 1) (2 ^ 32) ltac:(lia) ltac:(lia)). lia.
    + auto.
Qed.

Lemma bee_employed_ok W (ex : Prop) st mi t (s : G * pop P) : binv st (snd s) -> 2 <= length (po_id (snd s)) -> mi < length (po_id (snd s)) -> nth_error (b_trial st) mi = Some t ->
  ends_w W (bee_employed r limit (length (po_id (snd s))) mi st) s
    (fun st' s' => brel ex (length (po_id (snd s)) - if (limit <=? t)%Z then 1 else 0) (Z.of_nat (length (po_id (snd s)))) st (snd s) st' (snd s')) (fails p).
Proof.
  intros I HN Hm Ht. set (NP := length (po_id (snd s))) in *.
  set (sk := fun i : nat => if (limit <=? t)%Z && Nat.ltb mi i then 1 else 0).
  unfold bee_employed.
  eapply ends_weak with (Q := fun st' s' => brel ex (NP - sk NP) (Z.of_nat NP) st (snd s) st' (snd s') /\ forall j, NP <= j -> nth_error (b_trial st') j = nth_error (b_trial st) j) (E := fails p).
  - change NP with (0 + NP) at 2 3. change NP with (0 + NP) at 3.
    apply (ends_seq _
      (fun i st' s' => brel ex (i - sk i) (Z.of_nat i) st (snd s) st' (snd s') /\ forall j, i <= j -> nth_error (b_trial st') j = nth_error (b_trial st) j)).
    + split; [apply brel_refl; exact I|auto].
    + intros i st1 s1 Hi (B & T). pose proof B as (I1 & _ & (EP1 & EI & _) & _). assert (EL : length (po_id (snd s1)) = NP) by (unfold NP; congruence).
      pose proof I1 as (_ & _ & _ & _ & _ & _ & LT1). destruct (vget_in_range (b_trial st1) i ltac:(lia)) as (ti & E & N). apply ends_bind. eapply ends_lift_ok; [exact E|].
      assert (Hs : sk (i + 1) = if (limit <=? t)%Z && Nat.eqb i mi then 1 else sk i).
      { unfold sk. destruct (limit <=? t)%Z; cbn [andb]; [|reflexivity]. destruct (Nat.ltb_spec mi (i + 1)), (Nat.ltb_spec mi i), (Nat.eqb_spec i mi); lia. }
      assert (Hk : sk i <= i) by (clear; unfold sk; destruct (limit <=? t)%Z; cbn [andb]; [destruct (Nat.ltb_spec mi i)|]; lia).
      destruct ((ti <? limit)%Z || negb (Nat.eqb i mi)) eqn:C.
      * eapply ends_weak; [apply (bee_try_ok W ex st1 i s1 I1); lia| |auto]. intros st2 s2 (B2 & T2).
        assert (H1 : sk (i + 1) = sk i).
        { rewrite Hs. destruct (Nat.eqb_spec i mi) as [->|X]; [|now rewrite andb_false_r]. destruct (Z.leb_spec limit t); [|reflexivity]. exfalso. rewrite (T mi (le_n _)), Ht in N. injection N as <-. destruct (Z.ltb_spec t limit); [lia|discriminate C]. }
        split; [|intros j Hj; rewrite T2 by lia; apply T; lia]. rewrite H1. replace (i + 1 - sk i) with ((i - sk i) + 1) by lia. replace (Z.of_nat (i + 1)) with (Z.of_nat i + 1)%Z by lia.
        eapply brel_trans; [lia|exact (proj1 (binv_len _ _ I))|exact B|exact B2].
      * apply orb_false_elim in C. destruct C as [C1 C2]. apply negb_false_iff, Nat.eqb_eq in C2. subst i. rewrite (T mi (le_n _)), Ht in N. injection N as <-. apply ends_ret.
        split; [|intros j Hj; apply T; lia]. rewrite Hs, Nat.eqb_refl. destruct (Z.leb_spec limit t); [|apply Z.ltb_ge in C1; lia]. cbn [andb].
        assert (H0 : sk mi = 0) by (unfold sk; rewrite Nat.ltb_irrefl, andb_false_r; reflexivity). rewrite H0 in B. replace (mi + 1 - 1) with (mi - 0) by lia.
        destruct B as (B1 & B2 & B3 & B4 & B5 & B6). repeat (split; [assumption|]). split; [|exact B6]. intros b0 Hb0 TT. specialize (B5 b0 Hb0 TT). unfold trials_le in *. eapply Forall_impl; [|exact B5]. cbv beta. intros z Hz. lia.
  - intros st' s' (B & _). unfold sk in B. destruct (limit <=? t)%Z; cbn [andb] in B; [|exact B]. destruct (Nat.ltb_spec mi NP); [exact B|lia].
  - auto.
Qed.

Lemma bee_scout_ok W st mi (s : G * pop P) : binv st (snd s) -> mi < length (po_id (snd s)) ->
  ends_w W (bee_scout r mi st) s (fun st' s' => brel False 1 0 st (snd s) st' (snd s')) (fails p).
Proof.
  intros I Hi. pose proof I as (V & EP & EX & FB & LF & FF & LT). pose proof V as (_ & ST & _). pose proof ST as (S1 & S2 & Fx & Ff & _). rewrite EP in Fx, Ff.
  destruct (prob_obj_lens p PO) as [Ll Lu].
  unfold bee_scout. apply ends_bind, ends_getp. cbv zeta. rewrite EP, EX. destruct (vget_in_range (po_x (snd s)) mi ltac:(lia)) as (x & E1 & N1). apply ends_bind. eapply ends_lift_ok; [exact E1|].
  assert (Lx : length x = get_nx p) by (apply Fx; eapply nth_error_In; eauto).
  apply ends_bind. eapply (ends_eng _ _ (fun y => in_box (p_lb p) (p_ub p) y)).
  - eapply always_weak with (Q := fun y => length y = get_nx p /\ forall i l u v, i < 0 + get_nx p -> nth_error (p_lb p) i = Some l -> nth_error (p_ub p) i = Some u -> nth_error y i = Some v -> within l u v) (E := fails p).
    + apply (AlgDeFacts.always_seq _ (fun k y => length y = get_nx p /\ forall i l u v, i < k -> nth_error (p_lb p) i = Some l -> nth_error (p_ub p) i = Some u -> nth_error y i = Some v -> within l u v)).
      * split; [exact Lx|]. intros i l u v X. inversion X.
      * intros j y Hj (Ly & H). destruct (nth_ex (p_lb p) j ltac:(lia)) as (l & El). destruct (nth_ex (p_ub p) j ltac:(lia)) as (u & Eu).
        eapply always_bind; [eapply always_vget with (Q := fun a => a = l); [exact El|reflexivity]|]. intros ? ->. eapply always_bind; [eapply always_vget with (Q := fun a => a = u); [exact Eu|reflexivity]|]. intros ? ->.
        eapply always_bind; [eapply always_weak; [apply (urr_ok r RC l u); apply (prob_obj_ord p PO j l u El Eu)|intros v Hv; exact Hv|cbv beta; intros e [-> N]; right; split; [reflexivity|]; intros DR; apply N; apply (DR j l u El Eu)]|].
        intros v Hv. apply always_vset; [lia|]. split; [now rewrite upd_len|]. intros i l' u' v' Hi' A B C. destruct (Nat.eq_dec i j) as [->|Nij].
        { rewrite upd_same in C by lia. congruence. } { rewrite upd_other in C by exact Nij. apply (H i); auto. lia. }
    + intros y (Ly & H). split; [lia|]. split; [lia|]. intros i l u v A B C. apply (H i); auto. rewrite <- Ll. cbn. apply nth_error_Some. congruence.
    + auto.
  - intros x' g Bx. cbn [snd fst]. assert (Lx' : length x' = get_nx p) by (destruct Bx; lia). apply ends_bind. eapply ends_lift_ok; [apply vset_in_range; lia|].
    apply ends_bind. eapply (ends_peval p); [exact EP|exact FD|exact Lx'|intros e He; left; exact He|]. intros f EV. cbn [fst snd].
    pose proof EV as (_ & LEF & _). apply ends_bind. apply ends_pset; cbn [fst snd]; [now apply valid_fevals|exact Hi|cbn [with_fevals po_prob]; rewrite EP; exact Lx'|cbn [with_fevals po_prob]; rewrite EP; exact LEF|].
    intros ch _ V'. cbn [fst snd]. apply ends_bind. eapply ends_lift_ok; [apply vset_in_range; lia|]. apply ends_ret. cbn [snd].
    split; [|split; [|split; [|split; [|split]]]].
    + split; [exact V'|]. split; [exact EP|]. cbn [setp po_x po_id with_fevals b_X b_fit b_trial]. split; [reflexivity|]. split; [apply forall_upd; auto|]. rewrite !upd_len. repeat (split; [assumption|]). exact LT.
    + unfold evals. cbn [setp po_fevals with_fevals]. pose proof (evals_S 0 (snd s) (snd s) (evals_0 _)) as K. unfold evals in K. exact K.
    + apply replaced_set; [apply replaced_fevals, replaced_refl|lia|]. intros; split; [exact EV|]. now apply Brand.
    + intros [].
    + intros b0 Hb0 T. unfold trials_le in *. cbn [b_trial]. rewrite Z.add_0_r. apply forall_upd; [exact T|lia].
    + auto.
Qed.

Lemma bee_onlook_ok (ex : Prop) NP pr fuel : forall k i st (s : G * pop P), length (po_id (snd s)) = NP -> binv st (snd s) -> 2 <= NP -> length pr = NP -> i < NP ->
  ends_if_fuel (bee_onlook r fuel NP pr k i st) s (fun st' s' => brel ex k (Z.of_nat k) st (snd s) st' (snd s')) (fails p).
Proof.
  induction fuel as [|fuel IH]; intros k i st s EL I HN LP Hi; destruct k as [|k]; cbn [bee_onlook]; [apply ends_ret; now apply brel_refl|exact Logic.I|apply ends_ret; now apply brel_refl|].
  apply ends_bind. eapply ends_eng; [apply (draw01_any r RC)|]. intros x g _. cbn [fst snd]. destruct (vget_in_range pr i ltac:(lia)) as (ps & E & _). apply ends_bind. eapply ends_lift_ok; [exact E|].
  assert (Hn : (i + 1) mod NP < NP) by (apply Nat.mod_upper_bound; lia).
  destruct (dlt x ps).
  - apply ends_bind. eapply ends_weak; [apply (bee_try_ok True ex st i (g, snd s)); cbn [snd]; auto; lia| |auto]. intros st1 s1 (B & _). cbn [snd] in B. pose proof B as (I1 & _ & (_ & EI & _) & _).
    eapply ends_weak; [apply (IH k _ st1 s1); auto; congruence| |auto]. intros st2 s2 B2. replace (S k) with (1 + k) by lia. replace (Z.of_nat (1 + k)) with (1 + Z.of_nat k)%Z by lia.
    eapply brel_trans; [lia|exact (proj1 (binv_len _ _ I))|exact B|exact B2].
  - apply (IH (S k) _ st (g, snd s)); auto.
Qed.

Lemma source_probs_len fit : Forall (fun f => length f = 1) fit -> exists pr, source_probs fit = Ok pr /\ length pr = length fit.
Proof.
  intros F. unfold source_probs. rewrite (mmap_pure _ (fun f => source_weight (obj f))).
  - cbn [bind]. eexists. split; [reflexivity|]. now rewrite !map_length.
  - intros f Hf. rewrite Forall_forall in F. rewrite (obj_vget f (F f Hf)). reflexivity.
Qed.

Lemma bee_gen_ok fuel st (s : G * pop P) : binv st (snd s) -> 2 <= length (po_id (snd s)) ->
  ends_if_fuel (bee_gen r limit fuel (length (po_id (snd s))) st) s
    (fun st' s' => brel (Forall (fun t => (t < limit)%Z) (b_trial st)) (2 * length (po_id (snd s))) (Z.of_nat (2 * length (po_id (snd s)))) st (snd s) st' (snd s')) (fails p).
Proof.
  intros I HN. set (NP := length (po_id (snd s))) in *. set (ex := Forall _ _). pose proof I as (_ & _ & _ & _ & _ & _ & LT).
  destruct (mtried_ok (b_trial st) NP LT ltac:(lia)) as (mi & t & E & Hm & Ht & Mx). unfold bee_gen. apply ends_bind. eapply ends_lift_ok; [exact E|].
  apply ends_bind. eapply ends_lift_ok; [unfold vget; rewrite Ht; reflexivity|]. cbv zeta.
  apply ends_bind. eapply ends_weak; [apply (bee_employed_ok True ex st mi t s I HN Hm Ht)| |auto]. fold NP. intros st1 s1 B1. pose proof B1 as (I1 & _ & (_ & EI1 & _) & _).
  assert (EL1 : length (po_id (snd s1)) = NP) by (unfold NP; congruence).
  apply ends_bind. eapply ends_weak with (Q := fun st2 s2 => brel ex NP (Z.of_nat NP) st (snd s) st2 (snd s2)) (E := fails p); [|intros st2 s2 B2|auto].
  - destruct (Z.leb_spec limit t) as [C|C].
    + eapply ends_weak; [apply (bee_scout_ok True st1 mi s1 I1); lia| |auto]. intros st2 s2 B2. replace NP with ((NP - 1) + 1) at 1 by lia. replace (Z.of_nat NP) with (Z.of_nat NP + 0)%Z by lia.
      assert (NE : ~ ex). { unfold ex. intros F. rewrite Forall_forall in F. specialize (F t ltac:(eapply nth_error_In; eauto)). cbv beta in F. lia. }
      eapply brel_trans; [lia|exact (proj1 (binv_len _ _ I))|exact B1|]. destruct B2 as (X1 & X2 & X3 & X4 & X5). repeat (split; [assumption|]). split; [intros X; contradiction|]. exact X5.
    + apply ends_ret. rewrite Nat.sub_0_r in B1. exact B1.
  - pose proof B2 as (I2 & _ & (_ & EI2 & _) & _). pose proof I2 as (_ & _ & _ & _ & LF2 & FF2 & _). assert (EL2 : length (po_id (snd s2)) = NP) by (unfold NP; congruence).
    destruct (source_probs_len (b_fit st2) FF2) as (pr & Epr & Lpr). apply ends_bind. eapply ends_lift_ok; [exact Epr|].
    eapply ends_weak; [apply (bee_onlook_ok ex NP pr fuel NP 0 st2 s2); auto; lia| |auto]. intros st3 s3 B3. replace (2 * NP) with (NP + NP) by lia. rewrite Nat2Z.inj_add.
    eapply brel_trans; [lia|exact (proj1 (binv_len _ _ I))|exact B2|exact B3].
Qed.

(** With a NaN among the fitness values no source is ever selected *)
Lemma sum_nan l : forall a, a = NaN \/ In NaN l -> fold_left dadd l a = NaN.
Proof.
  induction l as [|x l IH]; intros a [->|H]; try contradiction; cbn [fold_left]; auto. apply IH. destruct H as [->|H]; [left; destruct a; reflexivity|now right].
Qed.
Lemma probs_nan fit f : Forall (fun f => length f = 1) fit -> In f fit -> obj f = NaN -> exists pr, source_probs fit = Ok pr /\ length pr = length fit /\ Forall (fun a => a = NaN) pr.
Proof.
  intros F H N. unfold source_probs. rewrite (mmap_pure _ (fun f => source_weight (obj f))).
  - cbn [bind]. eexists. split; [reflexivity|]. rewrite !map_length. split; [reflexivity|]. apply Forall_forall. intros a Ha. apply in_map_iff in Ha. destruct Ha as (w & <- & _).
    rewrite sum_nan; [destruct w; reflexivity|right]. apply in_map_iff. exists f. split; [|exact H]. rewrite N. reflexivity.
  - intros g Hg. rewrite Forall_forall in F. rewrite (obj_vget g (F g Hg)). reflexivity.
Qed.
Lemma onlook_nan NP pr fuel : forall k i st (s : G * pop P), 1 <= NP -> length pr = NP -> i < NP -> Forall (fun a => a = NaN) pr -> 0 < k ->
  ends_if_fuel (bee_onlook r fuel NP pr k i st) s (fun _ _ => False) (fails p).
Proof.
  induction fuel as [|fuel IH]; intros k i st s HN LP Hi FN Hk; destruct k as [|k]; try lia; cbn [bee_onlook]; [exact Logic.I|].
  apply ends_bind. eapply ends_eng; [apply (draw01_any r RC)|]. intros x g _. destruct (vget_in_range pr i ltac:(lia)) as (ps & E & N). apply ends_bind. eapply ends_lift_ok; [exact E|].
  rewrite Forall_forall in FN. rewrite (FN ps) by (eapply nth_error_In; eauto). replace (dlt x NaN) with false by (destruct x; reflexivity). apply IH; auto; [apply Nat.mod_upper_bound; lia|now apply Forall_forall].
Qed.
Lemma bee_gen_nan fuel st f (s : G * pop P) : binv st (snd s) -> 2 <= length (po_id (snd s)) -> In f (b_fit st) -> obj f = NaN ->
  ends_if_fuel (bee_gen r limit fuel (length (po_id (snd s))) st) s (fun _ _ => False) (fails p).
Proof.
  intros I HN Hf Nf. set (NP := length (po_id (snd s))) in *. pose proof I as (_ & _ & _ & _ & _ & _ & LT). apply In_nth_error in Hf. destruct Hf as (j & Hj).
  destruct (mtried_ok (b_trial st) NP LT ltac:(lia)) as (mi & t & E & Hm & Ht & Mx). unfold bee_gen. apply ends_bind. eapply ends_lift_ok; [exact E|].
  apply ends_bind. eapply ends_lift_ok; [unfold vget; rewrite Ht; reflexivity|]. cbv zeta.
  apply ends_bind. eapply ends_weak; [apply (bee_employed_ok True False st mi t s I HN Hm Ht)| |auto]. fold NP. intros st1 s1 B1. pose proof B1 as (I1 & _ & (_ & EI1 & _) & _ & _ & N1).
  assert (EL1 : length (po_id (snd s1)) = NP) by (unfold NP; congruence).
  apply ends_bind. eapply ends_weak with (Q := fun st2 s2 => binv st2 (snd s2) /\ length (po_id (snd s2)) = NP /\ nth_error (b_fit st2) j = Some f) (E := fails p); [|intros st2 s2 (I2 & EL2 & N2)|auto].
  - destruct (limit <=? t)%Z.
    + eapply ends_weak; [apply (bee_scout_ok True st1 mi s1 I1); lia| |auto]. intros st2 s2 (X1 & _ & (_ & EI2 & _) & _ & _ & N2). split; [exact X1|]. split; [congruence|]. apply N2; auto.
    + apply ends_ret. auto.
  - pose proof I2 as (_ & _ & _ & _ & LF2 & FF2 & _). destruct (probs_nan (b_fit st2) f FF2) as (pr & Epr & Lpr & FN); [eapply nth_error_In; eauto|exact Nf|].
    apply ends_bind. eapply ends_lift_ok; [exact Epr|]. apply onlook_nan; auto; lia.
Qed.
Lemma bee_binv0 (s : pop P) : po_prob s = p -> valid_pop s -> Forall Box (po_x s) -> binv (mkbees (po_x s) (po_f s) (repeat 0%Z (length (po_id s)))) s.
Proof.
  intros EP V FB. pose proof V as (_ & ST & _). pose proof ST as (S1 & S2 & Fx & Ff & _). split; [exact V|]. split; [exact EP|]. split; [reflexivity|]. split; [exact FB|].
  cbn [b_fit b_trial]. split; [lia|]. split; [|apply repeat_length]. apply Forall_forall. intros f Hf. rewrite <- NF, <- EP. now apply Ff.
Qed.
Lemma bee_nan fuel gen f (s : G * pop P) : get_nc p = 0 -> u_set_seed (p_udp p) = false -> po_prob (snd s) = p -> valid_pop (snd s) -> Forall Box (po_x (snd s)) -> 2 <= length (po_id (snd s)) ->
  In f (po_f (snd s)) -> obj f = NaN -> 0 < gen -> ends_if_fuel (bee_evolve r limit fuel gen) s (fun _ _ => False) (fails p).
Proof.
  intros NC NS EP V FB HN Hf Nf Hg. unfold bee_evolve. apply ends_bind, ends_getp. cbv zeta. rewrite EP, NC, NF, NS. cbn [Nat.eqb negb]. destruct (Nat.ltb_spec (length (po_id (snd s))) 2); [lia|].
  destruct gen as [|gen]; [lia|]. cbn [seq rfold]. apply ends_bind, ends_bind. eapply ends_weak; [apply (bee_gen_nan fuel _ f s); auto; now apply bee_binv0|intros ? ? []|auto].
Qed.

Lemma bee_gens_ok fuel gen (s : G * pop P) : get_nc p = 0 -> u_set_seed (p_udp p) = false -> po_prob (snd s) = p -> valid_pop (snd s) -> Forall Box (po_x (snd s)) -> 2 <= length (po_id (snd s)) ->
  ends_if_fuel (bee_evolve r limit fuel gen) s
    (fun _ s' => valid_pop (snd s') /\ Forall Box (po_x (snd s')) /\ replaced R1 (snd s) (snd s') /\ evals (gen * (2 * length (po_id (snd s)))) (snd s) (snd s') /\
      ((Z.of_nat ((gen - 1) * (2 * length (po_id (snd s)))) < limit)%Z -> replaced R2 (snd s) (snd s'))) (fails p).
Proof.
  intros NC NS EP V FB HN. unfold bee_evolve. apply ends_bind, ends_getp. cbv zeta. rewrite EP, NC, NF, NS. cbn [Nat.eqb negb]. destruct (Nat.ltb_spec (length (po_id (snd s))) 2); [lia|].
  set (NP := length (po_id (snd s))) in *. set (st0 := mkbees _ _ _). pose proof V as (_ & ST & _). pose proof ST as (S1 & S2 & Fx & Ff & _).
  assert (I0 : binv st0 (snd s)) by (now apply bee_binv0).
  apply ends_bind. eapply ends_weak with (Q := fun st s' => brel (Z.of_nat ((gen - 1) * (2 * NP)) < limit)%Z (gen * (2 * NP)) (Z.of_nat (gen * (2 * NP))) st0 (snd s) st (snd s')) (E := fails p); [|intros st s' B|auto].
  - change (seq 0 gen) with (seq 0 gen). replace gen with (0 + gen) at 2 3 by lia. 
    apply (ends_seq (fun st _ => bee_gen r limit fuel NP st) (fun g st s' => brel (Z.of_nat ((gen - 1) * (2 * NP)) < limit)%Z (g * (2 * NP)) (Z.of_nat (g * (2 * NP))) st0 (snd s) st (snd s'))).
    + apply brel_refl. exact I0.
    + intros g st s1 Hg B. pose proof B as (I1 & _ & (_ & EI & _) & _ & TL & _). assert (EL : length (po_id (snd s1)) = NP) by (unfold NP; congruence).
      eapply ends_weak; [rewrite <- EL; apply bee_gen_ok; [exact I1|lia]| |auto]. rewrite EL. intros st2 s2 B2. replace ((g + 1) * (2 * NP)) with (g * (2 * NP) + 2 * NP) by lia. rewrite Nat2Z.inj_add.
      eapply brel_trans; [lia|exact (proj1 (binv_len _ _ I0))|exact B|]. destruct B2 as (X1 & X2 & X3 & X4 & X5). repeat (split; [assumption|]). split; [|exact X5]. intros HL. apply X4.
      assert (T : trials_le (0 + Z.of_nat (g * (2 * NP))) st) by (apply TL; [lia|]; apply Forall_forall; intros t Ht; apply repeat_spec in Ht; subst t; lia).
      eapply Forall_impl; [|exact T]. cbv beta. intros t Ht. assert (g * (2 * NP) <= (gen - 1) * (2 * NP)) by (apply Nat.mul_le_mono_r; lia). lia.
  - apply ends_ret. destruct B as (I1 & B2 & B3 & B4 & _). pose proof I1 as (V1 & _ & _ & FB1 & _). split; [exact V1|]. split; [exact FB1|]. split; [exact B3|]. split; [exact B2|]. intros HL. exact (proj2 (B4 HL eq_refl)).
Qed.
End B.
