From Coq Require Import List Bool Arith ZArith Lia.
From Verif Require Import Dbl DblFacts IntDbl Outcome BaseFacts StdSort Problem SpecProblem ProblemFacts Rng Generic SpecGeneric GenericFacts3 SpecGenetic RmFacts
  GeneticOps GeneticFacts Population SpecPopulation PopulationFacts PopulationFacts3 Algo SpecAlgo AlgoFacts AlgoFacts2 AlgDe.
Import ListNotations.

Lemma mod_next n dim j : j < dim -> (((n + 1) mod dim) + j) mod dim = (n + (1 + j)) mod dim.
Proof. intros H. rewrite Nat.add_mod_idemp_l by lia. f_equal. lia. Qed.
Lemma mod_other n dim j : n < dim -> 0 < j -> j < dim -> (n + j) mod dim <> n.
Proof.
  intros Hn H0 H E. destruct (Nat.lt_ge_cases (n + j) dim) as [C|C].
  - rewrite Nat.mod_small in E; lia.
  - replace (n + j) with ((n + j - dim) + 1 * dim) in E by lia. rewrite Nat.mod_add in E by lia. rewrite Nat.mod_small in E; lia.
Qed.

Section Swap.
Context {A : Type}.
Definition tau (i j k : nat) : nat := if Nat.eqb k j then i else if Nat.eqb k i then j else k.
Lemma tau_inj i j k k' : tau i j k = tau i j k' -> k = k'.
Proof. unfold tau. destruct (Nat.eqb_spec k j), (Nat.eqb_spec k' j), (Nat.eqb_spec k i), (Nat.eqb_spec k' i); lia. Qed.
Lemma swap_nth (l : list A) i j a b : nth_error l i = Some a -> nth_error l j = Some b -> forall k, nth_error (upd (upd l i b) j a) k = nth_error l (tau i j k).
Proof.
  intros Hi Hj k. assert (Li : i < length l) by (apply nth_error_Some; congruence). assert (Lj : j < length l) by (apply nth_error_Some; congruence).
  unfold tau. destruct (Nat.eqb_spec k j) as [->|N].
  - rewrite upd_same by (rewrite upd_len; exact Lj). now rewrite Hi.
  - rewrite upd_other by exact N. destruct (Nat.eqb_spec k i) as [->|N']; [rewrite upd_same by exact Li; now rewrite Hj|now rewrite upd_other].
Qed.
Lemma swap_nodup (l : list A) i j a b : nth_error l i = Some a -> nth_error l j = Some b -> NoDup l -> NoDup (upd (upd l i b) j a).
Proof.
  intros Hi Hj ND. apply NoDup_nth_error. intros k k' Hk E. rewrite !(swap_nth l i j a b Hi Hj) in E. apply (tau_inj i j).
  rewrite NoDup_nth_error in ND. apply ND; [|exact E]. apply nth_error_Some. rewrite !upd_len in Hk.
  assert (K : nth_error (upd (upd l i b) j a) k <> None) by (apply nth_error_Some; rewrite !upd_len; exact Hk). now rewrite (swap_nth l i j a b Hi Hj) in K.
Qed.
End Swap.

Section D.
Context {G P : Type} (r : rng G) (RC : rng_contract r) (srt : sorter) (d : de_params).

(** ** The five indexes *)
Definition picked (NP j : nat) (st : list nat * list nat) : Prop :=
  length (fst st) = NP /\ NoDup (fst st) /\ (forall a, In a (fst st) -> a < NP) /\ length (snd st) = j /\
  forall t, t < j -> nth_error (snd st) t = nth_error (fst st) (NP - 1 - t).
Lemma pick_one_ok NP j st E : j < NP -> picked NP j st -> always (pick_one r NP st j) (picked NP (j + 1)) E.
Proof.
  intros Hj (L & ND & RG & LP & NT). unfold pick_one.
  eapply always_bind; [apply (draw_int_ok r RC 0 (Z.of_nat (NP - 1 - j))); lia|]. intros k Hk. cbv beta in *.
  destruct (nth_ex (fst st) (Z.to_nat k)) as (a & Ea); [lia|]. destruct (nth_ex (fst st) (NP - 1 - j)) as (b & Eb); [lia|].
  eapply always_bind; [apply (always_vget _ _ a (fun v => v = a)); auto|]. intros a' ->.
  eapply always_bind; [apply (always_vget _ _ b (fun v => v = b)); auto|]. intros b' ->.
  eapply always_bind; [apply (always_vset _ _ b (fun v => v = upd (fst st) (Z.to_nat k) b)); auto; lia|]. intros l1 ->.
  eapply always_bind; [apply (always_vset _ _ a (fun v => v = upd (upd (fst st) (Z.to_nat k) b) (NP - 1 - j) a)); auto; rewrite upd_len; lia|]. intros l2 ->.
  apply always_ret. unfold picked. cbn [fst snd]. rewrite !upd_len, app_length. cbn [length].
  split; [exact L|]. split; [now apply swap_nodup|]. split.
  { intros c Hc. apply upd_in in Hc. destruct Hc as [->|Hc]; [apply RG; eapply nth_error_In; eauto|]. apply upd_in in Hc. destruct Hc as [->|Hc]; [apply RG; eapply nth_error_In; eauto|auto]. }
  split; [lia|]. intros t Ht. rewrite (swap_nth _ _ _ a b Ea Eb). unfold tau. destruct (Nat.eq_dec t j) as [->|N].
  - rewrite Nat.eqb_refl, nth_error_app2, LP, Nat.sub_diag by lia. cbn. now rewrite Ea.
  - destruct (Nat.eqb_spec (NP - 1 - t) (NP - 1 - j)); [lia|]. destruct (Nat.eqb_spec (NP - 1 - t) (Z.to_nat k)); [lia|]. rewrite nth_error_app1 by lia. apply NT. lia.
Qed.
Lemma always_seq {T} (f : T -> nat -> RM G T) (I : nat -> T -> Prop) E n : forall a t, I a t ->
  (forall i t, a <= i < a + n -> I i t -> always (f t i) (I (i + 1)) E) -> always (rfold f t (seq a n)) (I (a + n)) E.
Proof.
  induction n as [|n IH]; intros a t H0 H; cbn [seq rfold].
  - rewrite Nat.add_0_r. now apply always_ret.
  - eapply always_bind; [apply H; [lia|exact H0]|]. intros t' H'. replace (a + S n) with ((a + 1) + n) by lia. replace (a + 1) with (S a) in * by lia. apply IH; [exact H'|]. intros i t'' Hi. apply H. lia.
Qed.
Definition five (NP : nat) (ri : list nat) : Prop := length ri = 5 /\ NoDup ri /\ forall a, In a ri -> a < NP.
Lemma pick_some_ok n NP E : n <= NP -> always (rbind (rfold (pick_one r NP) (seq 0 NP, []) (seq 0 n)) (fun st => rret (snd st))) (fun ri => length ri = n /\ NoDup ri /\ forall a, In a ri -> a < NP) E.
Proof.
  intros Hn. eapply always_bind.
  - apply (always_seq (pick_one r NP) (picked NP) E n 0).
    + unfold picked. cbn [fst snd]. rewrite seq_length. split; [reflexivity|]. split; [apply seq_NoDup|]. split; [intros a Ha; apply in_seq in Ha; lia|]. split; [reflexivity|]. intros; lia.
    + intros i t Hi. apply pick_one_ok; lia.
  - intros st (L & ND & RG & LP & NT). cbn [Nat.add] in LP, NT. apply always_ret. split; [exact LP|]. split.
    + apply NoDup_nth_error. intros k k' Hk E'. assert (Hk' : k' < n). { rewrite LP in Hk. assert (nth_error (snd st) k' <> None) by (rewrite <- E'; apply nth_error_Some; lia). apply nth_error_Some in H. lia. }
      rewrite !NT in E' by lia. rewrite NoDup_nth_error in ND. assert (NP - 1 - k = NP - 1 - k') by (apply ND; [lia|exact E']). lia.
    + intros a Ha. apply In_nth_error in Ha. destruct Ha as (t & Ht). assert (t < length (snd st)) by (apply nth_error_Some; congruence). rewrite NT in Ht by lia. apply RG. eapply nth_error_In; eauto.
Qed.
Lemma pick_five_ok NP E : 5 <= NP -> always (pick_five r NP) (five NP) E.
Proof. exact (pick_some_ok 5 NP E). Qed.

(** ** The trial vector; components satisfy Val before, Res where mutated *)
Context (p : problem) (PO : prob_obj p) (NC : get_nc p = 0) (NF : get_nf p = 1) (FD : fitness_defined p).
Context (Val Res : dbl -> Prop) (Box : list dbl -> Prop).
Definition Any v := Val v \/ Res v.
Definition goodx (x : list dbl) := length x = get_nx p /\ Forall Val x.
Context (VR1 : forall g a b, Val g -> Val a -> Val b -> Res (dadd g (dmul (de_F d) (dsub a b)))).
Context (VR3 : forall t g a b, Val t -> Val g -> Val a -> Val b -> Res (dadd (dadd t (dmul (de_F d) (dsub g t))) (dmul (de_F d) (dsub a b)))).
Context (VR4 : forall g a b c e, Val g -> Val a -> Val b -> Val c -> Val e -> Res (dadd g (dmul (dsub (dsub (dadd a b) c) e) (de_F d)))).
Context (HB : forall x y, length x = get_nx p -> Forall Any x -> bounded_from (p_lb p) (p_ub p) x y -> Box y /\ Forall Val y).
Context (VAR : 1 <= de_variant d <= 10).

Lemma Forall_nth_ok {A} (Q : A -> Prop) l i : Forall Q l -> i < length l -> exists v, vget l i = Ok v /\ nth_error l i = Some v /\ Q v.
Proof. intros F H. destruct (vget_in_range l i H) as (v & E & E'). exists v. split; [exact E|]. split; [exact E'|]. rewrite Forall_forall in F. apply F. eapply nth_error_In; eauto. Qed.
Lemma at2_ok old k n : Forall goodx old -> k < length old -> n < get_nx p -> exists v, at2 old k n = Ok v /\ Val v.
Proof.
  intros F Hk Hn. destruct (Forall_nth_ok goodx old k F Hk) as (x & E & _ & Lx & Vx). unfold at2. rewrite E. cbn [bind].
  destruct (Forall_nth_ok Val x n Vx ltac:(lia)) as (v & Ev & _ & V). eauto.
Qed.
Lemma de_value_ok old gb ri tmp n : Forall goodx old -> goodx gb -> five (length old) ri -> length tmp = get_nx p -> n < get_nx p -> (forall v, nth_error tmp n = Some v -> Val v) ->
  exists v, de_value d old gb ri tmp n = Ok v /\ Res v.
Proof.
  intros FO (Lg & Vg) (L5 & _ & R5) Lt Hn VT. unfold de_value.
  assert (C : forall k, k < 5 -> exists v, bind (vget ri k) (fun a => at2 old a n) = Ok v /\ Val v).
  { intros k Hk. destruct (vget_in_range ri k ltac:(lia)) as (a & E & E'). rewrite E. cbn [bind]. apply at2_ok; auto. apply R5. eapply nth_error_In; eauto. }
  destruct (C 0 ltac:(lia)) as (c0 & E0 & V0). destruct (C 1 ltac:(lia)) as (c1 & E1 & V1). destruct (C 2 ltac:(lia)) as (c2 & E2 & V2). destruct (C 3 ltac:(lia)) as (c3 & E3 & V3). destruct (C 4 ltac:(lia)) as (c4 & E4 & V4).
  destruct (Forall_nth_ok Val gb n Vg ltac:(lia)) as (g & Eg & _ & VG). destruct (vget_in_range tmp n ltac:(lia)) as (t & Et & Et').
  rewrite E0, E1, E2, E3, E4, Eg, Et. cbn [bind].
  assert (HV : de_variant d = 1 \/ de_variant d = 6 \/ de_variant d = 2 \/ de_variant d = 7 \/ de_variant d = 3 \/ de_variant d = 8 \/ de_variant d = 4 \/ de_variant d = 9 \/ de_variant d = 5 \/ de_variant d = 10) by lia.
  destruct HV as [->|[->|[->|[->|[->|[->|[->|[->|[->| ->]]]]]]]]]; eexists; (split; [reflexivity|]); auto.
Qed.
Lemma forall_upd {A} (Q : A -> Prop) l i v : Forall Q l -> Q v -> Forall Q (upd l i v).
Proof. intros F H. apply Forall_forall. intros y Hy. apply upd_in in Hy. destruct Hy as [->|Hy]; [exact H|]. rewrite Forall_forall in F. auto. Qed.

Definition untouched (dim n k : nat) (tmp : list dbl) : Prop := forall j v, j < k -> nth_error tmp ((n + j) mod dim) = Some v -> Val v.
Lemma untouched_step dim n k tmp v : n < dim -> k < dim -> untouched dim n (S k) tmp -> untouched dim ((n + 1) mod dim) k (upd tmp n v).
Proof.
  intros Hn Hk U j w Hj E. rewrite mod_next in E by lia. rewrite upd_other in E by (apply mod_other; lia). apply (U (1 + j)); [lia|exact E].
Qed.
Lemma exp_loop_ok value dim E k : dim = get_nx p -> forall n tmp, k <= dim -> n < dim -> length tmp = dim -> Forall Any tmp -> untouched dim n k tmp ->
  (forall t m, length t = dim -> m < dim -> (forall v, nth_error t m = Some v -> Val v) -> exists v, value t m = Ok v /\ Res v) ->
  always (exp_loop r d value dim k n tmp) (fun t => length t = dim /\ Forall Any t) E.
Proof.
  intros ED. induction k as [|k IH]; intros n tmp Hk Hn L F U HV; cbn [exp_loop]; [apply always_ret; auto|].
  destruct (HV tmp n L Hn) as (v & Ev & RV).
  { intros v Hv. apply (U 0); [lia|]. rewrite Nat.add_0_r, Nat.mod_small by exact Hn. exact Hv. }
  eapply always_bind with (P := fun t => t = upd tmp n v).
  { apply always_lift. rewrite Ev. cbn [bind]. rewrite vset_in_range by lia. reflexivity. }
  intros t ->. eapply always_bind; [apply (draw01_any r RC)|]. intros u _. destruct (_ && _)%bool.
  - apply IH; auto; [lia|apply Nat.mod_upper_bound; lia|rewrite upd_len; exact L|apply forall_upd; auto; now right|apply untouched_step; auto; lia].
  - apply always_ret. split; [rewrite upd_len; exact L|apply forall_upd; auto; now right].
Qed.
Lemma bin_loop_ok value dim E n tmp : dim = get_nx p -> n < dim -> length tmp = dim -> Forall Val tmp ->
  (forall t m, length t = dim -> m < dim -> (forall v, nth_error t m = Some v -> Val v) -> exists v, value t m = Ok v /\ Res v) ->
  always (bin_loop r d value dim n tmp) (fun t => length t = dim /\ Forall Any t) E.
Proof.
  intros ED Hn L F HV. unfold bin_loop. eapply always_bind.
  - apply (always_seq _ (fun k st => snd st < dim /\ length (fst st) = dim /\ Forall Any (fst st) /\ untouched dim (snd st) (dim - k) (fst st)) E dim 0).
    + cbn [fst snd]. split; [exact Hn|]. split; [exact L|]. split; [eapply Forall_impl; [|exact F]; intros; now left|].
      intros j v Hj Hv. rewrite Forall_forall in F. apply F. eapply nth_error_In; eauto.
    + intros k [t m] Hk (Hm & Lt & Ft & Ut). cbn [fst snd] in *. eapply always_bind; [apply (draw01_any r RC)|]. intros u _.
      destruct (HV t m Lt Hm) as (v & Ev & RV).
      { intros v Hv. apply (Ut 0); [lia|]. rewrite Nat.add_0_r, Nat.mod_small by exact Hm. exact Hv. }
      assert (U0 : forall w, untouched dim ((m + 1) mod dim) (dim - (k + 1)) (upd t m w)) by (intros w; apply untouched_step; [exact Hm|lia|replace (S (dim - (k + 1))) with (dim - k) by lia; exact Ut]).
      assert (NM : (m + 1) mod dim < dim) by (apply Nat.mod_upper_bound; lia).
      eapply always_bind with (P := fun t' => length t' = dim /\ Forall Any t' /\ untouched dim ((m + 1) mod dim) (dim - (k + 1)) t').
      * destruct (_ || _)%bool.
        -- apply always_lift. rewrite Ev. cbn [bind]. rewrite vset_in_range by lia. split; [rewrite upd_len; exact Lt|]. split; [apply forall_upd; auto; now right|apply U0].
        -- apply always_ret. split; [exact Lt|]. split; [exact Ft|]. intros j w Hj Hw. rewrite mod_next in Hw by lia. apply (Ut (1 + j)); [lia|exact Hw].
      * intros t' (A1 & A2 & A3). apply always_ret. cbn [fst snd]. auto.
  - intros [t m] (_ & A1 & A2 & _). apply always_ret. cbn in *. auto.
Qed.
Lemma de_trial_ok old gb ri i E : Forall goodx old -> goodx gb -> five (length old) ri -> i < length old ->
  always (de_trial r d (get_nx p) old gb ri i) (fun t => length t = get_nx p /\ Forall Any t) E.
Proof.
  intros FO GG F5 Hi. unfold de_trial. destruct (Forall_nth_ok goodx old i FO Hi) as (x & Ex & Ex' & Lx & Vx). destruct (prob_obj_facts p PO) as (NX & _).
  eapply always_bind; [apply (always_vget _ _ x (fun v => v = x)); auto|]. intros t ->.
  eapply always_bind; [apply (draw_int_ok r RC 0 (Z.of_nat (get_nx p) - 1)); lia|]. intros n Hn. cbv beta in Hn.
  assert (HV : forall t m, length t = get_nx p -> m < get_nx p -> (forall v, nth_error t m = Some v -> Val v) -> exists v, de_value d old gb ri t m = Ok v /\ Res v)
    by (intros t m Lt Hm VT; now apply de_value_ok).
  destruct (Nat.leb _ 5).
  - apply exp_loop_ok; auto; [lia|eapply Forall_impl; [|exact Vx]; intros; now left|]. intros j v _ Hv. rewrite Forall_forall in Vx. apply Vx. eapply nth_error_In; eauto.
  - apply bin_loop_ok; auto. lia.
Qed.

(** ** One individual *)
Local Notation better_point := (SpecAlgo.better_point p Box).
Local Notation fails := (SpecAlgo.fails p).
Context (s0 : pop P) (EP0 : po_prob s0 = p) (V0 : valid_pop s0).
Let NP := length (po_id s0).
Definition inv (k : nat) (st : dst) (s : G * pop P) : Prop :=
  valid_pop (snd s) /\ replaced better_point s0 (snd s) /\ evals k s0 (snd s) /\
  d_fit st = po_f (snd s) /\ length (d_old st) = NP /\ length (d_new st) = NP /\ Forall goodx (d_old st) /\ Forall goodx (d_new st) /\
  goodx (d_gbX st) /\ goodx (d_gbIter st) /\ length (d_gbfit st) = 1.
Lemma obj_vget f : length f = 1 -> vget f 0 = Ok (obj f).
Proof. destruct f as [|a [|]]; try discriminate. reflexivity. Qed.
Lemma de_one_ok k st s i : 5 <= NP -> i < NP -> inv k st s -> ends (de_one r d p NP st i) s (inv (k + 1)) fails.
Proof.
  intros H5 Hi (V & RP & FE & EF & L1 & L2 & G1 & G2 & G3 & G4 & L3). pose proof RP as (E1 & E2 & E3 & E4 & RR).
  assert (EP : po_prob (snd s) = p) by congruence. pose proof V as (_ & (S1 & S2 & Fx & Ff & _) & _).
  assert (LN : length (po_id (snd s)) = NP) by (unfold NP; congruence). unfold de_one.
  apply ends_bind. eapply ends_eng; [apply (pick_five_ok NP _ H5)|]. intros ri g F5. cbv beta.
  apply ends_bind. eapply ends_eng; [apply de_trial_ok; [exact G1|exact G4|rewrite L1; exact F5|lia]|]. intros t0 g1 (Lt & At). cbv beta.
  apply ends_bind. eapply ends_eng; [apply (fbr_ok r RC p t0); auto; intros ND; right; auto|]. intros t g2 BF. cbv beta.
  assert (Lt' : length t = get_nx p) by (destruct BF; congruence). destruct (HB t0 t Lt At BF) as [BX VX].
  apply ends_bind. apply (ends_peval p); auto; [intros e He; now left|]. intros f EV. cbn [fst snd]. pose proof EV as (_ & Lf & _).
  rewrite NF in Lf. apply ends_bind. eapply ends_lift_ok; [apply obj_vget; exact Lf|].
  destruct (vget_in_range (po_f (snd s)) i ltac:(lia)) as (fi & Efi & Nfi). assert (Lfi : length fi = 1) by (rewrite <- NF, <- EP; apply Ff; eapply nth_error_In; eauto).
  apply ends_bind. eapply ends_lift_ok; [unfold at2; rewrite EF, Efi; cbn [bind]; apply obj_vget; exact Lfi|].
  assert (FE' : evals (k + 1) s0 (with_fevals (snd s) (wrap64 (po_fevals (snd s) + 1)))) by (now apply evals_S).
  assert (GX : goodx t) by (split; assumption).
  destruct (dle (obj f) (obj fi)) eqn:D.
  - apply ends_bind. eapply ends_lift_ok; [apply vset_in_range; rewrite EF; lia|]. apply ends_bind. eapply ends_lift_ok; [apply vset_in_range; lia|].
    apply ends_bind. apply ends_pset; cbn [snd fst]; [apply valid_fevals; exact V|cbn; lia|cbn; congruence|cbn; rewrite EP, NF; exact Lf|].
    intros c _ V'. apply ends_bind. eapply ends_lift_ok; [apply obj_vget; exact L3|].
    assert (RP' : replaced better_point s0 (setp (with_fevals (snd s) (wrap64 (po_fevals (snd s) + 1))) i t f c)).
    { apply replaced_set; [exact RP|destruct V0 as (_ & (_ & S2' & _) & _); exact S2'|]. intros x0 f0 A B. split; [exact EV|]. split; [exact BX|].
      destruct (vget_in_range (po_x (snd s)) i ltac:(lia)) as (xi & _ & Nxi). destruct (RR i x0 f0 xi fi A B Nxi Nfi) as [[_ ->]|(_ & _ & D')]; [exact D|]. eapply dle_trans; eauto. }
    destruct (dle (obj f) (obj (d_gbfit st))); apply ends_ret; unfold inv; cbn [snd fst d_fit d_old d_new d_gbX d_gbfit d_gbIter setp po_f po_fevals with_fevals]; rewrite ?upd_len;
      (split; [exact V'|]); (split; [exact RP'|]); (split; [exact FE'|]); (split; [rewrite EF; reflexivity|]);
      (split; [exact L1|]); (split; [exact L2|]); (split; [exact G1|]); (split; [apply forall_upd; auto|]); auto.
  - destruct (Forall_nth_ok goodx (d_old st) i G1 ltac:(lia)) as (xi & Exi & _ & GXi).
    apply ends_bind. eapply ends_lift_ok; [exact Exi|]. apply ends_bind. eapply ends_lift_ok; [apply vset_in_range; lia|]. apply ends_ret. unfold inv.
    cbn [snd fst d_fit d_old d_new d_gbX d_gbfit d_gbIter po_f po_fevals with_fevals]. rewrite ?upd_len.
    split; [exact V|]. split; [exact RP|]. split; [exact FE'|]. split; [exact EF|]. split; [exact L1|]. split; [exact L2|]. split; [exact G1|]. split; [apply forall_upd; auto|]. auto.
Qed.
Lemma de_generation_ok k st s : 5 <= NP -> inv k st s -> ends (rfold (de_one r d p NP) st (seq 0 NP)) s (inv (k + NP)) fails.
Proof.
  intros H5 I. apply (ends_seq (de_one r d p NP) (fun i => inv (k + i)) fails NP 0); [rewrite Nat.add_0_r; exact I|].
  intros i t s' Hi I'. replace (k + (i + 1)) with (k + i + 1) by lia. apply de_one_ok; auto. lia.
Qed.

(** ** The generations *)
Local Notation flat_end := (flat srt (de_xtol d) (de_ftol d)).
Definition de_done (gen : nat) (u : unit) (s : G * pop P) : Prop :=
  valid_pop (snd s) /\ replaced better_point s0 (snd s) /\
  exists k, 1 <= k <= gen /\ evals (k * NP) s0 (snd s) /\ (k < gen -> flat_end (snd s)).
Lemma flat_x_ok (s : pop P) b w xb xw : valid_pop s -> po_prob s = p -> nth_error (po_x s) b = Some xb -> nth_error (po_x s) w = Some xw -> flat_x s (get_nx p) b w = Ok (manhattan xw xb).
Proof.
  intros (_ & (S1 & S2 & Fx & _) & _) EP Nb Nw. unfold flat_x, manhattan.
  assert (Lb : length xb = get_nx p) by (rewrite <- EP; apply Fx; eapply nth_error_In; eauto). assert (Lw : length xw = get_nx p) by (rewrite <- EP; apply Fx; eapply nth_error_In; eauto).
  assert (H : forall y x k a, length x = length y -> (forall i c, nth_error x i = Some c -> nth_error xw (k + i) = Some c) -> (forall i c, nth_error y i = Some c -> nth_error xb (k + i) = Some c) ->
    mfold (fun dx i => bind (at2 (po_x s) w i) (fun a => bind (at2 (po_x s) b i) (fun c => Ok (dadd dx (dabs (dsub a c)))))) a (seq k (length y)) = Ok (fold_left (fun a c => dadd a (dabs (dsub (fst c) (snd c)))) (combine x y) a)).
  { induction y as [|c y IH]; intros [|c' x] k a L Hx Hy; try discriminate; [reflexivity|]. cbn [length seq mfold combine fold_left fst snd]. unfold at2 at 1 2, vget. rewrite Nw, Nb. cbn [bind].
    pose proof (Hx 0 c' eq_refl) as A1. pose proof (Hy 0 c eq_refl) as A2. rewrite Nat.add_0_r in A1, A2. rewrite A1, A2. cbn [bind]. apply IH; [injection L; auto| |];
    intros i e He; [specialize (Hx (S i) e He)|specialize (Hy (S i) e He)]; (replace (S k + i) with (k + S i) by lia); assumption. }
  rewrite <- Lb. apply H; [congruence|auto|auto].
Qed.
Lemma flat_f_ok (s : pop P) b w fb fw : valid_pop s -> po_prob s = p -> nth_error (po_f s) b = Some fb -> nth_error (po_f s) w = Some fw -> flat_f s b w = Ok (dabs (dsub (obj fw) (obj fb))).
Proof.
  intros (_ & (S1 & S2 & _ & Ff & _) & _) EP Nb Nw. unfold flat_f, at2, vget. rewrite Nb, Nw. cbn [bind]. fold (vget fw 0) (vget fb 0).
  rewrite !obj_vget by (rewrite <- NF, <- EP; apply Ff; eapply nth_error_In; eauto). reflexivity.
Qed.
Lemma de_gens_ok gen : 5 <= NP -> forall n k st s, n + k = gen -> (k = 0 -> 0 < n) -> inv (k * NP) st s ->
  (n = 0 -> de_done gen tt s) -> ends (de_gens r srt d p NP n st) s (de_done gen) fails.
Proof.
  intros H5. induction n as [|n IH]; intros k st s EG H0 I HD; cbn [de_gens]; [apply HD; reflexivity|].
  apply ends_bind. eapply ends_weak; [apply de_generation_ok; [exact H5|exact I]| |auto].
  intros st1 s1 I1. cbv beta. pose proof I1 as (V & RP & FE & EF & L1 & L2 & G1 & G2 & G3 & G4 & L3). pose proof RP as (E1 & E2 & _).
  assert (EP : po_prob (snd s1) = p) by congruence. assert (LN : length (po_id (snd s1)) = NP) by (unfold NP; congruence).
  assert (NO : p_nobj (po_prob (snd s1)) = 1). { rewrite EP. destruct (prob_obj_facts p PO) as (_ & _ & _ & X). lia. }
  assert (NC' : get_nc (po_prob (snd s1)) = 0) by congruence. assert (NE : po_id (snd s1) <> []) by (intros X; rewrite X in LN; cbn in LN; lia).
  destruct (best_idx_lt srt (snd s1) NO NC' (proj1 (proj2 V)) NE) as (b & Eb & Hb). destruct (worst_idx_lt srt (snd s1) NO NC' (proj1 (proj2 V)) NE) as (w & Ew & Hw).
  apply ends_bind, ends_getp. apply ends_bind. eapply ends_lift_ok; [exact Eb|]. apply ends_bind. eapply ends_lift_ok; [exact Ew|].
  pose proof V as (_ & (S1 & S2 & _) & _). destruct (nth_ex (po_x (snd s1)) b ltac:(lia)) as (xb & Nxb). destruct (nth_ex (po_x (snd s1)) w ltac:(lia)) as (xw & Nxw).
  destruct (nth_ex (po_f (snd s1)) b ltac:(lia)) as (fb & Nfb). destruct (nth_ex (po_f (snd s1)) w ltac:(lia)) as (fw & Nfw).
  pose proof (flat_x_ok (snd s1) b w xb xw V EP Nxb Nxw) as Edx. pose proof (flat_f_ok (snd s1) b w fb fw V EP Nfb Nfw) as Edf.
  apply ends_bind. eapply ends_lift_ok; [exact Edx|].
  assert (FE' : evals (S k * NP) s0 (snd s1)) by (replace (S k * NP) with (k * NP + NP) by lia; exact FE).
  destruct (dlt (manhattan xw xb) (de_xtol d)) eqn:D1.
  { apply ends_ret. split; [exact V|]. split; [exact RP|]. exists (S k). split; [lia|]. split; [exact FE'|]. intros _. exists b, w, xb, fb, xw, fw. auto 9. }
  apply ends_bind. eapply ends_lift_ok; [exact Edf|]. destruct (dlt (dabs (dsub (obj fw) (obj fb))) (de_ftol d)) eqn:D2.
  { apply ends_ret. split; [exact V|]. split; [exact RP|]. exists (S k). split; [lia|]. split; [exact FE'|]. intros _. exists b, w, xb, fb, xw, fw. auto 9. }
  apply (IH (S k)); [lia|lia| |].
  - unfold inv. cbn [d_fit d_old d_new d_gbX d_gbfit d_gbIter]. auto 12.
  - intros ->. split; [exact V|]. split; [exact RP|]. exists (S k). split; [lia|]. split; [exact FE'|]. intros; lia.
Qed.
End D.
