(** Sequences of calls to the low-discrepancy generators. *)
From Coq Require Import List Bool Arith ZArith QArith Lia Znumtheory.
From Verif Require Import Dbl DblFacts Outcome StdSort BaseFacts Compare Primes PrimesFacts Discrepancy SpecDiscrepancy DiscrepancyFacts.
Import ListNotations.
Local Open Scope Z_scope.

(** k successive calls of operator() *)
Fixpoint vdc_calls (k : nat) (s : vdc) : outcome (list Q) :=
  match k with
  | O => Ok []
  | S k' => bind (vdc_next s) (fun r => bind (vdc_calls k' (snd r)) (fun l => Ok (fst r :: l)))
  end.
Fixpoint halton_calls (k : nat) (h : list vdc) : outcome (list (list Q)) :=
  match k with
  | O => Ok []
  | S k' => bind (halton_next h) (fun r => bind (halton_calls k' (snd r)) (fun l => Ok (fst r :: l)))
  end.

Lemma vdc_calls_ok b k : forall n, 2 <= b -> 0 <= n -> n + Z.of_nat k <= 2 ^ 32 ->
  exists l, vdc_calls k {| vdc_base := b; vdc_counter := n |} = Ok l /\ length l = k /\
    forall j g, nth_error l j = Some g -> vdc_value b (n + Z.of_nat j) = Ok g.
Proof.
  induction k as [|k IH]; intros n Hb Hn Hk.
  - exists []. split; [reflexivity|]. split; [reflexivity|]. intros [|j] g; discriminate.
  - destruct (vdc_total b n Hb) as (g & E & _); [unfold two32; lia|].
    assert (Enext : vdc_next {| vdc_base := b; vdc_counter := n |} = Ok (g, {| vdc_base := b; vdc_counter := (n + 1) mod two32 |})).
    { unfold vdc_next. cbn [vdc_base vdc_counter]. unfold vdc_value in E. rewrite E. reflexivity. }
    cbn [vdc_calls]. rewrite Enext. cbn [bind fst snd].
    destruct k as [|k].
    + exists [g]. split; [reflexivity|]. split; [reflexivity|]. intros [|[|j]] g'; cbn [nth_error]; try discriminate.
      intros [= <-]. rewrite Z.add_0_r. exact E.
    + rewrite Z.mod_small by (unfold two32; lia).
      destruct (IH (n + 1)) as (l & El & Ll & Hl); try lia. rewrite El. cbn [bind]. exists (g :: l).
      split; [reflexivity|]. split; [cbn [length]; lia|]. intros [|j] g'; cbn [nth_error].
      * intros [= <-]. rewrite Z.add_0_r. exact E.
      * intros H. specialize (Hl j g' H). replace (n + Z.of_nat (S j)) with (n + 1 + Z.of_nat j) by lia. exact Hl.
Qed.

Lemma vdc_sequence b n k s : vdc_ctor b n = Ok s -> 0 <= n -> n + Z.of_nat k <= 2 ^ 32 ->
  exists l, vdc_calls k s = Ok l /\ length l = k /\
    forall j g ds, nth_error l j = Some g -> digits b ds -> number b ds = n + Z.of_nat j -> (g == radical_inverse b ds)%Q.
Proof.
  unfold vdc_ctor. destruct (Z.ltb_spec b 2); [discriminate|]. intros [= <-] Hn Hk.
  destruct (vdc_calls_ok b k n) as (l & E & L & H0); try lia. exists l. split; [exact E|]. split; [exact L|].
  intros j g ds Hj D N. specialize (H0 j g Hj). rewrite <- N in H0.
  assert (j < k)%nat by (rewrite <- L; apply nth_error_Some; rewrite Hj; discriminate).
  destruct (vdc_value_ok b ds) as (g' & E' & Q'); [lia|exact D|unfold two32; lia|].
  rewrite H0 in E'. inversion E'; subst. exact Q'.
Qed.

Lemma vdc_representation b n : 2 <= b -> 0 <= n < 2 ^ 32 -> exists ds, digits b ds /\ number b ds = n.
Proof.
  intros Hb Hn. pose proof (pow_ge_two32 b Hb) as HP. unfold two32 in HP.
  destruct (to_digits_spec b 32 n Hb ltac:(lia)) as (D & N & L). eexists. split; eassumption.
Qed.

Lemma vdc_sequence_range_inj b n k s l : vdc_ctor b n = Ok s -> 0 <= n -> n + Z.of_nat k <= 2 ^ 32 -> vdc_calls k s = Ok l ->
  (forall j g, nth_error l j = Some g -> (0 <= g)%Q /\ (g < 1)%Q) /\
  (forall i j g h, nth_error l i = Some g -> nth_error l j = Some h -> (g == h)%Q -> i = j).
Proof.
  unfold vdc_ctor. destruct (Z.ltb_spec b 2); [discriminate|]. intros [= <-] Hn Hk El.
  destruct (vdc_calls_ok b k n) as (l' & E & L & H0); try lia. rewrite El in E. inversion E; subst l'. clear E.
  assert (B : forall j g, nth_error l j = Some g -> (j < k)%nat)
    by (intros j g Hj; rewrite <- L; apply nth_error_Some; rewrite Hj; discriminate).
  split.
  - intros j g Hj. pose proof (B j g Hj). destruct (vdc_total b (n + Z.of_nat j)) as (g' & E & R); [lia|unfold two32; lia|].
    rewrite (H0 j g Hj) in E. inversion E; subst. exact R.
  - intros i j g h Hi Hj Q. pose proof (B i g Hi). pose proof (B j h Hj).
    pose proof (vdc_inj b (n + Z.of_nat i) (n + Z.of_nat j) g h ltac:(lia) ltac:(unfold two32; lia) ltac:(unfold two32; lia) (H0 i g Hi) (H0 j h Hj) Q). lia.
Qed.

(** One aligned block of b^m consecutive calls hits every cell [c/b^m,(c+1)/b^m) exactly once. *)
Lemma vdc_equidistributed b m q s l k : vdc_ctor b (q * b ^ Z.of_nat m) = Ok s -> 0 <= q -> (q + 1) * b ^ Z.of_nat m <= 2 ^ 32 ->
  Z.of_nat k = b ^ Z.of_nat m -> vdc_calls k s = Ok l ->
  forall c, 0 <= c < b ^ Z.of_nat m ->
  exists j g, nth_error l j = Some g /\ in_cell (b ^ Z.of_nat m) c g /\
    forall j' g', nth_error l j' = Some g' -> in_cell (b ^ Z.of_nat m) c g' -> j' = j.
Proof.
  unfold vdc_ctor. destruct (Z.ltb_spec b 2); [discriminate|]. intros [= <-] Hq Hqb Ek El c Hc.
  assert (HB : 0 < b ^ Z.of_nat m) by (apply Z.pow_pos_nonneg; lia).
  destruct (vdc_calls_ok b k (q * b ^ Z.of_nat m)) as (l' & E & L & H0); try lia; try nia. rewrite El in E. inversion E; subst l'. clear E.
  destruct (vdc_block b m q c) as (r & (Hr & g & Eg & Hin) & U); try lia; try exact Hqb; try assumption.
  assert (Hj : (Z.to_nat r < length l)%nat) by (rewrite L; lia).
  destruct (nth_error l (Z.to_nat r)) as [g1|] eqn:E1; [|apply nth_error_None in E1; lia].
  pose proof (H0 _ _ E1) as V1. rewrite Z2Nat.id in V1 by lia. rewrite Eg in V1. inversion V1; subst g1.
  exists (Z.to_nat r), g. split; [exact E1|]. split; [exact Hin|].
  intros j' g' Ej' [C1 C2]. pose proof (H0 _ _ Ej') as V'.
  assert (j' < k)%nat by (rewrite <- L; apply nth_error_Some; rewrite Ej'; discriminate).
  pose proof (U (Z.of_nat j') g' ltac:(lia) V' C1 C2). lia.
Qed.

(** Halton: k calls give k points; coordinate i of every point is the van der Corput
    value in the i-th prime base. *)
Lemma halton_calls_ok k : forall h n, (forall s, In s h -> 2 <= vdc_base s /\ vdc_counter s = n) -> 0 <= n -> n + Z.of_nat k <= 2 ^ 32 ->
  exists l, halton_calls k h = Ok l /\ length l = k /\
    forall j pt, nth_error l j = Some pt -> length pt = length h /\
      forall i s g, nth_error h i = Some s -> nth_error pt i = Some g -> vdc_value (vdc_base s) (n + Z.of_nat j) = Ok g.
Proof.
  induction k as [|k IH]; intros h n Hh Hn Hk.
  - exists []. split; [reflexivity|]. split; [reflexivity|]. intros [|j] g; discriminate.
  - destruct (halton_next_ok h) as (pt & h' & E & Lp & Lh & Hv & Hs).
    { intros s Hs. destruct (Hh s Hs). unfold two32. lia. }
    cbn [halton_calls]. rewrite E. cbn [bind fst snd].
    assert (Hd : exists l, halton_calls k h' = Ok l /\ length l = k /\ forall j pt, nth_error l j = Some pt -> length pt = length h' /\
       forall i s g, nth_error h' i = Some s -> nth_error pt i = Some g -> vdc_value (vdc_base s) (n + 1 + Z.of_nat j) = Ok g).
    { destruct k as [|k0].
      - exists []. split; [reflexivity|]. split; [reflexivity|]. intros [|j] g; discriminate.
      - apply IH; try lia. intros s' Hin. apply In_nth_error in Hin. destruct Hin as (i & Hi).
        destruct (nth_error h i) as [s|] eqn:Es.
        + destruct (Hs i s s' Es Hi) as [-> ->]. destruct (Hh s (nth_error_In _ _ Es)) as [? ->].
          split; [assumption|]. apply Z.mod_small. unfold two32. lia.
        + apply nth_error_None in Es. assert (i < length h')%nat by (apply nth_error_Some; rewrite Hi; discriminate). lia. }
    destruct Hd as (l & El & Ll & Hl). rewrite El. cbn [bind]. exists (pt :: l). split; [reflexivity|]. split; [cbn [length]; lia|].
    intros [|j] pt'; cbn [nth_error].
    + intros [= <-]. split; [exact Lp|]. intros i s g Es Eg. destruct (Hv i s g Es Eg) as [V _].
      destruct (Hh s (nth_error_In _ _ Es)) as [_ Ec]. rewrite Ec in V. rewrite Z.add_0_r. exact V.
    + intros Hj. destruct (Hl j pt' Hj) as [Lpt Hpt]. split; [lia|]. intros i s g Es Eg.
      destruct (nth_error h' i) as [s'|] eqn:Es'.
      * destruct (Hs i s s' Es Es') as [Eb _]. specialize (Hpt i s' g Es' Eg). rewrite Eb in Hpt.
        replace (n + Z.of_nat (S j)) with (n + 1 + Z.of_nat j) by lia. exact Hpt.
      * apply nth_error_None in Es'. assert (i < length h)%nat by (apply nth_error_Some; rewrite Es; discriminate). lia.
Qed.

Lemma halton_sequence dim n k : Z.of_nat dim <= 1600 -> 0 <= n -> n + Z.of_nat k <= 2 ^ 32 ->
  exists h bases l, halton_ctor dim n = Ok h /\ halton_calls k h = Ok l /\ length l = k /\ length bases = dim /\ NoDup bases /\
    (forall i b, nth_error bases i = Some b -> prime_at (i + 1) = Ok b) /\
    forall j pt, nth_error l j = Some pt -> length pt = dim /\
      forall i b g, nth_error bases i = Some b -> nth_error pt i = Some g ->
        (0 <= g)%Q /\ (g < 1)%Q /\ forall ds, digits b ds -> number b ds = n + Z.of_nat j -> (g == radical_inverse b ds)%Q.
Proof.
  intros Hd Hn Hk. destruct (halton_ctor_ok dim n Hd) as (h & E & L & Hs & Hdist).
  assert (Hb : forall s, In s h -> 2 <= vdc_base s /\ vdc_counter s = n).
  { intros s Hin. apply In_nth_error in Hin. destruct Hin as (i & Hi). destruct (Hs i s Hi) as (? & _ & P).
    split; [destruct P; lia|assumption]. }
  destruct (halton_calls_ok k h n Hb Hn Hk) as (l & El & Ll & Hl).
  exists h, (map vdc_base h), l. split; [exact E|]. split; [exact El|]. split; [exact Ll|].
  split; [rewrite map_length; exact L|]. split.
  { apply NoDup_nth_error. intros i j Hi Eij. rewrite map_length in Hi. rewrite !nth_error_map in Eij.
    destruct (nth_error h i) as [s|] eqn:Es; [|apply nth_error_None in Es; lia]. cbn in Eij.
    destruct (nth_error h j) as [t|] eqn:Et; [|discriminate]. cbn in Eij. inversion Eij as [Eb].
    destruct (Nat.eq_dec i j); [assumption|]. exfalso. exact (Hdist i j s t n0 Es Et Eb). }
  split.
  { intros i b Hi. rewrite nth_error_map in Hi. destruct (nth_error h i) as [s|] eqn:Es; [|discriminate]. cbn in Hi. inversion Hi; subst.
    apply (Hs i s Es). }
  intros j pt Hj. destruct (Hl j pt Hj) as [Lp Hp]. split; [lia|]. intros i b g Hi Hg.
  rewrite nth_error_map in Hi. destruct (nth_error h i) as [s|] eqn:Es; [|discriminate]. cbn in Hi. inversion Hi; subst b. clear Hi.
  specialize (Hp i s g Es Hg). destruct (Hb s (nth_error_In _ _ Es)) as [B2 _].
  assert (j < k)%nat by (rewrite <- Ll; apply nth_error_Some; rewrite Hj; discriminate).
  destruct (vdc_total (vdc_base s) (n + Z.of_nat j) B2) as (g' & Eg' & R1 & R2); [unfold two32; lia|].
  rewrite Hp in Eg'. inversion Eg'; subst g'. split; [exact R1|]. split; [exact R2|].
  intros ds D N. destruct (vdc_value_ok (vdc_base s) ds B2 D) as (g' & Eg & Q'); [unfold two32; lia|].
  rewrite N, Hp in Eg. inversion Eg; subst. exact Q'.
Qed.

Lemma vdc_rejects b n : b < 2 -> vdc_ctor b n = Throw InvalidArgument.
Proof. intros H. unfold vdc_ctor. destruct (Z.ltb_spec b 2); [reflexivity|lia]. Qed.
Lemma halton_rejects dim n : 1600 < Z.of_nat dim -> exists e, halton_ctor dim n = Throw e.
Proof.
  intros H. unfold halton_ctor.
  enough (G : forall l, (exists i, In i l /\ 1600 <= Z.of_nat i) ->
    exists e, mmap (fun i => bind (prime_at (i + 1)) (fun p => vdc_ctor p n)) l = Throw e).
  { apply G. exists (dim - 1)%nat. split; [apply in_seq; lia|lia]. }
  induction l as [|a l IH]; intros (i & Hi & Hb); [contradiction|]. cbn [mmap].
  destruct (Z_lt_ge_dec (Z.of_nat a) 1600) as [Ha|Ha].
  - destruct (prime_at_spec (a + 1) ltac:(lia)) as (p & _ & -> & Pp & _). cbn [bind]. unfold vdc_ctor at 1.
    destruct (Z.ltb_spec p 2); [destruct Pp; lia|]. cbn [bind].
    destruct Hi as [->|Hi]; [lia|]. destruct IH as (e & ->); [eauto|]. exists e. reflexivity.
  - rewrite prime_at_oob by lia. exists InvalidArgument. reflexivity.
Qed.

Lemma simplex_sum srt input : sort_contract srt -> Forall unit_dbl input -> input <> [] ->
  exists r, sample_from_simplex srt input = Ok r /\ length r = S (length input) /\ on_simplex (S (length input)) r.
Proof.
  intros C U N. destruct (simplex_ok srt input C U N) as (r & gaps & E & L & R & S & ->).
  eexists. split; [exact E|]. split; [rewrite map_length; exact L|]. exists gaps. auto.
Qed.
Lemma simplex_nan : exists srt r, sort_contract srt /\ sample_from_simplex srt [NaN] = Ok r /\ In NaN r.
Proof. exists isort, [NaN; NaN]. split; [exact isort_contract|]. split; [vm_compute; reflexivity|left; reflexivity]. Qed.
