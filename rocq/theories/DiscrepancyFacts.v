(** Facts about the discrepancy utilities. *)
From Coq Require Import List Bool Arith ZArith QArith Lia Permutation Sorting.Sorted Znumtheory.
From Verif Require Import Dbl DblFacts Outcome StdSort BaseFacts Compare SpecOrder CompareFacts Primes PrimesFacts Discrepancy SpecDiscrepancy.
Import ListNotations.

(** ** sample_from_simplex *)
Lemma unit_pass x : unit_dbl x -> dlt x dzero || dgt x done = false.
Proof.
  intros (z & -> & H). unfold dzero, done, dgt, dlt. 
  destruct (Z.ltb_spec z 0); [lia|]. destruct (Z.ltb_spec one_z z); [lia|]. reflexivity.
Qed.

Lemma unit_bad_iff x : (dlt x dzero || dgt x done = false) <-> x = NaN \/ unit_dbl x.
Proof.
  split.
  - destruct x as [| |z|]; try (intros H; discriminate H); [left; reflexivity|].
    intros H. right. exists z. split; [reflexivity|].
    apply orb_false_iff in H. destruct H as [H1 H2]. unfold dgt, dlt, dzero, done in *.
    apply Z.ltb_ge in H1. apply Z.ltb_ge in H2. lia.
  - intros [->|H]; [reflexivity|apply unit_pass; exact H].
Qed.

Lemma diffs_spec l : forall p, Forall unit_dbl (Fin p :: l) -> StronglySorted (fun a b => less_than_f b a = false) (Fin p :: l) ->
  exists gaps, length gaps = length l /\ Forall (fun g => 0 <= g)%Z gaps /\
     (match rev (Fin p :: l) with Fin z :: _ => zsum gaps = z - p | _ => False end)%Z /\
     diffs (Fin p) l = map (fun g => rnd g 1) gaps.
Proof.
  induction l as [|x l IH]; intros p HU HS.
  - exists []. simpl. repeat split; auto. lia.
  - inversion HU as [|? ? Hp HU']; subst. inversion HS as [|? ? HS' HF]; subst.
    destruct (Forall_inv HU') as (z & -> & Hz).
    destruct (IH z HU' HS') as (gaps & L & Fg & Hsum & E).
    exists ((z - p)%Z :: gaps). split; [simpl; lia|]. split.
    { constructor; [|exact Fg]. apply Forall_inv in HF. apply ltf_false in HF. simpl in HF. lia. }
    split.
    + change (rev (Fin p :: Fin z :: l)) with (rev (Fin z :: l) ++ [Fin p]).
      destruct (rev (Fin z :: l)) as [|w r] eqn:Er; [destruct l; simpl in Er; [discriminate|]; contradiction|].
      simpl. destruct w; try contradiction. simpl. lia.
    + cbn [diffs map]. rewrite E. f_equal.
Qed.

Lemma simplex_ok srt input : sort_contract srt -> Forall unit_dbl input -> input <> [] ->
  exists r gaps, sample_from_simplex srt input = Ok r /\ length gaps = S (length input) /\
    Forall (fun g => 0 <= g <= one_z)%Z gaps /\ zsum gaps = one_z /\ r = map (fun g => rnd g 1) gaps.
Proof.
  intros C HU Hne. unfold sample_from_simplex.
  replace (existsb _ input) with false.
  2:{ symmetry. apply Bool.not_true_is_false. intros H. apply existsb_exists in H. destruct H as (x & Hx & Hb).
      rewrite Forall_forall in HU. rewrite (unit_pass x (HU x Hx)) in Hb. discriminate. }
  destruct (Nat.ltb_spec 0 (length input)) as [_|H]; [|destruct input; [congruence|simpl in H; lia]].
  destruct (std_sort_ok srt less_than_f input C) as (s & -> & P & Srt).
  { apply ltf_swo. }
  cbn [bind].
  assert (HUs : Forall unit_dbl s).
  { rewrite Forall_forall in *. intros x Hx. apply HU. eapply Permutation_in; [apply Permutation_sym; exact P|exact Hx]. }
  assert (H01 : (0 < one_z)%Z) by (vm_compute; reflexivity).
  destruct (diffs_spec (s ++ [done]) 0) as (gaps & L & Fg & Hsum & E).
  - constructor; [exists 0%Z; split; [reflexivity|lia]|]. apply Forall_app. split; [exact HUs|].
    constructor; [|constructor]. exists one_z. split; [reflexivity|lia].
  - assert (G : forall l, Forall unit_dbl l -> StronglySorted (fun a b => less_than_f b a = false) l ->
                 StronglySorted (fun a b => less_than_f b a = false) (l ++ [done])).
    { induction l as [|x l IH]; intros HF HS; simpl; [repeat constructor|].
      inversion HF; subst. inversion HS; subst. constructor; [auto|]. apply Forall_app. split; [assumption|].
      constructor; [|constructor]. apply ltf_false. destruct H1 as (z & -> & Hz). unfold done. simpl. lia. }
    constructor; [apply G; [exact HUs|exact Srt]|]. apply Forall_app. split.
    + eapply Forall_impl; [|exact HUs]. intros x (z & -> & Hz). apply ltf_false. simpl. lia.
    + constructor; [|constructor]. apply ltf_false. unfold done. simpl. lia.
  - exists (diffs (Fin 0) (s ++ [done])), gaps. split; [reflexivity|].
    rewrite app_length in L. simpl in L. rewrite <- (Permutation_length P) in L. split; [lia|].
    assert (Hs : zsum gaps = one_z).
    { change (Fin 0 :: s ++ [done]) with ((Fin 0 :: s) ++ [done]) in Hsum. rewrite rev_app_distr in Hsum.
      cbn [rev app] in Hsum. unfold done in Hsum. lia. }
    split; [|split; [exact Hs|exact E]].
    assert (Hle : forall l, Forall (fun g => 0 <= g)%Z l -> (0 <= zsum l)%Z /\ Forall (fun g => g <= zsum l)%Z l).
    { induction l as [|g l IH]; intros HF; simpl; [split; [lia|constructor]|]. inversion HF; subst.
      destruct (IH H2) as [A B]. split; [lia|]. constructor; [lia|]. eapply Forall_impl; [|exact B]. simpl. intros; lia. }
    destruct (Hle gaps Fg) as [_ B]. rewrite Hs in B. rewrite Forall_forall in *. intros g Hg. split; auto.
Qed.

Lemma simplex_throws srt input :
  input = [] \/ (exists x, In x input /\ x <> NaN /\ ~ unit_dbl x) -> sample_from_simplex srt input = Throw InvalidArgument.
Proof.
  intros [->|(x & Hx & Hn & Hu)]; [reflexivity|]. unfold sample_from_simplex.
  replace (existsb _ input) with true; [reflexivity|]. symmetry. apply existsb_exists. exists x. split; [exact Hx|].
  destruct (dlt x dzero || dgt x done) eqn:E; [reflexivity|]. apply unit_bad_iff in E. destruct E; contradiction.
Qed.

(** ** van der Corput *)
Local Open Scope Z_scope.
Lemma number_nonneg b ds : 0 < b -> digits b ds -> 0 <= number b ds.
Proof. intros Hb. induction 1; simpl; [lia|]. nia. Qed.

Lemma number_zero b ds : 0 < b -> digits b ds -> number b ds = 0 -> (radical_inverse b ds == 0)%Q.
Proof.
  intros Hb. induction 1 as [|d t Hd Ht IH]; simpl; intros H; [reflexivity|].
  pose proof (number_nonneg b t Hb Ht). assert (d = 0) by nia. assert (number b t = 0) by nia. subst d.
  rewrite IH by assumption. unfold Qdiv. ring.
Qed.

Lemma injb_nz b : 2 <= b -> ~ (inject_Z b == 0)%Q.
Proof. intros Hb H. change 0%Q with (inject_Z 0) in H. rewrite inject_Z_injective in H. lia. Qed.

Lemma vdc_loop_spec fuel : forall b ds f ret, 2 <= b -> digits b ds -> number b ds < 2 ^ Z.of_nat fuel ->
  exists g, vdc_loop fuel b (number b ds) f ret = Ok g /\ (g == ret + f * inject_Z b * radical_inverse b ds)%Q.
Proof.
  induction fuel as [|fuel IH]; intros b ds f ret Hb HD HN.
  - pose proof (number_nonneg b ds ltac:(lia) HD). assert (E : number b ds = 0) by (simpl in HN; lia).
    exists ret. split; [cbn [vdc_loop]; rewrite E; reflexivity|]. rewrite (number_zero b ds) by (auto; lia). ring.
  - cbn [vdc_loop]. destruct (Z.eqb_spec (number b ds) 0) as [E|E].
    + exists ret. split; [reflexivity|]. rewrite (number_zero b ds) by (auto; lia). ring.
    + destruct ds as [|d t]; [simpl in E; lia|]. inversion HD as [|? ? Hd Ht]; subst.
      pose proof (number_nonneg b t ltac:(lia) Ht) as Hnn. cbn [number] in *.
      assert (E1 : (d + b * number b t) / b = number b t).
      { rewrite Z.mul_comm, Z.div_add by lia. rewrite Z.div_small by lia. lia. }
      assert (E2 : (d + b * number b t) mod b = d).
      { rewrite Z.mul_comm, Z.mod_add by lia. apply Z.mod_small; lia. }
      rewrite E1, E2.
      destruct (IH b t (f / inject_Z b)%Q (ret + f * inject_Z d)%Q Hb Ht) as (g & Eg & Hg).
      { rewrite Nat2Z.inj_succ, Z.pow_succ_r in HN by lia. nia. }
      exists g. split; [exact Eg|]. rewrite Hg. cbn [radical_inverse]. field. apply injb_nz; exact Hb.
Qed.

(** Every natural number has digits, and [m] of them if it is below b^m. *)
Fixpoint to_digits (b : Z) (m : nat) (n : Z) : list Z :=
  match m with O => [] | S k => n mod b :: to_digits b k (n / b) end.
Lemma to_digits_spec b m : forall n, 2 <= b -> 0 <= n < b ^ Z.of_nat m ->
  digits b (to_digits b m n) /\ number b (to_digits b m n) = n /\ length (to_digits b m n) = m.
Proof.
  induction m as [|m IH]; intros n Hb Hn.
  - simpl in *. repeat split; [constructor|lia].
  - rewrite Nat2Z.inj_succ, Z.pow_succ_r in Hn by lia. cbn [to_digits number length].
    destruct (IH (n / b) Hb) as (D & N & L).
    { split; [apply Z.div_pos; lia|]. apply Z.div_lt_upper_bound; lia. }
    split; [constructor; [apply Z.mod_pos_bound; lia|exact D]|]. split; [|lia].
    rewrite N. pose proof (Z.div_mod n b ltac:(lia)) as Hdm. lia.
Qed.

Lemma number_lt b ds : 2 <= b -> digits b ds -> number b ds < b ^ Z.of_nat (length ds).
Proof.
  intros Hb. induction 1 as [|d t Hd Ht IH]; [simpl; lia|]. cbn [number length].
  rewrite Nat2Z.inj_succ, Z.pow_succ_r by lia. nia.
Qed.

Lemma number_inj b : 2 <= b -> forall d1 d2, digits b d1 -> digits b d2 -> length d1 = length d2 ->
  number b d1 = number b d2 -> d1 = d2.
Proof.
  intros Hb. induction d1 as [|x t IH]; intros [|y u] H1 H2 L E; simpl in *; try discriminate; [reflexivity|].
  inversion H1; inversion H2; subst.
  assert (x = y).
  { pose proof (f_equal (fun z => z mod b) E) as M. cbn beta in M.
    rewrite (Z.mul_comm b), (Z.mul_comm b (number b u)), !Z.mod_add in M by lia.
    rewrite !Z.mod_small in M by lia. exact M. }
  subst y. f_equal. apply IH; auto. apply (Z.mul_reg_l _ _ b); lia.
Qed.

Lemma number_app b d1 d2 : number b (d1 ++ d2) = number b d1 + b ^ Z.of_nat (length d1) * number b d2.
Proof.
  induction d1 as [|x t IH]; cbn [app number length]; [change (b ^ Z.of_nat 0) with 1; lia|].
  rewrite Nat2Z.inj_succ, Z.pow_succ_r by lia. rewrite IH. ring.
Qed.

Lemma ri_range b ds : 2 <= b -> digits b ds -> (0 <= radical_inverse b ds)%Q /\ (radical_inverse b ds < 1)%Q.
Proof.
  intros Hb. induction 1 as [|d t Hd Ht [IH1 IH2]]; cbn [radical_inverse]; [split; [apply Qle_refl|reflexivity]|].
  assert (B : (0 < inject_Z b)%Q) by (change 0%Q with (inject_Z 0); rewrite <- Zlt_Qlt; lia).
  split.
  - apply Qle_shift_div_l; [exact B|]. rewrite Qmult_0_l.
    apply (Qplus_le_compat 0 _ 0 _); [|exact IH1]. change 0%Q with (inject_Z 0). rewrite <- Zle_Qle; lia.
  - apply Qlt_shift_div_r; [exact B|]. rewrite Qmult_1_l.
    apply Qlt_le_trans with (inject_Z d + 1)%Q; [apply Qplus_lt_r; exact IH2|].
    change 1%Q with (inject_Z 1). rewrite <- inject_Z_plus, <- Zle_Qle. lia.
Qed.

Lemma ri_app b d1 d2 : 2 <= b ->
  (radical_inverse b (d1 ++ d2) * inject_Z (b ^ Z.of_nat (length d1)) ==
   inject_Z (number b (rev d1)) + radical_inverse b d2)%Q.
Proof.
  intros Hb. induction d1 as [|x t IH].
  - cbn [app length rev number]. change (b ^ Z.of_nat 0) with 1. change (inject_Z 1) with 1%Q. change (inject_Z 0) with 0%Q. ring.
  - cbn [app length rev radical_inverse]. rewrite Nat2Z.inj_succ, Z.pow_succ_r by lia.
    rewrite number_app. cbn [number]. rewrite rev_length.
    rewrite Z.mul_0_r, Z.add_0_r. rewrite inject_Z_mult, inject_Z_plus, inject_Z_mult.
    rewrite <- (Qplus_comm (inject_Z _ * inject_Z x)%Q). rewrite <- Qplus_assoc. rewrite <- IH.
    field. apply injb_nz; exact Hb.
Qed.

Lemma digits_rev b ds : digits b ds -> digits b (rev ds).
Proof. unfold digits. rewrite !Forall_forall. intros H x Hx. apply H. apply in_rev; exact Hx. Qed.

Definition vdc_value (b n : Z) : outcome Q := vdc_loop 32 b n (1 / inject_Z b)%Q 0%Q.

Lemma vdc_value_ok b ds : 2 <= b -> digits b ds -> number b ds < two32 ->
  exists g, vdc_value b (number b ds) = Ok g /\ (g == radical_inverse b ds)%Q.
Proof.
  intros Hb HD HN. destruct (vdc_loop_spec 32 b ds (1 / inject_Z b)%Q 0%Q Hb HD HN) as (g & E & H).
  exists g. split; [exact E|]. rewrite H. field. apply injb_nz; exact Hb.
Qed.

Lemma pow_ge_two32 b : 2 <= b -> two32 <= b ^ Z.of_nat 32.
Proof. intros Hb. unfold two32. apply (Z.pow_le_mono_l 2 b 32). lia. Qed.

Lemma vdc_total b n : 2 <= b -> 0 <= n < two32 ->
  exists g, vdc_value b n = Ok g /\ (0 <= g)%Q /\ (g < 1)%Q.
Proof.
  intros Hb Hn. pose proof (pow_ge_two32 b Hb).
  destruct (to_digits_spec b 32 n Hb ltac:(lia)) as (D & N & L).
  destruct (vdc_value_ok b (to_digits b 32 n) Hb D) as (g & E & Hg); [lia|].
  rewrite N in E. exists g. split; [exact E|]. rewrite Hg. apply ri_range; assumption.
Qed.

(** Equidistribution: among the b^m indices of an aligned block exactly one falls
    in each interval [c/b^m, (c+1)/b^m). *)
Lemma vdc_block b m q c : 2 <= b -> 0 <= q -> (q + 1) * b ^ Z.of_nat m <= two32 -> 0 <= c < b ^ Z.of_nat m ->
  exists r, (0 <= r < b ^ Z.of_nat m /\
    exists g, vdc_value b (q * b ^ Z.of_nat m + r) = Ok g /\
      (inject_Z c <= g * inject_Z (b ^ Z.of_nat m))%Q /\ (g * inject_Z (b ^ Z.of_nat m) < inject_Z (c + 1))%Q) /\
  forall r' g', 0 <= r' < b ^ Z.of_nat m -> vdc_value b (q * b ^ Z.of_nat m + r') = Ok g' ->
      (inject_Z c <= g' * inject_Z (b ^ Z.of_nat m))%Q -> (g' * inject_Z (b ^ Z.of_nat m) < inject_Z (c + 1))%Q -> r' = r.
Proof.
  intros Hb Hq Hbd Hc. set (B := b ^ Z.of_nat m) in *.
  assert (HB : 0 < B) by (apply Z.pow_pos_nonneg; lia).
  (* value at q*B + r for digits dr *)
  assert (V : forall r, 0 <= r < B -> exists dr g, digits b dr /\ length dr = m /\ number b dr = r /\
             vdc_value b (q * B + r) = Ok g /\
             exists e, (0 <= e)%Q /\ (e < 1)%Q /\ (g * inject_Z B == inject_Z (number b (rev dr)) + e)%Q).
  { intros r Hr. destruct (to_digits_spec b m r Hb Hr) as (Dr & Nr & Lr).
    pose proof (pow_ge_two32 b Hb).
    destruct (to_digits_spec b 32 q Hb ltac:(nia)) as (Dq & Nq & Lq).
    set (dr := to_digits b m r) in *. set (dq := to_digits b 32 q) in *.
    assert (Eapp : number b (dr ++ dq) = q * B + r).
    { rewrite number_app, Lr, Nr, Nq. fold B. ring. }
    destruct (vdc_value_ok b (dr ++ dq) Hb) as (g & Eg & Hg).
    { apply Forall_app; split; assumption. } { rewrite Eapp. nia. }
    rewrite Eapp in Eg. exists dr, g. repeat split; auto.
    exists (radical_inverse b dq). destruct (ri_range b dq Hb Dq). repeat split; auto.
    rewrite Hg. unfold B. rewrite <- Lr. apply ri_app; exact Hb. }
  assert (Fl : forall k e, (0 <= e)%Q -> (e < 1)%Q -> (inject_Z c <= inject_Z k + e)%Q -> (inject_Z k + e < inject_Z (c + 1))%Q -> k = c).
  { intros k e E0 E1 H1 H2.
    assert (A1 : (inject_Z c < inject_Z (k + 1))%Q).
    { eapply Qle_lt_trans; [exact H1|]. rewrite inject_Z_plus. apply Qplus_lt_r. exact E1. }
    assert (A2 : (inject_Z k < inject_Z (c + 1))%Q).
    { eapply Qle_lt_trans; [|exact H2]. rewrite <- (Qplus_0_r (inject_Z k)) at 1. apply Qplus_le_r. exact E0. }
    rewrite <- Zlt_Qlt in A1, A2. lia. }
  destruct (to_digits_spec b m c Hb Hc) as (Dc & Nc & Lc). set (dc := to_digits b m c) in *.
  assert (Drc : digits b (rev dc)) by (apply digits_rev; exact Dc).
  exists (number b (rev dc)). 
  assert (Hr : 0 <= number b (rev dc) < B).
  { split; [apply number_nonneg; [lia|exact Drc]|]. pose proof (number_lt b (rev dc) Hb Drc) as K.
    rewrite rev_length, Lc in K. exact K. }
  split.
  - split; [exact Hr|]. destruct (V _ Hr) as (dr & g & Dr & Lr & Nr & Eg & e & E0 & E1 & He).
    assert (Edr : dr = rev dc).
    { apply (number_inj b Hb); auto. rewrite rev_length; lia. }
    rewrite Edr, rev_involutive, Nc in He. exists g. split; [exact Eg|]. split.
    + rewrite He. rewrite <- (Qplus_0_r (inject_Z c)) at 1. apply Qplus_le_r; exact E0.
    + rewrite He, inject_Z_plus. apply Qplus_lt_r; exact E1.
  - intros r' g' Hr' Eg' H1 H2. destruct (V r' Hr') as (dr & g & Dr & Lr & Nr & Eg & e & E0 & E1 & He).
    rewrite Eg' in Eg. inversion Eg; subst g'. rewrite He in H1, H2.
    pose proof (Fl _ _ E0 E1 H1 H2) as K. rewrite <- Nr. f_equal.
    assert (rev dr = dc).
    { apply (number_inj b Hb); auto. apply digits_rev; exact Dr. rewrite rev_length; lia. rewrite K, Nc; reflexivity. }
    rewrite <- H, rev_involutive. reflexivity.
Qed.

Lemma vdc_inj b n1 n2 g1 g2 : 2 <= b -> 0 <= n1 < two32 -> 0 <= n2 < two32 ->
  vdc_value b n1 = Ok g1 -> vdc_value b n2 = Ok g2 -> (g1 == g2)%Q -> n1 = n2.
Proof.
  intros Hb H1 H2 E1 E2 Eg. pose proof (pow_ge_two32 b Hb) as HP.
  destruct (to_digits_spec b 32 n1 Hb ltac:(lia)) as (D1 & N1 & L1).
  destruct (to_digits_spec b 32 n2 Hb ltac:(lia)) as (D2 & N2 & L2).
  set (d1 := to_digits b 32 n1) in *. set (d2 := to_digits b 32 n2) in *.
  destruct (vdc_value_ok b d1 Hb D1) as (h1 & F1 & R1); [lia|]. destruct (vdc_value_ok b d2 Hb D2) as (h2 & F2 & R2); [lia|].
  rewrite N1, E1 in F1. rewrite N2, E2 in F2. inversion F1; inversion F2; subst h1 h2.
  pose proof (ri_app b d1 [] Hb) as A1. pose proof (ri_app b d2 [] Hb) as A2. rewrite app_nil_r in A1, A2.
  rewrite <- R1, L1 in A1. rewrite <- R2, L2 in A2. rewrite Eg, A2 in A1. cbn [radical_inverse] in A1.
  rewrite !Qplus_0_r in A1. rewrite inject_Z_injective in A1.
  rewrite <- N1, <- N2. f_equal. rewrite <- (rev_involutive d1), <- (rev_involutive d2). f_equal.
  apply (number_inj b Hb); auto using digits_rev.
Qed.

(** ** Halton *)
Lemma halton_ctor_ok dim n : Z.of_nat dim <= 1600 -> exists h, halton_ctor dim n = Ok h /\ length h = dim /\
  (forall i s, nth_error h i = Some s -> vdc_counter s = n /\ prime_at (i + 1) = Ok (vdc_base s) /\ prime (vdc_base s)) /\
  (forall i j s t, i <> j -> nth_error h i = Some s -> nth_error h j = Some t -> vdc_base s <> vdc_base t).
Proof.
  intros Hd. unfold halton_ctor.
  rewrite (mmap_pure _ (fun i => {| vdc_base := match prime_at (i + 1) with Ok p => p | _ => 0 end; vdc_counter := n |})).
  2:{ intros i Hi. apply in_seq in Hi. destruct (prime_at_spec (i + 1) ltac:(lia)) as (p & _ & -> & Pp & _). cbn [bind].
      unfold vdc_ctor. destruct (Z.ltb_spec p 2); [destruct Pp; lia|]. reflexivity. }
  assert (Hn : forall i s, nth_error (map (fun i => {| vdc_base := match prime_at (i + 1) with Ok p => p | _ => 0 end; vdc_counter := n |}) (seq 0 dim)) i = Some s ->
     vdc_counter s = n /\ prime_at (i + 1) = Ok (vdc_base s) /\ prime (vdc_base s)).
  { intros i s Hi. rewrite nth_error_map in Hi. destruct (nth_error (seq 0 dim) i) as [k|] eqn:Ek; [|discriminate].
    assert (i < dim)%nat by (rewrite <- (seq_length dim 0); apply nth_error_Some; congruence).
    assert (k = i). { apply (nth_error_nth _ _ 0%nat) in Ek. rewrite seq_nth in Ek by assumption. lia. }
    subst k. simpl in Hi. inversion Hi; subst s. cbn [vdc_counter vdc_base].
    destruct (prime_at_spec (i + 1) ltac:(lia)) as (p & _ & -> & Pp & _). auto. }
  eexists. split; [reflexivity|]. split; [rewrite map_length, seq_length; reflexivity|]. split; [exact Hn|].
  intros i j s t Hij Hi Hj. apply Hn in Hi. apply Hn in Hj. destruct Hi as (_ & Hi & _). destruct Hj as (_ & Hj & _).
  destruct (Nat.lt_total i j) as [L|[L|L]]; [|contradiction|].
  - pose proof (prime_at_mono (i + 1) (j + 1) _ _ ltac:(lia) Hi Hj). lia.
  - pose proof (prime_at_mono (j + 1) (i + 1) _ _ ltac:(lia) Hj Hi). lia.
Qed.

Lemma halton_next_ok h : (forall s, In s h -> 2 <= vdc_base s /\ 0 <= vdc_counter s < two32) ->
  exists pt h', halton_next h = Ok (pt, h') /\ length pt = length h /\ length h' = length h /\
    (forall i s g, nth_error h i = Some s -> nth_error pt i = Some g ->
        vdc_value (vdc_base s) (vdc_counter s) = Ok g /\ (0 <= g)%Q /\ (g < 1)%Q) /\
    (forall i s s', nth_error h i = Some s -> nth_error h' i = Some s' ->
        vdc_base s' = vdc_base s /\ vdc_counter s' = (vdc_counter s + 1) mod two32).
Proof.
  intros H. unfold halton_next.
  rewrite (mmap_pure _ (fun s => (match vdc_value (vdc_base s) (vdc_counter s) with Ok g => g | _ => 0%Q end,
                                  {| vdc_base := vdc_base s; vdc_counter := (vdc_counter s + 1) mod two32 |}))).
  2:{ intros s Hs. destruct (H s Hs) as [Hb Hc]. unfold vdc_next. destruct (vdc_total _ _ Hb Hc) as (g & E & _).
      unfold vdc_value in *. rewrite E. reflexivity. }
  cbn [bind]. rewrite !map_map. cbn [fst snd]. eexists _, _. split; [reflexivity|]. rewrite !map_length.
  split; [reflexivity|]. split; [reflexivity|]. split.
  - intros i s g Es Eg. rewrite nth_error_map, Es in Eg. simpl in Eg. inversion Eg; subst g. clear Eg.
    destruct (H s (nth_error_In _ _ Es)) as [Hb Hc]. destruct (vdc_total _ _ Hb Hc) as (g & -> & Hg). auto.
  - intros i s s' Es Eg. rewrite nth_error_map, Es in Eg. simpl in Eg. inversion Eg; subst s'. auto.
Qed.
