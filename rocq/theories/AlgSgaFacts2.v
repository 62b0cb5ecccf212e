From Coq Require Import List Bool Arith ZArith Lia Permutation.
From Verif Require Import Dbl DblFacts IntDbl Outcome BaseFacts StdSort Problem SpecProblem Rng Generic SpecGeneric GenericFacts GenericFacts3 SpecGenetic RmFacts
  GeneticOps GeneticFacts Population PopulationFacts ProblemFacts Algo SpecAlgo AlgoFacts AlgoFacts2 AlgDeFacts AlgSga SpecSga AlgSgaFacts.
Import ListNotations.

Lemma in_run_S dim n L j : in_run dim n (S L) j <-> in_run dim n L j \/ j = (n + L) mod dim.
Proof.
  unfold in_run. split.
  - intros (k & Hk & E). destruct (Nat.eq_dec k L) as [->|N]; [now right|left; exists k; split; [lia|exact E]].
  - intros [(k & Hk & E)| ->]; [exists k; split; [lia|exact E]|exists L; split; [lia|reflexivity]].
Qed.
Definition run_state (dim n0 L : nat) (a b c : list dbl) : Prop := length c = dim /\ forall j, j < dim -> (in_run dim n0 L j -> nth_error c j = nth_error b j) /\ (~ in_run dim n0 L j -> nth_error c j = nth_error a j).
Lemma run_state_0 dim n0 a b : length a = dim -> run_state dim n0 0 a b a.
Proof. intros L. split; [exact L|]. intros j Hj. split; [intros (k & Hk & _); lia|auto]. Qed.
Lemma run_state_S dim n0 L a b c v : 0 < dim -> run_state dim n0 L a b c -> nth_error b ((n0 + L) mod dim) = Some v -> run_state dim n0 (S L) a b (upd c ((n0 + L) mod dim) v).
Proof.
  intros Hd (Lc & H) Nv. set (n := (n0 + L) mod dim) in *. assert (Hn : n < dim) by (apply Nat.mod_upper_bound; lia). split; [now rewrite upd_len|]. intros j Hj. rewrite in_run_S. fold n. destruct (Nat.eq_dec j n) as [->|N].
  - split; [intros _|intros X; exfalso; apply X; now right]. rewrite upd_same by lia. now rewrite Nv.
  - rewrite upd_other by exact N. destruct (H j Hj) as [H1 H2]. split; [intros [X|X]; [auto|contradiction]|intros X; apply H2; tauto].
Qed.
Lemma crossed_genes kind c a b : length b = length a -> crossed kind c a b -> genes_of c a b.
Proof.
  intros Lb (L & H). split; [exact L|]. intros j Hj. destruct kind.
  - destruct H as (n & M & Hn & HM & H). destruct (H j Hj) as [H1 H2].
    assert (D : in_run (length a) n M j \/ ~ in_run (length a) n M j).
    { assert (K : forall m, (exists k, k < m /\ j = (n + k) mod length a) \/ ~ (exists k, k < m /\ j = (n + k) mod length a)).
      { induction m as [|m IH]; [right; intros (k & Hk & _); lia|]. destruct IH as [(k & Hk & E)|N]; [left; exists k; split; [lia|exact E]|]. destruct (Nat.eq_dec j ((n + m) mod length a)) as [->|N']; [left; exists m; split; [lia|reflexivity]|].
        right. intros (k & Hk & E). destruct (Nat.eq_dec k m) as [->|]; [contradiction|]. apply N. exists k. split; [lia|exact E]. }
      apply K. }
    destruct D; auto.
  - apply H, Hj.
  - destruct H as [->|(n & Hn & ->)]; [now left|]. destruct (Nat.lt_ge_cases j n) as [C|C].
    + left. rewrite nth_error_app1 by (rewrite firstn_length; lia). now apply nth_error_firstn.
    + right. rewrite nth_error_app2 by (rewrite firstn_length; lia). rewrite firstn_length. replace (Nat.min n (length a)) with n by lia. rewrite nth_error_skipn'. f_equal. lia.
  - contradiction.
Qed.

Section S.
Context {G P : Type} (r : rng G) (RC : rng_contract r) (pw : dbl -> dbl -> dbl) (shuf : forall A, list A -> G -> list A * G) (HSh : shuffle_contract shuf) (a : sga_params).

Lemma cross_exp_ok dim x b (E : exn -> Prop) : 0 < dim -> length x = dim -> length b = dim -> forall k n0 L0 c, L0 + k + 1 = dim -> run_state dim n0 L0 x b c ->
  always (cross_exp r a k dim b c ((n0 + L0) mod dim)) (fun c' => exists L, 1 <= L <= dim /\ run_state dim n0 L x b c') E.
Proof.
  intros Hd Lx Lb. induction k as [|k IH]; intros n0 L0 c HL RS; cbn [cross_exp]; set (n := (n0 + L0) mod dim); assert (Hn : n < dim) by (apply Nat.mod_upper_bound; lia); destruct (nth_ex b n ltac:(lia)) as (v & Nv); pose proof RS as (Lc & _);
    (eapply always_bind; [apply (always_vget _ _ v (fun w => w = v)); auto|]); intros ? ->;
    (eapply always_bind; [apply (always_vset _ _ v (fun z => z = upd c n v)); [lia|reflexivity]|]); intros ? ->;
    pose proof (run_state_S dim n0 L0 x b c v Hd RS Nv) as RS'; fold n in RS';
    (eapply always_bind; [apply (draw01_any r RC)|]); intros u _; destruct (dlt u (sg_cr a)); try (apply always_ret; exists (S L0); split; [lia|exact RS']).
  assert (E1 : (n + 1) mod dim = (n0 + S L0) mod dim) by (unfold n; rewrite Nat.add_mod_idemp_l by lia; f_equal; lia). rewrite E1. apply IH; [lia|exact RS'].
Qed.
Lemma cross_bin_ok dim x b n (E : exn -> Prop) : 0 < dim -> length x = dim -> length b = dim -> n < dim ->
  always (cross_bin r a dim b x n) (fun c => length c = dim /\ (forall j, j < dim -> nth_error c j = nth_error x j \/ nth_error c j = nth_error b j) /\ exists j, j < dim /\ nth_error c j = nth_error b j) E.
Proof.
  intros Hd Lx Lb Hn. unfold cross_bin. eapply always_bind.
  - apply (always_seq _ (fun L (st : list dbl * nat) => snd st < dim /\ length (fst st) = dim /\ (forall j, j < dim -> nth_error (fst st) j = nth_error x j \/ nth_error (fst st) j = nth_error b j) /\ (L = dim -> exists j, j < dim /\ nth_error (fst st) j = nth_error b j)) E dim 0).
    + cbn [fst snd]. split; [exact Hn|]. split; [exact Lx|]. split; [auto|]. lia.
    + intros L [c m] HL (Hm & Lc & Hc & _). cbn [fst snd] in *. eapply always_bind; [apply (draw01_any r RC)|]. intros u _.
      eapply always_bind with (P := fun c' => length c' = dim /\ (forall j, j < dim -> nth_error c' j = nth_error x j \/ nth_error c' j = nth_error b j) /\ (L + 1 = dim -> exists j, j < dim /\ nth_error c' j = nth_error b j)).
      * destruct (nth_ex b m ltac:(lia)) as (v & Nv). destruct (dlt u (sg_cr a) || Nat.eqb (L + 1) dim) eqn:C.
        -- eapply always_bind; [apply (always_vget _ _ v (fun w => w = v)); auto|]. intros ? ->. apply always_vset; [lia|]. split; [now rewrite upd_len|]. split.
           ++ intros j Hj. destruct (Nat.eq_dec j m) as [->|N]; [right; rewrite upd_same by lia; now rewrite Nv|rewrite upd_other by exact N; auto].
           ++ intros _. exists m. split; [exact Hm|]. rewrite upd_same by lia. now rewrite Nv.
        -- apply always_ret. split; [exact Lc|]. split; [exact Hc|]. intros X. apply orb_false_iff in C. destruct C as [_ C]. apply Nat.eqb_neq in C. contradiction.
      * intros c' (L1 & L2 & L3). apply always_ret. cbn [fst snd]. split; [apply Nat.mod_upper_bound; lia|auto].
  - intros [c m] (_ & L1 & L2 & L3). cbn [fst snd] in *. apply always_ret. auto.
Qed.
Lemma cross_tail_ok dim x b n (E : exn -> Prop) : length x = dim -> length b = dim -> n < dim -> always (cross_tail (G := G) dim b x n) (fun c => c = firstn n x ++ skipn n b) E.
Proof.
  intros Lx Lb Hn. unfold cross_tail. eapply always_weak.
  - apply (always_seq _ (fun j c => length c = dim /\ forall i, i < dim -> nth_error c i = if Nat.ltb i n then nth_error x i else if Nat.ltb i j then nth_error b i else nth_error x i) E (dim - n) n).
    + split; [exact Lx|]. intros i Hi. destruct (Nat.ltb_spec i n); reflexivity.
    + intros j c Hj (Lc & Hc). destruct (nth_ex b j ltac:(lia)) as (v & Nv). eapply always_bind; [apply (always_vget _ _ v (fun w => w = v)); auto|]. intros ? ->. apply always_vset; [lia|]. split; [now rewrite upd_len|].
      intros i Hi. destruct (Nat.eq_dec i j) as [->|N].
      * rewrite upd_same by lia. destruct (Nat.ltb_spec j n); [lia|]. destruct (Nat.ltb_spec j (j + 1)); [|lia]. now rewrite Nv.
      * rewrite upd_other by exact N. rewrite Hc by exact Hi. destruct (Nat.ltb_spec i n); [reflexivity|]. destruct (Nat.ltb_spec i j), (Nat.ltb_spec i (j + 1)); try lia; reflexivity.
  - intros c (Lc & Hc). apply list_ext_error. intros i. destruct (Nat.lt_ge_cases i dim) as [C|C].
    + rewrite Hc by exact C. destruct (Nat.ltb_spec i n) as [D|D].
      * rewrite nth_error_app1 by (rewrite firstn_length; lia). symmetry. now apply nth_error_firstn.
      * destruct (Nat.ltb_spec i (n + (dim - n))); [|lia]. rewrite nth_error_app2 by (rewrite firstn_length; lia). rewrite firstn_length. replace (Nat.min n (length x)) with n by lia. rewrite nth_error_skipn'. f_equal. lia.
    + assert (N1 : nth_error c i = None) by (apply nth_error_None; lia). assert (N2 : nth_error (firstn n x ++ skipn n b) i = None) by (apply nth_error_None; rewrite app_length, firstn_length, skipn_length; lia). congruence.
  - auto.
Qed.
Lemma cross_one_ok x b (E : exn -> Prop) : 0 < length x -> length b = length x -> sg_cross a <> SBX -> always (cross_one r a (length x) b x) (fun c => crossed (sg_cross a) c x b) E.
Proof.
  intros Hd Lb NS. unfold cross_one, crossed. destruct (sg_cross a) eqn:K; [| | |congruence].
  - eapply always_bind; [apply (draw_int_ok r RC); lia|]. intros n Hn. cbv beta in Hn. assert (R0 : Z.to_nat n = (Z.to_nat n + 0) mod length x) by (rewrite Nat.add_0_r, Nat.mod_small; lia). rewrite R0.
    eapply always_weak; [apply (cross_exp_ok (length x) x b E Hd eq_refl Lb (length x - 1) (Z.to_nat n) 0 x); [lia|now apply run_state_0]| |auto].
    cbv beta. intros c (L & HL & Lc & H). split; [exact Lc|]. exists (Z.to_nat n), L. split; [lia|]. split; [exact HL|exact H].
  - eapply always_bind; [apply (draw_int_ok r RC); lia|]. intros n Hn. cbv beta in Hn. assert (Hn' : Z.to_nat n < length x) by lia. eapply always_weak; [exact (cross_bin_ok (length x) x b (Z.to_nat n) E Hd eq_refl Lb Hn')| |auto]. cbv beta. intros c (L1 & L2 & L3). repeat split; assumption.
  - eapply always_bind; [apply (draw01_any r RC)|]. intros u _. destruct (dlt u (sg_cr a)); [|apply always_ret; auto].
    eapply always_bind; [apply (draw_int_ok r RC); lia|]. intros n Hn. cbv beta in Hn. assert (Hn' : Z.to_nat n < length x) by lia. eapply always_weak; [exact (cross_tail_ok (length x) x b (Z.to_nat n) E eq_refl Lb Hn')| |auto]. cbv beta. intros c ->.
    split; [rewrite app_length, firstn_length, skipn_length; lia|]. right. exists (Z.to_nat n). split; [lia|reflexivity].
Qed.
(** ** The loop over the individuals *)
Lemma cross_loop_ok X dim (E : exn -> Prop) : 0 < dim -> (forall x, In x X -> length x = dim) -> 2 <= length X -> sg_cross a <> SBX ->
  always (rfold (cross_step r a dim X) (X, seq 0 (length X)) (seq 0 (length X)))
    (fun st => length (fst st) = length X /\ forall i, i < length X -> exists q c x b, q <> i /\ nth_error X q = Some b /\ nth_error X i = Some x /\ nth_error (fst st) i = Some c /\ crossed (sg_cross a) c x b) E.
Proof.
  intros Hd HX H2 NS. set (n := length X) in *. eapply always_weak.
  - apply (always_seq _ (fun i (st : list (list dbl) * list nat) => (perm_of n (snd st) /\ forall k, i <= k -> k < n -> nth_error (snd st) k = Some k) /\ length (fst st) = n /\
      (forall k, i <= k -> nth_error (fst st) k = nth_error X k) /\
      forall k, k < i -> exists q c x b, q <> k /\ nth_error X q = Some b /\ nth_error X k = Some x /\ nth_error (fst st) k = Some c /\ crossed (sg_cross a) c x b) E n 0).
    + cbn [fst snd]. split; [split; [apply perm_of_seq|]|].
      * intros k _ Hk. rewrite (nth_error_nth' _ 0) by (rewrite seq_length; exact Hk). now rewrite seq_nth.
      * split; [reflexivity|]. split; [reflexivity|]. intros; lia.
    + intros i [Y idx] Hi ((PI & ID) & LY & HY & HC). cbn [fst snd] in *. unfold cross_step. cbn [fst snd]. pose proof PI as (LI & NI & RI).
      destruct (swap_at_ok idx 0 i ltac:(lia) ltac:(lia)) as (x0 & yi & N0 & Ni & Es). rewrite Es. assert (yi = i) by (rewrite ID in Ni by lia; congruence). subst yi.
      eapply always_bind; [apply (always_lift _ (fun v => v = upd (upd idx 0 i) i x0)); reflexivity|]. intros ? ->. set (idx' := upd (upd idx 0 i) i x0).
      pose proof (swap_perm n idx 0 i x0 i PI N0 Ni) as PI'. fold idx' in PI'. pose proof PI' as (LI' & NI' & RI').
      assert (F0 : nth_error idx' 0 = Some i). { unfold idx'. rewrite (swap_nth idx 0 i x0 i N0 Ni). unfold tau. destruct (Nat.eqb_spec 0 i) as [<-|NE]; [exact N0 || exact Ni|]. cbn. exact Ni. }
      eapply always_bind; [apply (draw_int_ok r RC); lia|]. intros k Hk. cbv beta in Hk. destruct (nth_ex idx' (Z.to_nat k) ltac:(lia)) as (q & Nq).
      assert (Hq : q < n) by (apply RI'; eapply nth_error_In; eauto).
      assert (QI : q <> i). { intros ->. rewrite NoDup_nth_error in NI'. specialize (NI' 0 (Z.to_nat k) ltac:(lia)). rewrite F0, Nq in NI'. specialize (NI' eq_refl). lia. }
      eapply always_bind; [apply (always_vget _ _ q (fun w => w = q)); auto|]. intros ? ->.
      destruct (nth_ex X i ltac:(lia)) as (x & Nx). destruct (nth_ex X q Hq) as (b & Nb).
      eapply always_bind; [apply (always_vget _ _ x (fun w => w = x)); [rewrite HY by lia; exact Nx|reflexivity]|]. intros ? ->.
      eapply always_bind; [apply (always_vget _ _ b (fun w => w = b)); auto|]. intros ? ->.
      assert (Lx : length x = dim) by (apply HX; eapply nth_error_In; eauto). assert (Lb : length b = dim) by (apply HX; eapply nth_error_In; eauto).
      eapply always_bind; [rewrite <- Lx; apply (cross_one_ok x b E); [lia|lia|exact NS]|]. intros c Cc.
      eapply always_bind; [apply (always_vset _ _ c (fun z => z = upd Y i c)); [lia|reflexivity]|]. intros ? ->. apply always_ret. cbn [fst snd]. split; [split; [exact PI'|]|].
      * intros m Hm1 Hm2. unfold idx'. rewrite (swap_nth idx 0 i x0 i N0 Ni). unfold tau. destruct (Nat.eqb_spec m i); [lia|]. destruct (Nat.eqb_spec m 0); [lia|]. apply ID; lia.
      * split; [now rewrite upd_len|]. split; [intros m Hm; rewrite upd_other by lia; apply HY; lia|]. intros m Hm. destruct (Nat.eq_dec m i) as [->|N].
        -- exists q, c, x, b. rewrite upd_same by lia. auto.
        -- destruct (HC m ltac:(lia)) as (q' & c' & x' & b' & Q1 & Q2 & Q3 & Q4 & Q5). exists q', c', x', b'. rewrite upd_other by exact N. auto.
  - intros st (_ & L & _ & H). split; [exact L|]. intros i Hi. apply H. lia.
  - auto.
Qed.
(** ** SBX on neighbours in the shuffled order *)
Definition paired (Q2 : list dbl -> list dbl -> list dbl * list dbl -> Prop) (Z Y : list (list dbl)) (h : nat) : Prop :=
  exists p1 p2 c1 c2, nth_error Z (2 * h) = Some p1 /\ nth_error Z (2 * h + 1) = Some p2 /\ nth_error Y (2 * h) = Some c1 /\ nth_error Y (2 * h + 1) = Some c2 /\ Q2 p1 p2 (c1, c2).
Lemma sbx_loop_ok Z lb ub nix (Q2 : list dbl -> list dbl -> list dbl * list dbl -> Prop) (E : exn -> Prop) H : length Z = 2 * H ->
  (forall p1 p2, In p1 Z -> In p2 Z -> always (sbx_crossover_impl r pw p1 p2 lb ub nix (sg_cr a) (sg_eta a)) (Q2 p1 p2) E) ->
  always (rfold (sbx_step r pw a lb ub nix) Z (seq 0 H)) (fun Y => length Y = length Z /\ forall h, h < H -> paired Q2 Z Y h) E.
Proof.
  intros LZ HQ. eapply always_weak.
  - apply (always_seq _ (fun k Y => length Y = length Z /\ (forall i, 2 * k <= i -> nth_error Y i = nth_error Z i) /\ forall h, h < k -> paired Q2 Z Y h) E H 0).
    + split; [reflexivity|]. split; [auto|]. intros; lia.
    + intros k Y Hk (LY & HY & HP). unfold sbx_step. destruct (nth_ex Z (2 * k) ltac:(lia)) as (p1 & N1). destruct (nth_ex Z (2 * k + 1) ltac:(lia)) as (p2 & N2).
      eapply always_bind; [apply (always_vget _ _ p1 (fun w => w = p1)); [rewrite HY by lia; exact N1|reflexivity]|]. intros ? ->.
      eapply always_bind; [apply (always_vget _ _ p2 (fun w => w = p2)); [rewrite HY by lia; exact N2|reflexivity]|]. intros ? ->.
      eapply always_bind; [apply HQ; eapply nth_error_In; eauto|]. intros [c1 c2] Hc. cbn [fst snd].
      eapply always_bind; [apply (always_vset _ _ c1 (fun z => z = upd Y (2 * k) c1)); [lia|reflexivity]|]. intros ? ->. apply always_vset; [rewrite upd_len; lia|].
      split; [now rewrite !upd_len|]. split; [intros i Hi; rewrite !upd_other by lia; apply HY; lia|]. intros h Hh. destruct (Nat.eq_dec h k) as [->|N].
      * exists p1, p2, c1, c2. split; [exact N1|]. split; [exact N2|]. split; [rewrite upd_other by lia; apply upd_same; lia|]. split; [apply upd_same; rewrite upd_len; lia|exact Hc].
      * destruct (HP h ltac:(lia)) as (q1 & q2 & d1 & d2 & A1 & A2 & A3 & A4 & A5). exists q1, q2, d1, d2. rewrite !upd_other by lia. auto.
  - intros Y (L & _ & HP). split; [exact L|]. intros h Hh. apply HP. lia.
  - auto.
Qed.
Lemma draw_always {A} (d : G -> A * G) (Q : A -> Prop) (E : exn -> Prop) : (forall g, Q (fst (d g))) -> always (rdraw d) Q E.
Proof. intros H g. unfold rdraw. specialize (H g). destruct (d g). exact H. Qed.
(** What crossover keeps *)
Lemma cross_keeps X lb ub nix dim (Pre : list dbl -> Prop) (E : exn -> Prop) : 0 < dim -> (forall x, In x X -> length x = dim /\ Pre x) -> 2 <= length X -> (sg_cross a = SBX -> Nat.even (length X) = true) ->
  (forall c x y, Pre x -> Pre y -> length x = dim -> length y = dim -> genes_of c x y -> Pre c) ->
  (forall x y, Pre x -> Pre y -> length x = dim -> length y = dim -> always (sbx_crossover_impl r pw x y lb ub nix (sg_cr a) (sg_eta a)) (fun cs => (length (fst cs) = dim /\ Pre (fst cs)) /\ (length (snd cs) = dim /\ Pre (snd cs))) E) ->
  always (sga_cross r pw shuf a X lb ub nix) (fun Y => length Y = length X /\ forall y, In y Y -> length y = dim /\ Pre y) E.
Proof.
  intros Hd HX H2 EV MIX SB. unfold sga_cross. destruct (nth_ex X 0 ltac:(lia)) as (x0 & N0). eapply always_bind; [apply (always_vget _ _ x0 (fun w => w = x0)); auto|]. intros ? ->.
  assert (L0 : length x0 = dim) by (apply HX; eapply nth_error_In; eauto). rewrite L0.
  assert (NONSBX : sg_cross a <> SBX -> always (rbind (rfold (cross_step r a dim X) (X, seq 0 (length X)) (seq 0 (length X))) (fun st => rret (fst st))) (fun Y => length Y = length X /\ forall y, In y Y -> length y = dim /\ Pre y) E).
  { intros NS. eapply always_bind; [apply (cross_loop_ok X dim E Hd (fun x Hx => proj1 (HX x Hx)) H2 NS)|]. intros st (L & H). apply always_ret. split; [exact L|]. intros y Hy. apply In_nth_error in Hy. destruct Hy as (i & Ni).
    assert (Hi : i < length X) by (rewrite <- L; apply nth_error_Some; congruence). destruct (H i Hi) as (q & c & x & b & _ & Nb & Nx & Nc & C). assert (c = y) by congruence. subst c.
    assert (Px : length x = dim /\ Pre x) by (apply HX; eapply nth_error_In; eauto). assert (Pb : length b = dim /\ Pre b) by (apply HX; eapply nth_error_In; eauto).
    pose proof (crossed_genes _ _ _ _ (eq_trans (proj1 Pb) (eq_sym (proj1 Px))) C) as Gc. destruct Px as [Lx Px], Pb as [Lb Pb]. split; [exact (eq_trans (proj1 Gc) Lx)|]. exact (MIX y x b Px Pb Lx Lb Gc). }
  destruct (sg_cross a) eqn:K; try (apply NONSBX; discriminate).
  eapply always_bind; [apply (draw_always _ (fun Y => Permutation X Y)); intros g; apply HSh|]. intros Z PZ. specialize (EV eq_refl). apply Nat.even_spec in EV. destruct EV as [H EH]. rewrite EH. replace ((2 * H + 1) / 2) with H by (rewrite Nat.mul_comm, Nat.div_add_l by lia; cbn; lia).
  assert (LZ : length Z = 2 * H) by (rewrite <- (Permutation_length PZ); exact EH). assert (HZ : forall x, In x Z -> length x = dim /\ Pre x) by (intros x Hx; apply HX; eapply Permutation_in; [apply Permutation_sym; exact PZ|exact Hx]).
  eapply always_weak; [apply (sbx_loop_ok Z lb ub nix (fun _ _ cs => (length (fst cs) = dim /\ Pre (fst cs)) /\ (length (snd cs) = dim /\ Pre (snd cs))) E H LZ)| |auto].
  - intros p1 p2 I1 I2. destruct (HZ p1 I1), (HZ p2 I2). apply SB; auto.
  - intros Y (L & HP). split; [lia|]. intros y Hy. apply In_nth_error in Hy. destruct Hy as (i & Ni). assert (Hi : i < 2 * H) by (rewrite <- LZ, <- L; apply nth_error_Some; congruence).
    assert (HI : i = 2 * (i / 2) \/ i = 2 * (i / 2) + 1) by (pose proof (Nat.div_mod i 2 ltac:(lia)); pose proof (Nat.mod_upper_bound i 2 ltac:(lia)); lia).
    destruct (HP (i / 2)) as (p1 & p2 & c1 & c2 & _ & _ & C1 & C2 & Q1 & Q2); [destruct HI; lia|]. cbn [fst snd] in *. destruct HI as [HI|HI]; rewrite <- HI in *; [assert (c1 = y) by congruence|assert (c2 = y) by congruence]; subst; assumption.
Qed.
End S.
