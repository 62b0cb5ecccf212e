From Coq Require Import List Bool Arith ZArith Lia Znumtheory.
From Verif Require Import Dbl DblFacts Outcome BaseFacts StdSort Problem Rng Generic GenericFacts SpecGenetic SpecGeneric RmFacts GeneticOps Population PopulationFacts Algo SpecAlgo AlgoFacts AlgoFacts2 AlgGwoFacts AlgPso SpecPso.
Import ListNotations.

(** ** Topologies *)
(** Every particle has neighbours, all of them particles, at most [most] of them. *)
Definition nb_ok (n most : nat) (nb : list (list Z)) : Prop :=
  length nb = n /\ forall l, In l nb -> l <> [] /\ length l <= most /\ forall j, In j l -> (0 <= j < Z.of_nat n)%Z.

Lemma vgetz_ok {A} (l : list A) i : (0 <= i < Z.of_nat (length l))%Z -> exists x, vgetz l i = Ok x /\ nth_error l (Z.to_nat i) = Some x.
Proof.
  intros H. unfold vgetz. destruct (Z.leb_spec 0 i); [|lia]. destruct (Z.ltb_spec i (Z.of_nat (length l))); [|lia]. cbn [andb]. apply vget_in_range. lia.
Qed.
Lemma lbest_in n k i j : k <= n -> i < n -> (Z.of_nat n < 2 ^ 64)%Z -> In j (lbest_of n k i) <-> on_ring (Z.of_nat n) (Z.of_nat k) (Z.of_nat i) j.
Proof.
  intros Hk Hi Hn. unfold lbest_of, on_ring. rewrite in_app_iff, !in_map_iff.
  assert (A : forall d, 1 <= d <= k -> (if Nat.ltb i d then wrap64 (Z.of_nat i - Z.of_nat d + Z.of_nat n) else (Z.of_nat i - Z.of_nat d)%Z) = ((Z.of_nat i - Z.of_nat d) mod Z.of_nat n)%Z).
  { intros d Hd. destruct (Nat.ltb_spec i d) as [L|L].
    - unfold wrap64. rewrite Z.mod_small by lia. destruct (Nat.eq_dec d (n + i)) as [->|N]; [replace k with n in * by lia; replace i with 0 in * by lia; cbn; rewrite Z.mod_opp_l_z; [lia|lia|]; now rewrite Nat.add_0_r, Z.mod_same by lia|].
      rewrite <- (Z.mod_add _ 1) by lia. rewrite Z.mod_small; lia.
    - rewrite Z.mod_small; lia. }
  assert (B : forall d, 1 <= d <= k -> (if Nat.leb n (i + d) then (Z.of_nat i + Z.of_nat d - Z.of_nat n)%Z else (Z.of_nat i + Z.of_nat d)%Z) = ((Z.of_nat i + Z.of_nat d) mod Z.of_nat n)%Z).
  { intros d Hd. destruct (Nat.leb_spec n (i + d)) as [L|L].
    - rewrite <- (Z.mod_add _ (-1)) by lia. rewrite Z.mod_small; lia.
    - rewrite Z.mod_small; lia. }
  split.
  - intros [(d & E & Hd)|(d & E & Hd)]; [apply in_rev in Hd|]; apply in_seq in Hd; exists (Z.of_nat d); (split; [lia|]).
    + right. rewrite <- E. apply A. lia.
    + left. rewrite <- E. apply B. lia.
  - intros (d & Hd & [E|E]).
    + right. exists (Z.to_nat d). split; [|apply in_seq; lia]. rewrite B by lia. rewrite Z2Nat.id by lia. now symmetry.
    + left. exists (Z.to_nat d). split; [|rewrite <- in_rev; apply in_seq; lia]. rewrite A by lia. rewrite Z2Nat.id by lia. now symmetry.
Qed.
Lemma pso_lbest_nth n k i l : nth_error (pso_lbest n k) i = Some l -> i < n /\ l = lbest_of n (k / 2) i.
Proof.
  unfold pso_lbest. intros H. rewrite nth_error_map in H. destruct (nth_error (seq 0 n) i) as [z|] eqn:E; [|discriminate]. assert (i < n) by (rewrite <- (seq_length n 0); apply nth_error_Some; congruence).
  rewrite (nth_error_nth' _ 0) in E by (rewrite seq_length; lia). rewrite seq_nth in E by lia. injection E as <-. cbn in H. injection H as <-. auto.
Qed.
Lemma pso_lbest_ok n k : 1 <= k / 2 <= n -> (Z.of_nat n < 2 ^ 64)%Z -> length (pso_lbest n k) = n /\
  forall i l, nth_error (pso_lbest n k) i = Some l -> length l = 2 * (k / 2) /\ forall j, In j l <-> on_ring (Z.of_nat n) (Z.of_nat (k / 2)) (Z.of_nat i) j.
Proof.
  intros Hk Hn. split; [unfold pso_lbest; now rewrite map_length, seq_length|]. intros i l H. apply pso_lbest_nth in H. destruct H as [Hi ->]. split.
  - unfold lbest_of. rewrite app_length, !map_length, rev_length, seq_length. lia.
  - intros j. apply lbest_in; auto; lia.
Qed.
Lemma ring_range n k i j : (0 < n)%Z -> on_ring n k i j -> (0 <= j < n)%Z.
Proof. intros Hn (d & _ & [->| ->]); apply Z.mod_pos_bound; exact Hn. Qed.
Lemma lbest_nb n k : 1 <= k / 2 <= n -> (Z.of_nat n < 2 ^ 64)%Z -> nb_ok n (2 * (k / 2)) (pso_lbest n k).
Proof.
  intros Hk Hn. destruct (pso_lbest_ok n k Hk Hn) as (L & H). split; [exact L|]. intros l Hl. apply In_nth_error in Hl. destruct Hl as (i & Hi). destruct (H i l Hi) as (Ll & Hj).
  split; [intros ->; change (0 = 2 * (k / 2)) in Ll; lia|]. split; [lia|]. intros j Q. apply Hj in Q. apply ring_range in Q; lia.
Qed.

(** Lattice *)
Lemma von_rows_ok n : (0 < n)%Z -> forall fuel rows, (0 < rows)%Z -> (rows <= Z.of_nat fuel + 1)%Z -> (rows * rows <= n)%Z -> (forall r, 0 < r -> (r | n) -> r * r <= n -> r <= rows)%Z ->
  exists rows', von_rows n fuel rows = Ok rows' /\ (0 < rows')%Z /\ (rows' | n)%Z /\ (rows' * rows' <= n)%Z /\ (forall r, 0 < r -> (r | n) -> r * r <= n -> r <= rows')%Z.
Proof.
  intros Hn. induction fuel as [|k IH]; intros rows H0 HF HS HM; cbn [von_rows]; destruct (Z.eqb_spec rows 0); try lia; rewrite Z.rem_mod_nonneg by lia; destruct (Z.eqb_spec (n mod rows) 0) as [E|E].
  - exists rows. split; [reflexivity|]. split; [lia|]. split; [apply Z.mod_divide; lia|auto].
  - exfalso. apply E. replace rows with 1%Z by lia. apply Z.mod_1_r.
  - exists rows. split; [reflexivity|]. split; [lia|]. split; [apply Z.mod_divide; lia|auto].
  - destruct (Z.eq_dec rows 1) as [->|N1]; [exfalso; apply E, Z.mod_1_r|]. apply IH; [lia|lia|nia|]. intros r R0 RD RS. specialize (HM r R0 RD RS). destruct (Z.eq_dec r rows) as [->|]; [|lia]. exfalso. apply E. apply Z.mod_divide; [lia|exact RD].
Qed.
Lemma rem_fix a c : (0 < c)%Z -> (-1 <= a)%Z -> (let t := Z.rem a c in if t <? 0 then c + t else t)%Z = (a mod c)%Z.
Proof.
  intros Hc Ha. cbv zeta. destruct (Z.eq_dec a (-1)) as [->|N].
  - destruct (Z.eq_dec c 1) as [->|]; [reflexivity|]. assert (E : Z.rem (-1) c = (-1)%Z) by (change (-1)%Z with (- (1))%Z; rewrite Z.rem_opp_l by lia; rewrite Z.rem_small; lia). rewrite E. cbn [Z.ltb Z.compare]. rewrite <- (Z.mod_add _ 1) by lia. rewrite Z.mod_small; lia.
  - rewrite Z.rem_mod_nonneg by lia. pose proof (Z.mod_pos_bound a c Hc). destruct (Z.ltb_spec (a mod c) 0); lia.
Qed.
Lemma von_in rows cols i j : (0 < rows)%Z -> (0 < cols)%Z -> (0 <= i < rows * cols)%Z -> In j (von_of rows cols i) <-> beside rows cols i j.
Proof.
  intros Hr Hc Hi. unfold von_of. rewrite in_map_iff. unfold beside. rewrite Z.rem_mod_nonneg, Z.quot_div_nonneg by lia. cbv zeta.
  pose proof (Z.mod_pos_bound i cols Hc) as X. assert (Y : (0 <= i / cols < rows)%Z) by (split; [apply Z.div_pos; lia|apply Z.div_lt_upper_bound; lia]).
  assert (K : forall dx dy, (-1 <= dx)%Z -> (-1 <= dy)%Z ->
     (let a := Z.rem (i mod cols + dx) cols in let n_x := (if a <? 0 then cols + a else a)%Z in let b := Z.rem (i / cols + dy) rows in let n_y := (if b <? 0 then rows + b else b)%Z in n_y * cols + n_x)%Z =
     ((i / cols + dy) mod rows * cols + (i mod cols + dx) mod cols)%Z).
  { intros dx dy A B. cbv zeta. pose proof (rem_fix (i mod cols + dx) cols Hc ltac:(lia)) as E1. pose proof (rem_fix (i / cols + dy) rows Hr ltac:(lia)) as E2. cbv zeta in E1, E2. now rewrite E1, E2. }
  cbv zeta in K. assert (MX : ((i mod cols + 0) mod cols = i mod cols)%Z) by (rewrite Z.add_0_r; apply Z.mod_small; lia). assert (MY : ((i / cols + 0) mod rows = i / cols)%Z) by (rewrite Z.add_0_r; apply Z.mod_small; lia).
  unfold von_diff. cbn [In]. split.
  - intros (d & E & [<-|[<-|[<-|[<-|[]]]]]); cbn [fst snd] in E; rewrite K in E by lia; rewrite ?MX, ?MY in E; rewrite <- E; auto.
  - intros [->|[->|[->| ->]]]; [exists (-1, 0)%Z|exists (1, 0)%Z|exists (0, -1)%Z|exists (0, 1)%Z]; (split; [cbn [fst snd]; rewrite K by lia; rewrite ?MX, ?MY; reflexivity|tauto]).
Qed.
Lemma beside_range rows cols i j : (0 < rows)%Z -> (0 < cols)%Z -> (0 <= i < rows * cols)%Z -> beside rows cols i j -> (0 <= j < rows * cols)%Z.
Proof.
  intros Hr Hc Hi H. pose proof (Z.mod_pos_bound i cols Hc) as X. assert (Y : (0 <= i / cols < rows)%Z) by (split; [apply Z.div_pos; lia|apply Z.div_lt_upper_bound; lia]).
  unfold beside in H. cbv zeta in H. pose proof (Z.mod_pos_bound (i mod cols - 1) cols Hc). pose proof (Z.mod_pos_bound (i mod cols + 1) cols Hc). pose proof (Z.mod_pos_bound (i / cols - 1) rows Hr). pose proof (Z.mod_pos_bound (i / cols + 1) rows Hr).
  assert (forall a b, (0 <= a < rows)%Z -> (0 <= b < cols)%Z -> (0 <= a * cols + b < rows * cols)%Z) by (intros; nia). destruct H as [->|[->|[->| ->]]]; auto.
Qed.
Lemma pso_von_ok n : 0 < n -> exists rows cols nb, lattice (Z.of_nat n) rows cols /\ pso_von n = Ok nb /\ length nb = n /\
  forall i l, nth_error nb i = Some l -> length l = 4 /\ forall j, In j l <-> beside rows cols (Z.of_nat i) j.
Proof.
  intros Hn. pose proof (Z.sqrt_spec (Z.of_nat n) ltac:(lia)) as SQ. assert (0 < Z.sqrt (Z.of_nat n))%Z by (apply Z.sqrt_pos; lia).
  cbv zeta in SQ.   destruct (von_rows_ok (Z.of_nat n) ltac:(lia) n (Z.sqrt (Z.of_nat n))) as (rows & E & R0 & RD & RS & RM); [lia|pose proof (Z.sqrt_le_lin (Z.of_nat n) ltac:(lia)); lia|lia| |].
  { intros r R0 _ RS. apply Z.sqrt_le_square; lia. }
  destruct RD as (cols & EC). exists rows, cols. unfold pso_von. rewrite E. cbn [bind].
  assert (D : (Z.of_nat n / rows)%Z = cols) by (rewrite EC; apply Z.div_mul; lia). rewrite D. eexists. split; [|split; [reflexivity|]].
  { split; [lia|]. split; [lia|]. split; [lia|exact RM]. }
  split; [now rewrite map_length, seq_length|]. clear H. intros i l H. rewrite nth_error_map in H. destruct (nth_error (seq 0 n) i) as [z|] eqn:EZ; [|discriminate]. assert (i < n) by (rewrite <- (seq_length n 0); apply nth_error_Some; congruence).
  rewrite (nth_error_nth' _ 0) in EZ by (rewrite seq_length; lia). rewrite seq_nth in EZ by lia. injection EZ as <-. cbn [option_map plus] in H. injection H as <-.
  split; [reflexivity|]. intros j. apply von_in; [lia|nia|lia].
Qed.
Lemma von_nb n : 0 < n -> exists nb, pso_von n = Ok nb /\ nb_ok n 4 nb.
Proof.
  intros Hn. destruct (pso_von_ok n Hn) as (rows & cols & nb & (R0 & RC & _ & _) & E & L & H). exists nb. split; [exact E|]. split; [exact L|]. intros l Hl. apply In_nth_error in Hl. destruct Hl as (i & Hi).
  destruct (H i l Hi) as (L4 & Hj). split; [intros ->; discriminate|]. split; [lia|]. intros j Q. assert (i < n) by (rewrite <- L; apply nth_error_Some; congruence). apply Hj in Q. apply beside_range in Q; try lia; nia.
Qed.

(** Random topology *)
Section T.
Context {G : Type} (r : rng G) (RC : rng_contract r).
(** The first i particles inform themselves; at most c links were added *)
Definition grown (n i c : nat) (nb : list (list Z)) : Prop := length nb = n /\ (forall k l, k < i -> nth_error nb k = Some l -> In (Z.of_nat k) l) /\
  forall l, In l nb -> length l <= c /\ forall j, In j l -> (0 <= j < Z.of_nat n)%Z.
Lemma push_ok n i c nb k v : grown n i c nb -> k < n -> (0 <= v < Z.of_nat n)%Z -> exists nb', push_at nb k v = Ok nb' /\ grown n i (c + 1) nb' /\ (k = i -> v = Z.of_nat i -> grown n (i + 1) (c + 1) nb').
Proof.
  intros (L & S & H) Hk Hv. unfold push_at. destruct (vget_in_range nb k ltac:(lia)) as (l & -> & El). cbn [bind]. rewrite vset_in_range by lia. eexists. split; [reflexivity|].
  assert (H' : forall l', In l' (upd nb k (l ++ [v])) -> length l' <= c + 1 /\ forall j, In j l' -> (0 <= j < Z.of_nat n)%Z).
  { intros l' Q. apply upd_in in Q. destruct Q as [->|Q]; [|destruct (H l' Q); split; [lia|auto]]. destruct (H l (nth_error_In _ _ El)) as [A B]. rewrite app_length. cbn [length]. split; [lia|]. intros j Hj. apply in_app_iff in Hj. destruct Hj as [Hj|[<-|[]]]; auto. }
  assert (S' : forall k' l', k' < i -> nth_error (upd nb k (l ++ [v])) k' = Some l' -> In (Z.of_nat k') l').
  { intros k' l' A B. destruct (Nat.eq_dec k' k) as [->|N]; [rewrite upd_same in B by lia; injection B as <-; apply in_app_iff; left; now apply S|rewrite upd_other in B by exact N; now apply S]. }
  split; [split; [rewrite upd_len; exact L|split; [exact S'|exact H']]|]. intros -> ->. split; [rewrite upd_len; exact L|]. split; [|exact H'].
  intros k' l' A B. destruct (Nat.eq_dec k' i) as [->|N]; [rewrite upd_same in B by lia; injection B as <-; apply in_app_iff; right; now left|apply S'; [lia|exact B]].
Qed.
Lemma push_many n i v E : i <= n -> (0 <= v < Z.of_nat n)%Z -> forall l c nb, grown n i c nb ->
  always (rfold (fun nb' (_ : nat) => rbind (draw_int r 0 (Z.of_nat n - 1)) (fun k => rlift (push_at nb' (Z.to_nat k) v))) nb l) (grown n i (c + length l)) E.
Proof.
  intros Hi Hv. induction l as [|x l IH]; intros c nb H; cbn [rfold length]; [apply always_ret; now rewrite Nat.add_0_r|].
  apply (always_bind _ _ (grown n i (c + 1))).
  - eapply always_bind; [apply draw_int_ok; [exact RC|lia]|]. intros k Hk. cbv beta in Hk. destruct (push_ok n i c nb (Z.to_nat k) v H ltac:(lia) Hv) as (nb' & -> & H' & _). apply always_lift. exact H'.
  - intros nb' H'. replace (c + S (length l)) with (c + 1 + length l) by lia. now apply IH.
Qed.
Lemma adaptive_ok n m E : 0 < n -> 1 <= m -> always (pso_adaptive r n m) (fun nb => length nb = n /\ forall i l, nth_error nb i = Some l -> In (Z.of_nat i) l /\ length l <= n * m /\ forall j, In j l -> (0 <= j < Z.of_nat n)%Z) E.
Proof.
  intros Hn Hm. unfold pso_adaptive.
  assert (K : forall k i nb, i + k = n -> grown n i (i * m) nb -> always (rfold (fun nb pidx => rbind (rlift (push_at nb pidx (Z.of_nat pidx))) (fun nb1 =>
    rfold (fun nb' (_ : nat) => rbind (draw_int r 0 (Z.of_nat n - 1)) (fun k => rlift (push_at nb' (Z.to_nat k) (Z.of_nat pidx)))) nb1 (seq 1 (m - 1)))) nb (seq i k)) (grown n n (n * m)) E).
  { induction k as [|k IH]; intros i nb Hi H; cbn [seq rfold]; [apply always_ret; replace i with n in H by lia; exact H|].
    apply (always_bind _ _ (grown n (i + 1) ((i + 1) * m))); [|intros nb' H'; apply IH; [lia|now rewrite <- Nat.add_1_r]].
    destruct (push_ok n i (i * m) nb i (Z.of_nat i) H ltac:(lia) ltac:(lia)) as (nb' & -> & _ & H'). specialize (H' eq_refl eq_refl).
    apply (always_bind _ _ (fun w => w = nb')); [apply always_lift; reflexivity|]. intros ? ->. eapply always_weak; [apply (push_many n (i + 1) (Z.of_nat i) E ltac:(lia) ltac:(lia) _ _ _ H')| |auto].
    intros nb2 H2. rewrite seq_length in H2. replace ((i + 1) * m) with (i * m + 1 + (m - 1)) by nia. exact H2. }
  eapply always_weak; [apply (K n 0); [lia|]| |auto].
  - split; [now rewrite repeat_length|]. split; [intros; lia|]. intros l Hl. apply repeat_spec in Hl. subst l. split; [cbn; lia|intros j []].
  - intros nb (L & S & H). split; [exact L|]. intros i l El. assert (i < n) by (rewrite <- L; apply nth_error_Some; congruence). destruct (H l (nth_error_In _ _ El)) as [A B]. split; [now apply S|]. auto.
Qed.
Lemma adaptive_nb n m E : 0 < n -> 1 <= m -> always (pso_adaptive r n m) (nb_ok n (n * m)) E.
Proof.
  intros Hn Hm. eapply always_weak; [apply (adaptive_ok n m E Hn Hm)| |auto]. intros nb (L & H). split; [exact L|]. intros l Hl. apply In_nth_error in Hl. destruct Hl as (i & Hi). destruct (H i l Hi) as (A & B & C).
  split; [intros ->; destruct A|]. auto.
Qed.
End T.

(** ** The best neighbour *)
Lemma best_neighbor_ok nb lbX lbf n m : nb <> [] -> length lbX = n -> length lbf = n -> (forall f, In f lbf -> length f = S m) -> (forall j, In j nb -> (0 <= j < Z.of_nat n)%Z) ->
  exists k x f, pso_best_neighbor nb lbX lbf = Ok x /\ In k nb /\ nth_error lbX (Z.to_nat k) = Some x /\ nth_error lbf (Z.to_nat k) = Some f /\
    ((forall g, In g lbf -> obj g <> NaN) -> forall j g, In j nb -> nth_error lbf (Z.to_nat j) = Some g -> dle (obj f) (obj g) = true).
Proof.
  intros NE LX LF L1 HR. destruct nb as [|b0 tl]; [congruence|]. unfold pso_best_neighbor. cbn [vget nth_error bind List.tl].
  assert (O : forall f, In f lbf -> vget f 0 = Ok (obj f)) by (intros f Hf; specialize (L1 f Hf); destruct f; [discriminate|reflexivity]).
  assert (K : forall l b fb, (forall j, In j l -> (0 <= j < Z.of_nat n)%Z) -> (0 <= b < Z.of_nat n)%Z -> nth_error lbf (Z.to_nat b) = Some fb ->
     exists k f, mfold (fun b k => bind (vgetz lbf k) (fun fk => bind (vget fk 0) (fun a => bind (vgetz lbf b) (fun fb => bind (vget fb 0) (fun c => Ok (if dle a c then k else b)))))) b l = Ok k /\
       (k = b \/ In k l) /\ (0 <= k < Z.of_nat n)%Z /\ nth_error lbf (Z.to_nat k) = Some f /\
       ((forall g, In g lbf -> obj g <> NaN) -> dle (obj f) (obj fb) = true /\ forall j g, In j l -> nth_error lbf (Z.to_nat j) = Some g -> dle (obj f) (obj g) = true)).
  { induction l as [|j l IH]; intros b fb Hl Hb Eb.
    - exists b, fb. split; [reflexivity|]. split; [auto|]. split; [exact Hb|]. split; [exact Eb|]. intros NN. split; [apply dle_refl, NN; eapply nth_error_In; eauto|intros j g []].
    - cbn [mfold]. destruct (vgetz_ok lbf j) as (fj & E1 & Nj); [rewrite LF; apply Hl; now left|]. destruct (vgetz_ok lbf b) as (fb' & E2 & Nb); [lia|]. assert (fb' = fb) by congruence. subst fb'.
      rewrite E1. cbn [bind]. rewrite (O fj) by (eapply nth_error_In; eauto). cbn [bind]. rewrite E2. cbn [bind]. rewrite (O fb) by (eapply nth_error_In; eauto). cbn [bind].
      destruct (dle (obj fj) (obj fb)) eqn:D.
      + destruct (IH j fj) as (k & f & EQ & IN & R & Ef & M); [intros; apply Hl; now right|apply Hl; now left|exact Nj|]. exists k, f. split; [exact EQ|]. split; [destruct IN as [->|]; [right; now left|right; now right]|]. split; [exact R|]. split; [exact Ef|].
        intros NN. destruct (M NN) as [M1 M2]. split; [eapply dle_trans; eauto|]. intros j' g [<-|Hj] Eg; [assert (g = fj) by congruence; subst g; exact M1|now apply (M2 j')].
      + destruct (IH b fb) as (k & f & EQ & IN & R & Ef & M); [intros; apply Hl; now right|exact Hb|exact Eb|]. exists k, f. split; [exact EQ|]. split; [destruct IN as [->|]; [now left|right; now right]|]. split; [exact R|]. split; [exact Ef|].
        intros NN. destruct (M NN) as [M1 M2]. split; [exact M1|]. intros j' g [<-|Hj] Eg; [assert (g = fj) by congruence; subst g|now apply (M2 j')].
        apply (dle_trans _ (obj fb)); [exact M1|]. assert (obj fj <> NaN) by (apply NN; eapply nth_error_In; eauto). assert (obj fb <> NaN) by (apply NN; eapply nth_error_In; eauto).
        destruct (dle (obj fb) (obj fj)) eqn:D2; [reflexivity|exfalso]. destruct (obj fj) as [| |u|], (obj fb) as [| |v|]; try congruence; try discriminate. assert (~ (u <= v)%Z) by (intros Q; apply dle_fin in Q; congruence). assert (~ (v <= u)%Z) by (intros Q; apply dle_fin in Q; congruence). lia. }
  destruct (vgetz_ok lbf b0) as (f0 & _ & N0); [rewrite LF; apply HR; now left|].
  destruct (K tl b0 f0) as (k & f & -> & IN & R & Ef & M); [intros; apply HR; now right|apply HR; now left|exact N0|]. cbn [bind].
  destruct (vgetz_ok lbX k) as (x & -> & Nx); [lia|]. exists k, x, f. split; [reflexivity|]. split; [destruct IN as [->|]; [now left|now right]|]. split; [exact Nx|]. split; [exact Ef|].
  intros NN. destruct (M NN) as [M1 M2]. intros j g [<-|Hj] Eg; [assert (g = f0) by congruence; subst g; exact M1|now apply (M2 j)].
Qed.
