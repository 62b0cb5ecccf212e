From Coq Require Import List Bool Arith ZArith Lia Permutation.
From Verif Require Import Dbl DblFacts IntDbl Outcome BaseFacts StdSort SpecOrder Compare CompareFacts Problem SpecProblem ProblemFacts Rng Generic SpecGeneric GenericFacts GenericFacts3 SpecGenetic RmFacts
  GeneticOps GeneticFacts Constrained SpecConstrained ConstrainedFacts ConstrainedFacts2 Population SpecPopulation PopulationFacts PopulationFacts3 Algo SpecAlgo AlgoFacts AlgoFacts2 NotPop SpecLocal AlgCompass.
Import ListNotations.

(** ** Picking *)
Lemma idx_valid {P} srt (s : pop P) : valid_pop s -> p_nobj (po_prob s) = 1 -> po_id s <> [] -> ranked srt s ->
  exists b w, best_idx srt s = Ok b /\ b < length (po_id s) /\ worst_idx srt s = Ok w /\ w < length (po_id s).
Proof.
  intros (PO & ST & _) NO NE RK. destruct (Nat.eq_dec (get_nc (po_prob s)) 0) as [Z0|NZ].
  { destruct (best_idx_lt srt s NO Z0 ST NE) as (b & E1 & H1). destruct (worst_idx_lt srt s NO Z0 ST NE) as (w & E2 & H2). exists b, w. auto. }
  destruct (RK ltac:(lia)) as [SC SW]. pose proof ST as (L1 & L2 & _ & Ff & _). destruct (prob_obj_facts _ PO) as (_ & _ & LT & NF).
  assert (OKA : forall f, In f (po_f s) -> fc_args_ok (p_nec (po_prob s)) (p_ctol (po_prob s)) f) by (intros f Hf; specialize (Ff f Hf); split; unfold get_nc in *; lia).
  destruct (sort_con_ok srt (po_f s) _ _ SC OKA SW) as (idx & E & PM & _).
  unfold best_idx, worst_idx, best_idx_tol, worst_idx_tol. rewrite NO. destruct (Nat.eqb_spec (length (po_id s)) 0) as [Z0|NZ']; [apply length_zero_iff_nil in Z0; contradiction|].
  change (1 <? 1) with false. destruct (Nat.ltb_spec 0 (get_nc (po_prob s))); [|lia]. rewrite E. cbn [bind].
  assert (LI : length idx = length (po_f s)) by (rewrite <- (Permutation_length PM); unfold iota; apply seq_length).
  rewrite (vget_nth idx 0 0), (vget_nth idx (length idx - 1) 0) by lia.
  assert (IN : forall k, k < length idx -> nth k idx 0 < length (po_f s)).
  { intros k Hk. apply (Permutation_iota_in _ _ (nth k idx 0) PM). apply nth_In, Hk. }
  exists (nth 0 idx 0), (nth (length idx - 1) idx 0). split; [reflexivity|]. split; [|split; [reflexivity|]]; match goal with |- ?a < _ => enough (a < length (po_f s)) by lia end; apply IN; lia.
Qed.

Section L.
Context {G P : Type} (r : rng G) (RC : rng_contract r) (srt : sorter).
Lemma pick_ok {W : Prop} pol (s : G * pop P) (Q : nat -> G * pop P -> Prop) (E : exn -> Prop) : valid_pop (snd s) -> p_nobj (po_prob (snd s)) = 1 -> po_id (snd s) <> [] -> ranked srt (snd s) ->
  (bad_index pol (snd s) -> E InvalidArgument) -> (forall i g, chosen srt pol (snd s) i -> Q i (g, snd s)) -> ends_w W (pick r srt pol) s Q E.
Proof.
  intros V NO NE RK HE HQ. unfold pick. apply ends_bind, ends_getp. destruct (idx_valid srt (snd s) V NO NE RK) as (b & w & Eb & Hb & Ew & Hw).
  destruct s as [g0 s]. cbn [fst snd] in *. destruct pol as [| | |k].
  - eapply ends_lift_ok; [exact Eb|]. apply HQ. split; assumption.
  - eapply ends_lift_ok; [exact Ew|]. apply HQ. split; assumption.
  - assert (0 < length (po_id s)) by (destruct (po_id s); [contradiction|cbn; lia]). apply ends_bind. eapply ends_eng; [apply (draw_int_ok r RC); lia|]. intros k g Hk. cbv beta in *. apply ends_ret. apply HQ. split; [cbn [snd]; clear - Hk H; set (m := length (po_id s)) in *; clearbody m; lia|exact I].
  - destruct (Nat.leb_spec (length (po_id s)) k).
    + apply ends_lift. apply HE. exists k. auto.
    + apply ends_ret. apply HQ. split; auto.
Qed.
Lemma select_ok {W : Prop} pol (s : G * pop P) (Q : list dbl * list dbl -> G * pop P -> Prop) (E : exn -> Prop) : valid_pop (snd s) -> p_nobj (po_prob (snd s)) = 1 -> po_id (snd s) <> [] -> ranked srt (snd s) ->
  (bad_index pol (snd s) -> E InvalidArgument) -> (forall i x f g, chosen srt pol (snd s) i -> nth_error (po_x (snd s)) i = Some x -> nth_error (po_f (snd s)) i = Some f -> Q (x, f) (g, snd s)) -> ends_w W (select_individual r srt pol) s Q E.
Proof.
  intros V NO NE RK HE HQ. unfold select_individual. apply ends_bind. apply pick_ok; auto. intros i g C. apply ends_bind, ends_getp. cbn [snd fst]. pose proof V as (_ & (L1 & L2 & _) & _). pose proof (proj1 C).
  destruct (vget_in_range (po_x (snd s)) i ltac:(lia)) as (x & Ex & Nx). destruct (vget_in_range (po_f (snd s)) i ltac:(lia)) as (f & Ef & Nf).
  apply ends_bind. eapply ends_lift_ok; [exact Ex|]. apply ends_bind. eapply ends_lift_ok; [exact Ef|]. apply ends_ret. eapply HQ; eauto.
Qed.
Lemma replace_ok {W : Prop} pol x f (s : G * pop P) (Q : unit -> G * pop P -> Prop) (E : exn -> Prop) : valid_pop (snd s) -> p_nobj (po_prob (snd s)) = 1 -> po_id (snd s) <> [] -> ranked srt (snd s) ->
  length x = get_nx (po_prob (snd s)) -> length f = get_nf (po_prob (snd s)) ->
  (bad_index pol (snd s) -> E InvalidArgument) ->
  (forall j g s', chosen srt pol (snd s) j -> one_replaced (snd s) s' j x f -> po_fevals s' = po_fevals (snd s) -> valid_pop s' -> Q tt (g, s')) -> ends_w W (replace_individual r srt pol x f) s Q E.
Proof.
  intros V NO NE RK Lx Lf HE HQ. unfold replace_individual. apply ends_bind. apply pick_ok; auto. intros i g C. apply ends_pset; cbn [snd fst]; auto; [exact (proj1 C)|].
  intros c _ V'. eapply HQ; [exact C| | |exact V']; repeat split.
Qed.
End L.

(** ** The moves stay in the box *)
Lemma move_within l u nr c : is_double l -> is_double u -> isfinite l = true -> isfinite u = true -> SpecGeneric.within l u c -> dlt dzero nr = true -> bnd 1074 nr -> SpecGeneric.within l u (move_up l u nr c) /\ SpecGeneric.within l u (move_down l u nr c).
Proof.
  intros Dl Du Fl Fu [H1 H2] Pn (z & -> & Bz). destruct l as [| |zl|], u as [| |zu|]; try discriminate. assert (Pz : (0 < z)%Z) by (unfold dlt, dzero in Pn; apply Z.ltb_lt in Pn; exact Pn).
  destruct c as [| |zc|]; try discriminate. apply dle_fin in H1. apply dle_fin in H2.
  assert (N : nonneg (dmul (Fin z) (dsub (Fin zu) (Fin zl)))).
  { pose proof (dsub_nonneg zl zu ltac:(lia)) as N. apply nonneg_cases in N. destruct N as [->|(w & -> & Hw)].
    - cbn [dmul dsgn]. rewrite Z.sgn_pos by lia. reflexivity.
    - apply nonneg_dmul_fin; lia. }
  unfold move_up, move_down, dgt. cbv zeta. set (d := dmul _ _) in *. clearbody d. apply nonneg_cases in N. split.
  - destruct (dlt (Fin zu) (dadd (Fin zc) d)) eqn:C; [split; apply dle_fin; lia|].
    assert (Hl : dle (Fin zl) (dadd (Fin zc) d) = true).
    { destruct N as [->|(w & -> & Hw)]; [reflexivity|]. cbn [dadd]. rewrite <- (rnd_exact zl Dl). apply rnd_mono; lia. }
    split; [exact Hl|]. apply dlt_false_dle; [discriminate|exact (proj2 (dle_not_nan _ _ Hl))|exact C].
  - destruct (dlt (dsub (Fin zc) d) (Fin zl)) eqn:C; [split; apply dle_fin; lia|].
    assert (Hl : dle (dsub (Fin zc) d) (Fin zu) = true).
    { destruct N as [->|(w & -> & Hw)]; [reflexivity|]. cbn [dsub dneg dadd]. rewrite <- (rnd_exact zu Du). apply rnd_mono; lia. }
    split; [|exact Hl]. apply dlt_false_dle; [exact (proj1 (dle_not_nan _ _ Hl))|discriminate|exact C].
Qed.

Lemma fc_ok p f : prob_obj p -> p_nobj p = 1 -> length f = get_nf p -> fc_args_ok (p_nec p) (p_ctol p) f.
Proof. intros PO NO L. destruct (prob_obj_facts p PO) as (_ & _ & LT & NF). split; unfold get_nc in *; lia. Qed.

(** ** What a descent means *)
Lemma descends_len p Box x f x' f' : descends p Box (x, f) (x', f') -> length x = get_nx p -> length f = get_nf p -> length x' = get_nx p /\ length f' = get_nf p.
Proof. intros D Lx Lf. inversion D as [EQ|? ? ? ? _ (A & B & _) _ _ EQ]; subst; auto. Qed.
Lemma descends_box p Box x f x' f' : descends p Box (x, f) (x', f') -> Box x -> Box x'.
Proof. intros D B. inversion D; subst; auto. Qed.
Lemma descends_means p Box x f x' f' : prob_obj p -> p_nobj p = 1 -> length x = get_nx p -> length f = get_nf p -> finite_all (p_ctol p) -> descends p Box (x, f) (x', f') ->
  (feasible (p_nec p) (p_ctol p) f -> feasible (p_nec p) (p_ctol p) f' /\ (f' = f \/ better (obj f') (obj f))) /\
  (forall n n', exactly n (satisfied (p_nec p) (p_ctol p) f) -> exactly n' (satisfied (p_nec p) (p_ctol p) f') -> n <= n').
Proof.
  intros PO NO Lx Lf FT D. remember (x, f) as a eqn:Ea. remember (x', f') as b eqn:Eb. revert x' f' Eb.
  induction D as [|y g y' g' D IH EV BX PR]; intros x' f' Eb.
  - assert (f' = f) by congruence. subst f'. split; [auto|]. intros n n' A B. rewrite (exactly_unique _ _ _ A B). lia.
  - injection Eb as -> ->. subst a. destruct (descends_len p Box x f y g D Lx Lf) as [Ly Lg]. destruct (IH y g eq_refl) as [I1 I2].
    pose proof (fc_ok p g PO NO Lg) as Ag. pose proof (fc_ok p f' PO NO (proj1 (proj2 EV))) as Af'.
    destruct (compare_fc_spec f' g _ _ Af' Ag FT) as (b & E & C1 & C2 & C3 & C4). unfold preferred in PR. rewrite PR in E. injection E as <-.
    split.
    + intros Fe. destruct (I1 Fe) as [Fg Og]. assert (Ff' : feasible (p_nec p) (p_ctol p) f').
      { destruct (fc_feasible _ _ f' Af' FT) as [_ K]. destruct (Nat.eq_dec (fc_count (p_nec p) (p_ctol p) f') (length (p_ctol p))) as [Y|N]; [apply K; exact Y|]. exfalso. assert (true = false) by (apply C4; [intros X; apply N, K, X|exact Fg]). discriminate. }
      split; [exact Ff'|]. right. assert (B : better (obj f') (obj g)) by (apply (C2 Ff' Fg); reflexivity). destruct Og as [->|B']; [exact B|exact (CompareFacts.better_trans _ _ _ B B')].
    + intros n n' A B. pose proof (fc_count_exact _ _ g Ag FT) as Cg. specialize (I2 _ _ A Cg). destruct (le_lt_dec (fc_count (p_nec p) (p_ctol p) g) n'); [lia|].
      exfalso. destruct (C1 n' _ B Cg) as [_ X]. specialize (X l). discriminate.
Qed.

(** ** The scan *)
Section C.
Context {G P : Type} (r : rng G) (RC : rng_contract r) (srt : sorter) (sel rep : policy) (max_fevals : Z) (start stop red : dbl).
Context (p : problem) (Box : list dbl -> Prop) (Rg : dbl -> Prop).
Context (PO : prob_obj p) (NO : p_nobj p = 1) (FD : fitness_defined p).
Context (MV : forall nr x i v, Rg nr -> dgt nr stop = true -> Box x -> length x = get_nx p -> compass_move p nr x i v -> Box (upd x i v)).
Context (RR : forall nr, Rg nr -> dgt nr stop = true -> Rg (dmul nr red)).

Definition only_evals (n : nat) (s s' : G * pop P) : Prop := (exists c, snd s' = with_fevals (snd s) c) /\ evals n (snd s) (snd s').
Lemma only_refl s : only_evals 0 s s.
Proof. split; [|apply evals_0]. exists (po_fevals (snd s)). destruct (snd s). reflexivity. Qed.
Lemma only_trans m n s1 s2 s3 : only_evals m s1 s2 -> only_evals n s2 s3 -> only_evals (m + n) s1 s3.
Proof. intros [(c & A) B] [(d & C) D]. split; [exists d; rewrite C, A; reflexivity|eapply evals_trans; eauto]. Qed.
Lemma only_prob n s s' : only_evals n s s' -> po_prob (snd s') = po_prob (snd s).
Proof. intros [(c & ->) _]. reflexivity. Qed.

Lemma cs_try_ok nr x f i v (s : G * pop P) : po_prob (snd s) = p -> Rg nr -> dgt nr stop = true -> Box x -> length x = get_nx p -> length f = get_nf p -> compass_move p nr x i v ->
  ends (cs_try x f i v) s (fun a s' => only_evals 1 s s' /\
     match a with Some (y, fy) => evaluated p y fy /\ Box y /\ preferred p fy f | None => exists f', evaluated p (upd x i v) f' /\ ~ preferred p f' f end) (fitness_throws p).
Proof.
  intros EP HR HN BX Lx Lf CM. unfold cs_try. apply ends_bind, ends_getp. assert (Hi : i < length x) by (destruct CM as (l & u & c & _ & _ & E & _); apply nth_error_Some; congruence).
  apply ends_bind. eapply ends_lift_ok; [apply vset_in_range; exact Hi|]. assert (Ly : length (upd x i v) = get_nx p) by (now rewrite upd_len).
  apply ends_bind. apply (ends_peval p); auto. intros fy EV. assert (OE : only_evals 1 s (fst s, with_fevals (snd s) (wrap64 (po_fevals (snd s) + 1)))) by (split; [eexists; reflexivity|apply (evals_S 0), evals_0]).
  pose proof (fc_ok p fy PO NO (proj1 (proj2 EV))) as A1. pose proof (fc_ok p f PO NO Lf) as A2. rewrite EP. apply ends_bind. eapply ends_lift_ok; [apply compare_fc_eq; assumption|].
  apply ends_ret. split; [exact OE|]. pose proof (compare_fc_eq _ _ fy f A1 A2) as CE. destruct (fc_cmp (p_nec p) (p_ctol p) fy f).
  - split; [exact EV|]. split; [eapply MV; eauto|exact CE].
  - exists fy. split; [exact EV|]. unfold preferred. rewrite CE. discriminate.
Qed.
Lemma cs_scan_ok nr x f : Rg nr -> dgt nr stop = true -> Box x -> length x = get_nx p -> length f = get_nf p -> forall dims n (s : G * pop P), po_prob (snd s) = p -> (forall i, In i dims -> i < get_nx p) ->
  ends (cs_scan nr x f dims n) s (fun a s' => exists k, only_evals k s s' /\ snd a = (n + Z.of_nat k)%Z /\ k <= 2 * length dims /\ (dims <> [] -> 0 < k) /\
     match fst a with Some (y, fy) => evaluated p y fy /\ Box y /\ preferred p fy f
     | None => forall i v, In i dims -> compass_move p nr x i v -> exists f', evaluated p (upd x i v) f' /\ ~ preferred p f' f end) (fitness_throws p).
Proof.
  intros HR HN BX Lx Lf. induction dims as [|i dims IH]; intros n s EP HD; cbn [cs_scan].
  - apply ends_ret. exists 0. split; [apply only_refl|]. cbn [snd fst length]. split; [lia|]. split; [lia|]. split; [congruence|]. intros i v [].
  - apply ends_bind, ends_getp. destruct (prob_obj_lens p PO) as [L1 L2]. assert (Hi : i < get_nx p) by (apply HD; now left). rewrite EP.
    destruct (vget_in_range (p_lb p) i ltac:(lia)) as (l & El & Nl). destruct (vget_in_range (p_ub p) i ltac:(lia)) as (u & Eu & Nu). destruct (vget_in_range x i ltac:(lia)) as (c & Ec & Nc).
    apply ends_bind. eapply ends_lift_ok; [exact El|]. apply ends_bind. eapply ends_lift_ok; [exact Eu|]. apply ends_bind. eapply ends_lift_ok; [exact Ec|]. cbv zeta.
    change (if dgt (dadd c (dmul nr (dsub u l))) u then u else dadd c (dmul nr (dsub u l))) with (move_up l u nr c). change (if dlt (dsub c (dmul nr (dsub u l))) l then l else dsub c (dmul nr (dsub u l))) with (move_down l u nr c).
    apply ends_bind. eapply ends_weak; [apply (cs_try_ok nr x f i (move_up l u nr c)); auto; exists l, u, c; auto| |auto].
    intros [[y fy]|] s1 [O1 H1]; cbv beta iota.
    + apply ends_ret. exists 1. split; [exact O1|]. cbn [snd fst length]. split; [lia|]. split; [lia|]. split; [lia|]. exact H1.
    + apply ends_bind. eapply ends_weak; [apply (cs_try_ok nr x f i (move_down l u nr c)); auto; [rewrite (only_prob _ _ _ O1); exact EP|exists l, u, c; auto]| |auto].
      intros [[y fy]|] s2 [O2 H2]; cbv beta iota.
      * apply ends_ret. exists 2. split; [exact (only_trans 1 1 _ _ _ O1 O2)|]. cbn [snd fst length]. split; [lia|]. split; [lia|]. split; [lia|]. exact H2.
      * eapply ends_weak; [apply (IH (n + 2)%Z s2)| |auto].
        -- rewrite (only_prob _ _ _ O2), (only_prob _ _ _ O1). exact EP.
        -- intros j Hj. apply HD. now right.
        -- intros a s3 (k & O3 & E3 & B3 & _ & H3). cbv beta. exists (2 + k). split; [exact (only_trans 2 k _ _ _ (only_trans 1 1 _ _ _ O1 O2) O3)|]. split; [lia|]. cbn [length]. split; [lia|]. split; [lia|].
           destruct (fst a) as [[y fy]|]; [exact H3|]. intros j v [<-|Hj] CM; [|now apply H3]. destruct CM as (l' & u' & c' & A & B & C & D).
           replace l' with l in D by congruence. replace u' with u in D by congruence. replace c' with c in D by congruence. destruct D as [->| ->]; assumption.
Qed.

Definition at_mesh (x f : list dbl) : Prop := exists nr, Rg nr /\ dgt nr stop = true /\ dgt (dmul nr red) stop = false /\ no_better_move p nr x f.
Lemma cs_loop_ok a : (0 <= max_fevals)%Z -> (max_fevals + 2 * Z.of_nat (get_nx p) < 2 ^ 32)%Z -> forall fuel nr x f n (s : G * pop P), po_prob (snd s) = p -> Rg nr -> Box x -> length x = get_nx p -> length f = get_nf p ->
  (max_fevals < Z.of_nat n + Z.of_nat fuel)%Z -> (Z.of_nat n <= max_fevals + 2 * Z.of_nat (get_nx p))%Z -> descends p Box a (x, f) -> dgt nr stop = true \/ at_mesh x f ->
  ends (cs_loop max_fevals stop red fuel nr x f (Z.of_nat n)) s (fun b s' => exists k, only_evals k s s' /\ (Z.of_nat (n + k) <= max_fevals + 2 * Z.of_nat (get_nx p))%Z /\ Box (fst b) /\
     descends p Box a b /\ ((Z.of_nat (n + k) <= max_fevals)%Z -> at_mesh (fst b) (snd b))) (fitness_throws p).
Proof.
  intros M0 MB. induction fuel as [|fuel IH]; intros nr x f n s EP HR BX Lx Lf HF HB DS ST; cbn [cs_loop].
  - destruct (Z.leb_spec (Z.of_nat n) max_fevals); [lia|]. rewrite andb_false_r. apply ends_ret. exists 0. split; [apply only_refl|]. rewrite Nat.add_0_r. cbn [fst snd]. split; [exact HB|]. split; [exact BX|]. split; [exact DS|lia].
  - destruct (dgt nr stop) eqn:DN; [destruct (Z.leb_spec (Z.of_nat n) max_fevals) as [LE|GT]|]; cbn [andb].
    + apply ends_bind, ends_getp. rewrite EP. apply ends_bind. eapply ends_weak; [apply (cs_scan_ok nr x f HR DN BX Lx Lf (seq 0 (get_nx p)) 0 s EP); intros i Hi; apply in_seq in Hi; lia| |auto].
      intros [o m] s1 (k & O1 & E1 & B1 & P1 & H1). cbn [fst snd] in *. rewrite seq_length in B1. destruct (prob_obj_facts p PO) as (NX & _). specialize (P1 ltac:(intros X; apply (f_equal (@length nat)) in X; rewrite seq_length in X; cbn in X; lia)). cbv zeta.
      rewrite E1. replace ((Z.of_nat n + (0 + Z.of_nat k)) mod 2 ^ 32)%Z with (Z.of_nat (n + k)) by (rewrite Z.mod_small; lia).
      assert (EP1 : po_prob (snd s1) = p) by (rewrite (only_prob _ _ _ O1); exact EP).
      destruct o as [[y fy]|].
      * destruct H1 as (EV & BY & PR). eapply ends_weak; [apply (IH nr y fy (n + k) s1 EP1 HR BY)| |auto]; try lia.
        -- exact (proj1 EV).
        -- exact (proj1 (proj2 EV)).
        -- econstructor; eauto.
        -- left. exact DN.
        -- intros b s' (k' & O2 & R). exists (k + k'). split; [eapply only_trans; eauto|]. rewrite Nat.add_assoc. exact R.
      * eapply ends_weak; [apply (IH (dmul nr red) x f (n + k) s1 EP1 (RR nr HR DN) BX Lx Lf)| |auto]; try lia; auto.
        -- destruct (dgt (dmul nr red) stop) eqn:D2; [now left|]. right. exists nr. split; [exact HR|]. split; [exact DN|]. split; [exact D2|].
           intros i v CM. apply H1; [|exact CM]. destruct CM as (l & u & c & A & _). apply in_seq. assert (i < length (p_lb p)) by (apply nth_error_Some; congruence). unfold get_nx. lia.
        -- intros b s' (k' & O2 & R). exists (k + k'). split; [eapply only_trans; eauto|]. rewrite Nat.add_assoc. exact R.
    + apply ends_ret. exists 0. split; [apply only_refl|]. rewrite Nat.add_0_r. cbn [fst snd]. split; [exact HB|]. split; [exact BX|]. split; [exact DS|lia].
    + apply ends_ret. exists 0. split; [apply only_refl|]. rewrite Nat.add_0_r. cbn [fst snd]. split; [exact HB|]. split; [exact BX|]. split; [exact DS|]. intros _. destruct ST as [X|X]; [discriminate|exact X].
Qed.

Lemma cs_evolve_gen fuel (s : G * pop P) : po_prob (snd s) = p -> valid_pop (snd s) -> u_set_seed (p_udp p) = false -> po_id (snd s) <> [] -> ranked srt (snd s) ->
  (forall x, In x (po_x (snd s)) -> Box x) -> Rg start -> dgt start stop = true -> (0 < max_fevals)%Z -> (max_fevals + 2 * Z.of_nat (get_nx p) < 2 ^ 32)%Z -> (max_fevals < Z.of_nat fuel)%Z ->
  ends (cs_evolve r srt sel rep max_fevals start stop red fuel) s
    (fun _ s' => valid_pop (snd s') /\ exists i j x f x' f' n, chosen srt sel (snd s) i /\ nth_error (po_x (snd s)) i = Some x /\ nth_error (po_f (snd s)) i = Some f /\
       descends p Box (x, f) (x', f') /\ Box x' /\ chosen srt rep (snd s) j /\ one_replaced (snd s) (snd s') j x' f' /\
       evals n (snd s) (snd s') /\ (Z.of_nat n <= max_fevals + 2 * Z.of_nat (get_nx p))%Z /\ ((Z.of_nat n <= max_fevals)%Z -> at_mesh x' f'))
    (fun e => fitness_throws p e \/ (e = InvalidArgument /\ (bad_index sel (snd s) \/ bad_index rep (snd s)))).
Proof.
  intros EP V NS NE RK BX RS SS MP MB HF. unfold cs_evolve. apply ends_bind, ends_getp. cbv zeta. rewrite EP, NO, NS. cbn [Nat.eqb negb].
  destruct (Nat.eqb_spec (length (po_id (snd s))) 0) as [X|_]; [apply length_zero_iff_nil in X; contradiction|]. destruct (Z.eqb_spec max_fevals 0); [lia|].
  apply ends_bind. apply (select_ok r RC); auto; [congruence|]. intros i x f g CH Nx Nf. cbn [fst snd]. pose proof V as (_ & (S1 & S2 & Fx & Ff & _) & _).
  assert (Lx : length x = get_nx p) by (rewrite <- EP; apply Fx; eapply nth_error_In; eauto). assert (Lf : length f = get_nf p) by (rewrite <- EP; apply Ff; eapply nth_error_In; eauto).
  apply ends_bind. eapply ends_weak; [apply (cs_loop_ok (x, f) ltac:(lia) MB fuel start x f 0 (g, snd s)); auto; try lia; [apply BX; eapply nth_error_In; eauto|constructor]| |auto].
  intros [x' f'] s1 (k & O1 & B1 & B2 & D1 & M1). cbn [fst snd] in *. destruct (descends_len _ _ _ _ _ _ D1 Lx Lf) as [Lx' Lf']. destruct O1 as [(c & E1) FE]. cbn [snd] in E1, FE. destruct s1 as [g1 s1]. cbn [snd fst] in *. subst s1.
  eapply replace_ok with (r := r); auto; cbn [snd]; try (cbn [po_prob with_fevals]; congruence).
  intros j g2 s' C2 OR FEs V'. cbn [snd]. split; [exact V'|]. exists i, j, x, f, x', f', k. split; [exact CH|]. split; [exact Nx|]. split; [exact Nf|]. split; [exact D1|]. split; [exact B2|]. split; [exact C2|]. split; [exact OR|].
  split; [unfold evals in *; rewrite FEs; exact FE|]. split; [exact B1|exact M1].
Qed.
End C.
