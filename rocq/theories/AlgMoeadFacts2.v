From Coq Require Import List Bool Arith ZArith Lia Permutation.
From Verif Require Import Dbl DblFacts Outcome BaseFacts StdSort SpecOrder MultiObj SpecMultiObj MultiObjFacts2 DecomposeFacts Weights Problem SpecProblem Rng Generic SpecGeneric GenericFacts3
  SpecGenetic RmFacts GeneticOps GeneticFacts Population SpecPopulation Algo SpecAlgo AlgoFacts AlgoFacts2 AlgSga SpecSga SpecNsga2 AlgNsga2Facts3 AlgMoead SpecMoead AlgMoeadFacts.
Import ListNotations.

Lemma rfold_app {G T A} (f : T -> A -> RM G T) l1 : forall l2 t g, rfold f t (l1 ++ l2) g = rbind (rfold f t l1) (fun t' => rfold f t' l2) g.
Proof.
  induction l1 as [|x l1 IH]; intros l2 t g; [reflexivity|]. cbn [app rfold]. unfold rbind. destruct (f t x g) as [[t'|e| |] g']; try reflexivity. rewrite IH. reflexivity.
Qed.
Lemma ends_same {S A} {W : Prop} (m m' : RM S A) s Q E : m s = m' s -> ends_w W m' s Q E -> ends_w W m s Q E.
Proof. unfold ends_w. intros ->. auto. Qed.

Section Run.
Context {G P : Type} (r : rng G) (RC : rng_contract r) (srt : sorter) (HS : sort_contract srt) (pw : dbl -> dbl -> dbl) (shuf : forall A, list A -> G -> list A * G) (SC : shuffle_contract shuf).
Context (binom : Z -> Z -> dbl) (halton : nat -> nat -> list dbl) (fuel : nat) (a : moead_params).

Lemma select_ok NP nb whole : 0 < NP -> nb <> [] -> (forall i, In i nb -> i < NP) -> forall k acc g, (forall i, In i acc -> i < NP) ->
  ends_w True (select_loop r k NP nb whole acc) g (fun ps _ => 2 <= length ps /\ forall i, In i ps -> i < NP) never.
Proof.
  intros H0 NB HN. induction k as [|k IH]; intros acc g HA; cbn [select_loop]; destruct (Nat.leb_spec 2 (length acc)); try (apply ends_ret; auto); [exact I|].
  apply ends_bind. eapply ends_always; [apply (draw_int_ok r RC); lia|]. intros d g1 Hd. cbv beta in Hd |- *.
  assert (PK : exists i, i < NP /\ (if whole then rret (Z.to_nat d) else rlift (vget nb (Z.to_nat d mod length nb))) = (rret i : RM G nat)).
  { destruct whole; [exists (Z.to_nat d); split; [lia|reflexivity]|]. destruct (vget_in_range nb (Z.to_nat d mod length nb)) as (i & Ei & Ni); [apply Nat.mod_upper_bound; destruct nb; [congruence|discriminate]|].
    exists i. split; [apply HN; eapply nth_error_In; exact Ni|]. now rewrite Ei. }
  destruct PK as (i & Hi & ->). apply ends_bind. apply ends_ret. apply IH. intros j Hj. destruct (existsb _ acc); [auto|]. apply in_app_or in Hj. destruct Hj as [Hj|[<-|[]]]; auto.
Qed.

Context (p : problem) (FD : fitness_defined p) (NP : nat) (Box : list dbl -> Prop).
Context (BL : forall x, Box x -> length x = get_nx p).
Context (CH : forall X n p0 p1, (forall x, In x X -> Box x) -> n < length X -> p0 < length X -> p1 < length X -> always (moead_child r pw a p X n p0 p1) Box never).
Context (ws : list (list dbl)) (HW : weights_for (get_nf p) NP ws) (neigh : list (list nat)) (LN : length neigh = NP).
Context (HN : forall n nb, nth_error neigh n = Some nb -> nb <> [] /\ forall i, In i nb -> i < NP).
Context (DM : me_dec a <> OtherMethod) (NF : 0 < get_nf p).
Context (W : Prop) (SEL : forall nb whole g, In nb neigh -> ends_w W (select_parents r fuel NP nb whole) g (fun ps _ => 2 <= length ps /\ forall i, In i ps -> i < NP) never).

Definition fit (k : nat) (s0 : pop P) (z : list dbl) (s : G * pop P) : Prop :=
  valid_pop (snd s) /\ po_prob (snd s) = p /\ length (po_id (snd s)) = NP /\ (forall x, In x (po_x (snd s)) -> Box x) /\ length z = get_nf p /\ evals k s0 (snd s).
Notation step := (moead_step (P := P) (me_dec a) (me_limit a) (me_div a) Box ws neigh).
Lemma one_ok k s0 z s n : fit k s0 z s -> n < NP ->
  ends_w W (moead_one r pw shuf fuel a ws neigh z n) s (fun z' s' => fit (k + 1) s0 z' s' /\ step n z (snd s) z' (snd s')) (fitness_throws p).
Proof.
  intros (V & EP & EN & BX & Lz & EVs) Hn. pose proof V as (_ & (L1 & L2 & _) & _). unfold moead_one. apply ends_bind, ends_getp. apply ends_bind.
  eapply (ends_eng (draw01 r) s (fun _ => True)); [apply (draw01_any r RC)|]. intros v g1 _. cbv zeta. set (whole := negb (dlt v (me_realb a) || negb (me_div a))).
  destruct (nth_ex neigh n ltac:(lia)) as (nb & Nn). destruct (HN n nb Nn) as [NB HB]. apply ends_bind. eapply ends_lift_ok; [apply vget_ok; exact Nn|].
  apply ends_bind. apply ends_eng_w. rewrite LN. eapply ends_weak; [apply (SEL nb whole); eapply nth_error_In; exact Nn| |intros e []]. intros ps g2 [LP HP]. cbv beta.
  destruct (vget_in_range ps 0 ltac:(lia)) as (p0 & E0 & N0). destruct (vget_in_range ps 1 ltac:(lia)) as (p1 & E1 & N1). apply nth_error_In in N0, N1. apply HP in N0, N1.
  apply ends_bind. eapply ends_lift_ok; [exact E0|]. apply ends_bind. eapply ends_lift_ok; [exact E1|]. apply ends_bind. rewrite EP.
  eapply ends_eng; [eapply always_weak with (E := never); [apply (CH (po_x (snd s)) n p0 p1 BX); lia|intros x Hx; exact Hx|intros e []]|]. intros x g3 Bx. cbn [snd].
  apply ends_bind. apply (ends_peval p x); [exact EP|exact FD|apply BL, Bx|auto|]. intros f EVf. cbn [fst snd]. set (s1 := with_fevals (snd s) _).
  assert (LF : length f = length z) by (rewrite Lz; apply EVf). pose proof (ideal_step z f LF) as LO. set (z' := moead_ideal z f) in *. assert (Lz' : length z' = get_nf p) by (rewrite (proj1 LO); exact Lz).
  apply ends_bind. eapply ends_weak; [apply (insert_ok shuf SC a s1) with (nb := nb)| |intros e K; exact K].
  - exact V.
  - change (po_prob s1) with (po_prob (snd s)). change (po_id s1) with (po_id (snd s)). rewrite EP, EN. exact HW.
  - exact DM.
  - change (po_prob s1) with (po_prob (snd s)). rewrite EP. exact NF.
  - change (po_prob s1) with (po_prob (snd s)). rewrite EP. exact Lz'.
  - change (po_prob s1) with (po_prob (snd s)). rewrite EP. exact EVf.
  - change (po_id s1) with (po_id (snd s)). lia.
  - exact Nn.
  - change (po_id s1) with (po_id (snd s)). rewrite EN. exact HB.
  - unfold whole. destruct (me_div a); [reflexivity|]. rewrite orb_true_r. discriminate.
  - intros u s2 (R & (V2 & FE & OV & BT) & A1 & A2 & A3). apply ends_ret. pose proof OV as (O1 & O2 & O3 & O4 & _ & O6 & O7). split.
    + split; [exact V2|]. split; [rewrite O1; exact EP|]. split; [rewrite O2; exact EN|]. split; [|split; [exact Lz'|]].
      * intros y Hy. apply In_nth_error in Hy. destruct Hy as (i & Ei). destruct (in_dec Nat.eq_dec i R) as [K|K]; [rewrite (proj1 (O6 i K)) in Ei; injection Ei as <-; exact Bx|]. rewrite (proj1 (O7 i K)) in Ei. apply BX. eapply nth_error_In. exact Ei.
      * pose proof (evals_S k s0 (snd s) EVs) as H. unfold evals in *. rewrite FE. exact H.
    + exists x, f, R, nb. split; [rewrite EP; exact EVf|]. split; [exact Bx|]. split; [exact LO|]. split; [exact OV|]. split; [intros i Hi; apply (BT i Hi)|]. split; [exact A1|]. split; [exact Nn|]. split; [exact A2|exact A3].
Qed.
Lemma steps_ok k s0 ns : (forall n, In n ns -> n < NP) -> forall z s, fit k s0 z s ->
  ends_w W (rfold (moead_one r pw shuf fuel a ws neigh) z ns) s (fun z' s' => fit (k + length ns) s0 z' s' /\ moead_steps (me_dec a) (me_limit a) (me_div a) Box ws neigh ns z (snd s) z' (snd s')) (fitness_throws p).
Proof.
  induction ns as [|n ns IH] using rev_ind; intros H z s FT.
  - apply ends_ret. rewrite Nat.add_0_r. split; [exact FT|apply ms_none].
  - eapply ends_same; [apply rfold_app|]. apply ends_bind. eapply ends_weak; [apply IH; [intros i Hi; apply H, in_or_app; now left|exact FT]| |auto]. intros z1 s1 [F1 S1]. cbv beta. cbn [rfold]. apply ends_bind.
    eapply ends_weak; [apply (one_ok _ s0 z1 s1 n F1); apply H, in_or_app; right; now left| |auto]. intros z2 s2 [F2 S2]. apply ends_ret. rewrite app_length. cbn [length]. rewrite Nat.add_assoc. split; [exact F2|]. eapply ms_more; eassumption.
Qed.
Lemma generations_ok s0 gens : forall k st s, fit k s0 (snd st) s -> Permutation (seq 0 NP) (fst st) ->
  ends_w W (rfold (fun st _ => moead_generation r pw shuf fuel a ws neigh st) st (seq 0 gens)) s
    (fun st' s' => fit (k + gens * NP) s0 (snd st') s' /\ moead_generations (me_dec a) (me_limit a) (me_div a) Box ws neigh NP gens (snd st) (snd s) (snd st') (snd s')) (fitness_throws p).
Proof.
  intros k st s FT PM. eapply ends_weak; [apply (ends_seq (W := W) (fun st _ => moead_generation r pw shuf fuel a ws neigh st)
    (fun i st' s' => Permutation (seq 0 NP) (fst st') /\ fit (k + i * NP) s0 (snd st') s' /\ moead_generations (me_dec a) (me_limit a) (me_div a) Box ws neigh NP i (snd st) (snd s) (snd st') (snd s')) (fitness_throws p))| |auto].
  - split; [exact PM|]. rewrite Nat.mul_0_l, Nat.add_0_r. split; [exact FT|apply mg_none].
  - intros i st1 s1 _ (P1 & F1 & G1). unfold moead_generation. apply ends_bind. apply ends_eng with (Q1 := fun sh => Permutation (seq 0 NP) sh).
    { intros g'. unfold rdraw. pose proof (SC nat (fst st1) g') as H. destruct (shuf nat _ g') as [sh g'']. cbn [fst] in *. eapply perm_trans; eassumption. }
    intros sh g P2. apply ends_bind. eapply ends_weak; [apply (steps_ok (k + i * NP) s0 sh)| |auto].
    + intros n Hn. apply (Permutation_in _ (Permutation_sym P2)), in_seq in Hn. lia.
    + exact F1.
    + intros z2 s2 [F2 S2]. apply ends_ret. cbn [fst snd]. split; [exact P2|]. pose proof (Permutation_length P2) as PL. rewrite seq_length in PL. rewrite <- PL in F2. replace (k + (i + 1) * NP) with (k + i * NP + NP) by lia. split; [exact F2|].
      rewrite Nat.add_1_r. eapply mg_more; eassumption.
  - intros st' s' (_ & H). exact H.
Qed.
End Run.
