From Coq Require Import List Bool Arith ZArith Lia.
From Verif Require Import Dbl DblFacts Outcome BaseFacts StdSort Compare SpecOrder CompareFacts Problem SpecProblem ProblemFacts Rng Generic SpecGeneric GenericFacts SpecGenetic RmFacts GeneticOps Population SpecPopulation PopulationFacts PopulationFacts3 Algo SpecAlgo AlgoFacts AlgoFacts2
  GeneticFacts ProblemFacts2 AlgSaFacts AlgSgaFacts4 AlgGwoFacts AlgNsga2 SpecNsga2 AlgNsga2Facts AlgNsga2Facts5 SpecCmaes AlgMoeadGen AlgMoeadGenFacts AlgPso SpecPso AlgPsoFacts AlgPsoFacts2 AlgPsoGen SpecPsoGen.
Import ListNotations.

Lemma not_above_iff a b : not_above a b = true <-> ~ better b a.
Proof.
  unfold not_above. rewrite orb_true_iff, less_than_f_spec, equal_to_f_spec. split.
  - intros [H| ->]; [now apply better_asym|apply better_irrefl].
  - intros H. destruct (better_total a b) as [?|[?|?]]; auto. contradiction.
Qed.
Lemma nb_trans a b c : ~ better b a -> ~ better c b -> ~ better c a.
Proof.
  intros H1 H2 H3. destruct (better_total a b) as [Q|[->|Q]]; [|contradiction|contradiction]. apply H2. exact (CompareFacts.better_trans _ _ _ H3 Q).
Qed.

Lemma pgen_neighbor_ok nb lbX lbf n m : nb <> [] -> length lbX = n -> length lbf = n -> (forall f, In f lbf -> length f = S m) -> (forall j, In j nb -> (0 <= j < Z.of_nat n)%Z) ->
  exists k x f, pgen_best_neighbor nb lbX lbf = Ok x /\ In k nb /\ nth_error lbX (Z.to_nat k) = Some x /\ nth_error lbf (Z.to_nat k) = Some f /\
    (forall j g, In j nb -> nth_error lbf (Z.to_nat j) = Some g -> ~ better (obj g) (obj f)).
Proof.
  intros NE LX LF L1 HR. destruct nb as [|b0 tl]; [congruence|]. unfold pgen_best_neighbor. cbn [vget nth_error bind List.tl].
  assert (O : forall f, In f lbf -> vget f 0 = Ok (obj f)) by (intros f Hf; specialize (L1 f Hf); destruct f; [discriminate|reflexivity]).
  assert (K : forall l b fb, (forall j, In j l -> (0 <= j < Z.of_nat n)%Z) -> (0 <= b < Z.of_nat n)%Z -> nth_error lbf (Z.to_nat b) = Some fb ->
     exists k f, mfold (fun b k => bind (vgetz lbf k) (fun fk => bind (vget fk 0) (fun a => bind (vgetz lbf b) (fun fb => bind (vget fb 0) (fun c => Ok (if not_above a c then k else b)))))) b l = Ok k /\
       (k = b \/ In k l) /\ (0 <= k < Z.of_nat n)%Z /\ nth_error lbf (Z.to_nat k) = Some f /\
       ~ better (obj fb) (obj f) /\ forall j g, In j l -> nth_error lbf (Z.to_nat j) = Some g -> ~ better (obj g) (obj f)).
  { induction l as [|j l IH]; intros b fb Hl Hb Eb.
    - exists b, fb. split; [reflexivity|]. split; [auto|]. split; [exact Hb|]. split; [exact Eb|]. split; [apply better_irrefl|intros j g []].
    - cbn [mfold]. destruct (vgetz_ok lbf j) as (fj & E1 & Nj); [rewrite LF; apply Hl; now left|]. destruct (vgetz_ok lbf b) as (fb' & E2 & Nb); [lia|]. assert (fb' = fb) by congruence. subst fb'.
      rewrite E1. cbn [bind]. rewrite (O fj) by (eapply nth_error_In; eauto). cbn [bind]. rewrite E2. cbn [bind]. rewrite (O fb) by (eapply nth_error_In; eauto). cbn [bind].
      destruct (not_above (obj fj) (obj fb)) eqn:D.
      + destruct (IH j fj) as (k & f & EQ & IN & R & Ef & M1 & M2); [intros; apply Hl; now right|apply Hl; now left|exact Nj|]. exists k, f. split; [exact EQ|]. split; [destruct IN as [->|]; [right; now left|right; now right]|]. split; [exact R|]. split; [exact Ef|].
        apply not_above_iff in D. split; [eapply nb_trans; eauto|]. intros j' g [<-|Hj] Eg; [assert (g = fj) by congruence; subst g; exact M1|now apply (M2 j')].
      + destruct (IH b fb) as (k & f & EQ & IN & R & Ef & M1 & M2); [intros; apply Hl; now right|exact Hb|exact Eb|]. exists k, f. split; [exact EQ|]. split; [destruct IN as [->|]; [now left|right; now right]|]. split; [exact R|]. split; [exact Ef|].
        split; [exact M1|]. intros j' g [<-|Hj] Eg; [assert (g = fj) by congruence; subst g|now apply (M2 j')].
        apply (nb_trans _ (obj fb)); [exact M1|]. apply better_asym. destruct (better_dec (obj fb) (obj fj)) as [Q|Q]; [exact Q|]. apply not_above_iff in Q. congruence. }
  destruct (vgetz_ok lbf b0) as (f0 & _ & N0); [rewrite LF; apply HR; now left|].
  destruct (K tl b0 f0) as (k & f & -> & IN & R & Ef & M1 & M2); [intros; apply HR; now right|apply HR; now left|exact N0|]. cbn [bind].
  destruct (vgetz_ok lbX k) as (x & E & Nx); [lia|]. exists k, x, f. split; [exact E|]. split; [destruct IN as [->|]; [now left|now right]|]. split; [exact Nx|]. split; [exact Ef|].
  intros j g [<-|Hj] Eg; [assert (g = f0) by congruence; subst g; exact M1|now apply (M2 j)].
Qed.

(** best_neighb after a new seed: a position of the swarm with the best value *)
Lemma pgen_best_ok X fs m : length fs = length X -> X <> [] -> (forall f, In f fs -> length f = S m) ->
  exists q x f, pgen_best X fs = Ok (x, f) /\ nth_error X q = Some x /\ nth_error fs q = Some f /\ forall j g, nth_error fs j = Some g -> ~ better (obj g) (obj f).
Proof.
  intros L NE LF. assert (O : forall f, In f fs -> vget f 0 = Ok (obj f)) by (intros f Hf; specialize (LF f Hf); destruct f; [discriminate|reflexivity]).
  unfold pgen_best. assert (0 < length X) by (destruct X; [congruence|cbn; lia]).
  destruct (vget_in_range fs 0 ltac:(lia)) as (f0 & -> & N0). destruct (vget_in_range X 0 ltac:(lia)) as (x0 & -> & M0). cbn [bind].
  assert (K : forall k a q x f, a + k <= length X -> nth_error X q = Some x -> nth_error fs q = Some f -> (forall j g, j < a -> nth_error fs j = Some g -> ~ better (obj g) (obj f)) ->
    exists q x' f', mfold (fun b q => bind (vget fs q) (fun f => bind (vget f 0) (fun v => bind (vget (snd b) 0) (fun w => if less_than_f v w then bind (vget X q) (fun x => Ok (x, f)) else Ok b)))) (x, f) (seq a k) = Ok (x', f') /\
      nth_error X q = Some x' /\ nth_error fs q = Some f' /\ forall j g, j < a + k -> nth_error fs j = Some g -> ~ better (obj g) (obj f')).
  { induction k as [|k IH]; intros a q x f Hk Nx Nf HB.
    - exists q, x, f. rewrite Nat.add_0_r. split; [reflexivity|]. auto.
    - cbn [seq mfold]. destruct (vget_in_range fs a ltac:(lia)) as (fa & -> & Na). destruct (vget_in_range X a ltac:(lia)) as (xa & Ea & Nxa). cbn [bind snd].
      rewrite (O fa), (O f) by (eapply nth_error_In; eauto). cbn [bind]. destruct (less_than_f (obj fa) (obj f)) eqn:D.
      + rewrite Ea. cbn [bind]. apply less_than_f_spec in D. destruct (IH (S a) a xa fa) as (q' & x' & f' & A & B & C & H'); [lia|exact Nxa|exact Na| |].
        { intros j g Hj Ng. destruct (Nat.eq_dec j a) as [->|N]; [rewrite Na in Ng; injection Ng as <-; apply better_irrefl|]. apply (nb_trans _ (obj f)); [now apply better_asym|]. apply (HB j); [lia|exact Ng]. }
        exists q', x', f'. split; [exact A|]. split; [exact B|]. split; [exact C|]. intros j g Hj. apply H'. lia.
      + apply ltf_false in D. destruct (IH (S a) q x f) as (q' & x' & f' & A & B & C & H'); [lia|exact Nx|exact Nf| |].
        { intros j g Hj Ng. destruct (Nat.eq_dec j a) as [->|N]; [rewrite Na in Ng; injection Ng as <-; exact D|]. apply (HB j); [lia|exact Ng]. }
        exists q', x', f'. split; [exact A|]. split; [exact B|]. split; [exact C|]. intros j g Hj. apply H'. lia. }
  destruct (K (length X - 1) 1 0 x0 f0 ltac:(lia) M0 N0) as (q & x & f & A & B & C & H'); [intros j g Hj Ng; assert (j = 0) by lia; subst j; rewrite N0 in Ng; injection Ng as <-; apply better_irrefl|].
  exists q, x, f. split; [exact A|]. split; [exact B|]. split; [exact C|]. intros j g Ng. apply (H' j); [|exact Ng]. assert (j < length fs) by (apply nth_error_Some; congruence). lia.
Qed.

(** Loops over the particles *)
Lemma always_seq {G T} (f : T -> nat -> RM G T) (I : nat -> T -> Prop) E n : forall a t, I a t -> (forall i t, a <= i < a + n -> I i t -> always (f t i) (I (S i)) E) -> always (rfold f t (seq a n)) (I (a + n)) E.
Proof.
  induction n as [|n IH]; intros a t H0 HS; cbn [seq rfold]; [apply always_ret; now rewrite Nat.add_0_r|].
  eapply always_bind; [apply HS; [lia|exact H0]|]. intros t' Ht. rewrite <- Nat.add_succ_comm. apply IH; [exact Ht|]. intros i u Hi. apply HS. lia.
Qed.
Lemma mfold_seq {T} (f : T -> nat -> outcome T) (I : nat -> T -> Prop) n : forall a t, I a t -> (forall i t, a <= i < a + n -> I i t -> exists t', f t i = Ok t' /\ I (i + 1) t') -> exists t', mfold f t (seq a n) = Ok t' /\ I (a + n) t'.
Proof.
  induction n as [|n IH]; intros a t H0 HS; cbn [seq mfold]; [exists t; rewrite Nat.add_0_r; auto|].
  destruct (HS a t ltac:(lia) H0) as (t1 & -> & H1). cbn [bind]. rewrite <- Nat.add_succ_comm. apply IH; [now rewrite Nat.add_1_r in H1|]. intros i u Hi. apply HS. lia.
Qed.

(** Evaluation *)
Section Ev.
Context {G P : Type} (bfe : option (problem -> list dbl -> outcome (list dbl))) (q : problem) (PO : prob_obj q) (NC : get_nc q = 0) (NF : get_nf q = 1).

Lemma batch1 ud tmp F (g : G) (po : pop P) : faithful_bfe ud q -> po_prob po = q -> Forall2 (evaluated q) tmp F -> nsga2_eval_batch ud tmp (g, po) = (Ok F, (g, with_fevals po (wrap64 (po_fevals po + Z.of_nat (length tmp))))).
Proof.
  intros FB EP EV. assert (NO : p_nobj q = get_nf q) by (unfold get_nf, get_nc in *; lia). unfold nsga2_eval_batch, rbind, getp, nsga2_call. cbn [fst snd]. rewrite EP.
  assert (LX : forall x, In x tmp -> length x = get_nx q) by (intros x Hx; apply In_nth_error in Hx; destruct Hx as (i & Hi); destruct (nth_ex F i) as (f & Nf); [rewrite <- (Forall2_len _ _ _ EV); apply nth_error_Some; congruence|]; destruct (Forall2_at _ _ _ EV i x f Hi Nf) as (H & _); exact H).
  assert (LF : forall f, In f F -> length f = get_nf q) by (intros f Hf; apply In_nth_error in Hf; destruct Hf as (i & Hi); destruct (nth_ex tmp i) as (x & Nx); [rewrite (Forall2_len _ _ _ EV); apply nth_error_Some; congruence|]; destruct (Forall2_at _ _ _ EV i x f Nx Hi) as (_ & H & _); exact H).
  assert (NX : 0 < get_nx q) by (pose proof (prob_obj_bounds q PO) as (H & _); destruct (prob_obj_lens q PO) as [L _]; destruct (p_lb q); [congruence|cbn in L; lia]).
  destruct (bfe_call ud q (po_fevals po) (concat tmp)) as [o c] eqn:BC. destruct (bfe_call_spec ud q _ _ o c NX ltac:(lia) BC) as (S1 & S2 & _).
  assert (BA : is_batch (get_nx q) (length tmp) (concat tmp)) by (unfold is_batch; now apply concat_len).
  assert (EO : o = Ok (concat F)). { apply S1. exists (length tmp). split; [exact BA|]. split; [now apply FB|]. unfold is_batch. rewrite (Forall2_len _ _ _ EV). now apply concat_len. }
  rewrite (S2 _ BA), EO. unfold rlift. rewrite NO, (Forall2_len _ _ _ EV). pose proof (sub_vectors (get_nf q) F [] LF) as SV. cbn [app length Nat.add] in SV. rewrite SV. reflexivity.
Qed.
Lemma evals_batch (po : pop P) k : evals k po (with_fevals po (wrap64 (po_fevals po + Z.of_nat k))).
Proof. unfold evals. cbn [po_fevals with_fevals]. pose proof (wrap64_add (po_fevals po + Z.of_nat k) 0) as H. rewrite !Z.add_0_r in H. exact H. Qed.
(** The population after evaluations is the one before but for the counter. *)
Definition only_evals (k : nat) (s s' : G * pop P) : Prop := evals k (snd s) (snd s') /\ exists c, snd s' = with_fevals (snd s) c.
Lemma only_0 s : only_evals 0 s s.
Proof. split; [apply evals_0|]. exists (po_fevals (snd s)). destruct (snd s); reflexivity. Qed.
Lemma only_trans j k s1 s2 s3 : only_evals j s1 s2 -> only_evals k s2 s3 -> only_evals (j + k) s1 s3.
Proof. intros (A & c & E) (B & d & F). split; [eapply evals_trans; eauto|]. exists d. rewrite F, E. reflexivity. Qed.
Lemma only_prob k s1 s2 : only_evals k s1 s2 -> po_prob (snd s2) = po_prob (snd s1).
Proof. intros (_ & c & ->). reflexivity. Qed.
Lemma ends_rmap_n {Q A B} (f : A -> RM Q B) (J : nat -> Q -> Prop) (R : A -> B -> Prop) E st l : (forall x s k, In x l -> J k s -> ends (f x) s (fun b s' => J (st + k) s' /\ R x b) E) ->
  forall s k, J k s -> ends (rmap f l) s (fun bs s' => J (st * length l + k) s' /\ Forall2 R l bs) E.
Proof.
  induction l as [|x l IH]; intros H s k HJ; cbn [rmap]; [apply ends_ret; rewrite Nat.mul_0_r; split; [exact HJ|constructor]|].
  apply ends_bind. eapply ends_weak; [apply H; [now left|exact HJ]| |intros e He; exact He]. intros b s' (J1 & Rb). cbv beta. apply ends_bind. eapply ends_weak; [apply IH; [intros; apply H; [now right|assumption]|exact J1]| |intros e He; exact He].
  intros bs s'' (J2 & Rs). apply ends_ret. split; [|now constructor]. cbn [length]. replace (st * S (length l) + k) with (st * length l + (st + k)) by lia. exact J2.
Qed.
Lemma peval_only x (s0 s : G * pop P) k : evaluates None q -> po_prob (snd s0) = q -> only_evals k s0 s -> length x = get_nx q -> ends (peval x) s (fun f s' => only_evals (1 + k) s0 s' /\ evaluated q x f) (fitness_throws q).
Proof.
  intros FD EP O Lx. apply (ends_peval q); [rewrite (only_prob _ _ _ O); exact EP|exact FD|exact Lx|auto|]. intros f Ef. split; [|exact Ef]. replace (1 + k) with (k + 1) by lia. eapply only_trans; [exact O|]. split; cbn [snd]; [|eexists; reflexivity]. change 1%Z with (Z.of_nat 1). apply evals_batch.
Qed.
Lemma mgen_eval_only xs (s : G * pop P) : evaluates bfe q -> po_prob (snd s) = q -> (forall x, In x xs -> length x = get_nx q) ->
  ends (mgen_eval bfe xs) s (fun fs s' => only_evals (length xs) s s' /\ Forall2 (evaluated q) xs fs) (fitness_throws q).
Proof.
  intros EV EP HX. unfold mgen_eval. destruct bfe as [ud|].
  - destruct EV as [TF FB]. destruct (total_all q xs TF HX) as (F & EF). destruct s as [g po]. cbn [snd] in EP. unfold ends_w. rewrite (batch1 ud xs F g po FB EP EF). split; [|exact EF]. split; cbn [snd]; [apply evals_batch|eexists; reflexivity].
  - eapply ends_weak; [apply (ends_rmap_n peval (fun k s' => only_evals k s s') (evaluated q) (fitness_throws q) 1 xs) with (k := 0)| |intros e He; exact He].
    + intros x s' k Hx O. apply peval_only; auto.
    + apply only_0.
    + intros fs s' (O & F). rewrite Nat.mul_1_l, Nat.add_0_r in O. auto.
Qed.
Lemma eval_both_only xs ys (s : G * pop P) : evaluates bfe q -> po_prob (snd s) = q -> (forall x, In x xs -> length x = get_nx q) -> (forall x, In x ys -> length x = get_nx q) -> length ys = length xs ->
  ends (pgen_eval_both bfe xs ys) s (fun e s' => only_evals (2 * length xs) s s' /\ Forall2 (evaluated q) xs (fst e) /\ Forall2 (evaluated q) ys (snd e)) (fitness_throws q).
Proof.
  intros EV EP HX HY LL. unfold pgen_eval_both. destruct bfe as [ud|] eqn:EB.
  - apply ends_bind. rewrite <- EB in EV. pose proof (mgen_eval_only xs s EV EP HX) as M1. unfold mgen_eval in M1. rewrite EB in M1. eapply ends_weak; [exact M1| |auto]. intros fs s1 (O1 & F1). cbv beta. apply ends_bind.
    pose proof (mgen_eval_only ys s1 EV ltac:(rewrite (only_prob _ _ _ O1); exact EP) HY) as M2. unfold mgen_eval in M2. rewrite EB in M2. eapply ends_weak; [exact M2| |auto]. intros gs s2 (O2 & F2). apply ends_ret. cbn [fst snd]. split; [|auto].
    replace (2 * length xs) with (length xs + length ys) by lia. eapply only_trans; eauto.
  - apply ends_bind. eapply ends_weak; [apply (ends_rmap_n _ (fun k s' => only_evals k s s') (fun c e => evaluated q (fst c) (fst e) /\ evaluated q (snd c) (snd e)) (fitness_throws q) 2 (combine xs ys)) with (k := 0)| |auto].
    + intros [x y] s1 k Hc O. cbn [fst snd]. apply ends_bind. eapply ends_weak; [apply (peval_only x s s1 k EV EP O); apply HX; eapply in_combine_l; eauto| |auto]. intros f s2 (O2 & F2). cbv beta. apply ends_bind.
      eapply ends_weak; [apply (peval_only y s s2 (1 + k) EV EP O2); apply HY; eapply in_combine_r; eauto| |auto]. intros g s3 (O3 & F3). apply ends_ret. cbn [fst snd]. auto.
    + apply only_0.
    + intros bs s' (O & F). apply ends_ret. rewrite Nat.add_0_r, combine_length, LL, Nat.min_id in O. split; [exact O|]. cbn [fst snd]. clear -F LL. revert ys LL bs F. induction xs as [|x xs IH]; intros [|y ys] LL bs F; try discriminate; inversion F as [|? b ? bs' Hb Hr]; subst; cbn [map]; [split; constructor|].
      cbn in LL. destruct (IH ys ltac:(lia) bs' Hr) as [A B]. destruct Hb. split; constructor; auto.
Qed.
End Ev.
