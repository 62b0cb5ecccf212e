From Coq Require Import List Bool Arith ZArith Lia Permutation.
From Verif Require Import Dbl DblFacts Outcome BaseFacts StdSort SpecOrder Compare CompareFacts Problem SpecProblem ProblemFacts Rng Generic
  Constrained SpecConstrained ConstrainedFacts ConstrainedFacts2 Population SpecPopulation PopulationFacts PopulationFacts3 Algo SpecAlgo AlgoFacts AlgoFacts2 NotPop SpecLocal SpecHarmony AlgCompass AlgCompassFacts AlgPsoFacts4 AlgCstrs SpecCstrs AlgCstrsFacts AlgCstrsFacts2.
Import ListNotations.

(** ** Rejections *)
Lemma cstrs_rejects {P} dexp srt alg iters (s : pen * pop P) :
  p_nobj (po_prob (snd s)) <> 1 \/ u_set_seed (p_udp (po_prob (snd s))) = true \/ get_nc (po_prob (snd s)) = 0 \/ length (po_id (snd s)) < 4 ->
  fst (cstrs_evolve dexp srt alg iters s) = Throw InvalidArgument.
Proof.
  intros H. unfold cstrs_evolve, rbind at 1, getp. cbn [fst snd].
  destruct (Nat.eqb_spec (p_nobj (po_prob (snd s))) 1) as [E|N]; cbn [negb]; [|reflexivity].
  destruct (u_set_seed _) eqn:ES; [reflexivity|]. destruct (Nat.eqb_spec (get_nc (po_prob (snd s))) 0); [reflexivity|]. destruct (Nat.ltb_spec (length (po_id (snd s))) 4); [reflexivity|].
  destruct H as [H|[H|[H|H]]]; try contradiction; [discriminate H|lia].
Qed.

(** ** Never worse *)
Section N.
Context {P : Type}.
Lemma rounds_facts (s : pop P) n s' : cstrs_rounds s n s' -> valid_pop s' -> po_prob s' = po_prob s /\ po_id s' = po_id s /\ forall f, In f (po_f s') -> In f (po_f s) \/ exists x, evaluated (po_prob s) x f.
Proof.
  intros R. induction R as [|n s1 new s2 R IH V1 RD]; intros V; [repeat split; auto|]. destruct (IH V1) as (E1 & E2 & H). pose proof RD as (A1 & A2 & _).
  split; [congruence|]. split; [congruence|]. apply (round_f (po_prob s) (po_f s) new s1 s2 E1); [destruct V as (_ & (M1 & M2 & _) & _); lia|exact RD|exact H].
Qed.
Lemma fc_total p f g : prob_obj p -> length f = get_nf p -> length g = get_nf p -> (preferred p f g <-> fc_lt (p_nec p) (p_ctol p) f g = true).
Proof.
  intros PO Lf Lg. unfold preferred, fc_lt. destruct (compare_fc f g (p_nec p) (p_ctol p)) as [b|e| |]; split; intros X; try discriminate X; try congruence.
Qed.
Lemma rounds_best (s : pop P) n s' f f' : valid_pop s -> 0 < get_nc (po_prob s) -> rankable (po_prob s) (po_f s) -> cstrs_rounds s n s' -> valid_pop s' -> unbeaten s f -> unbeaten s' f' -> ~ preferred (po_prob s) f f'.
Proof.
  intros V NC RK R. revert f'. induction R as [|n s1 new s2 R IH V1 RD]; intros f' V2 U U'; [apply U', U|].
  pose proof RD as (A1 & A2 & _ & _ & _ & HM & x & g & Hs & UG & Hg). destruct (rounds_facts s n s1 R V1) as (E1 & _ & HF).
  specialize (IH g V1 U UG). pose proof (proj2 U' g (proj2 (has_in _ _ _ Hg))) as N2. rewrite A1, E1 in N2.
  destruct (rounds_facts s (S n) s2 (rounds_more s n s1 new s2 R V1 RD) V2) as (_ & _ & HF2).
  assert (SW : strict_weak_on (fc_lt (p_nec (po_prob s)) (p_ctol (po_prob s))) [f; g; f']).
  { apply RK; [exact NC|]. intros h [<-|[<-|[<-|[]]]]; [left; apply U|apply HF, UG|apply HF2, U']. }
  intros PR. unfold preferred in *. assert (T : fc_lt (p_nec (po_prob s)) (p_ctol (po_prob s)) f f' = false); [|unfold fc_lt in T; rewrite PR in T; discriminate T].
  apply (negtrans _ f g f' _ SW); [now left|right; now left|right; right; now left| |].
  - unfold fc_lt. destruct (compare_fc f g _ _) as [[|]|e| |]; try reflexivity. exfalso. apply IH. reflexivity.
  - unfold fc_lt. destruct (compare_fc g f' _ _) as [[|]|e| |]; try reflexivity. exfalso. apply N2. reflexivity.
Qed.
End N.

(** ** A point that was not evaluated *)
Section V.
Context {P : Type} (dexp : dbl -> dbl) (srt : sorter).
Lemma back_ub (s0 : pop P) (V : valid_pop s0) (NO : p_nobj (po_prob s0) = 1) g Y i : i < length (po_id s0) -> (forall y, nth_error Y i = Some y -> ~ In y (map fst (pn_map g))) ->
  (forall x f, In (x, f) (pn_map g) -> length x = get_nx (po_prob s0) /\ length f = get_nf (po_prob s0)) ->
  forall a n (s : pen * pop P), fst s = g -> valid_pop (snd s) -> po_prob (snd s) = po_prob s0 -> po_id (snd s) = po_id s0 -> a <= i < a + n -> a + n <= length (po_id s0) ->
  fst (rfold (fun (_ : unit) i => cstrs_back Y i) tt (seq a n) s) = UB.
Proof.
  intros Hi NY HM a n. revert a. induction n as [|n IH]; intros a s EG VS EP EI HA HN; [lia|]. cbn [seq rfold].
  destruct (Nat.eq_dec a i) as [->|NE].
  - apply ub_first. unfold cstrs_back, rbind at 1, rlift at 1. destruct (nth_error Y i) as [y|] eqn:E; [|unfold vget; rewrite E; reflexivity].
    rewrite (proj2 (vget_ok Y i y) E). cbn [getg rbind]. unfold rbind, getg. rewrite EG. rewrite (proj2 (cache_find_none (pn_map g) y) (NY y eq_refl)). reflexivity.
  - unfold cstrs_back at 1. unfold rbind at 1. unfold rbind at 1. unfold rlift at 1. destruct (nth_error Y a) as [y|] eqn:E; [|unfold vget; rewrite E; reflexivity].
    rewrite (proj2 (vget_ok Y a y) E). unfold rbind at 1. unfold getg at 1. rewrite EG. destruct (cache_find (pn_map g) y) as [f|] eqn:CF; [|reflexivity].
    apply cache_find_some in CF. destruct (HM y f CF) as [Ly Lf].
    destruct (set_xf_valid (snd s) a y f VS) as (c & ES & _ & V'); [rewrite EI; lia|now rewrite EP|now rewrite EP|].
    unfold pset at 1. rewrite ES. apply IH; cbn [fst snd]; auto; lia.
Qed.
Lemma unseen_ub alg iters (s : pen * pop P) Y i : sort_contract srt -> valid_pop (snd s) -> p_nobj (po_prob (snd s)) = 1 -> 0 < get_nc (po_prob (snd s)) -> u_set_seed (p_udp (po_prob (snd s))) = false ->
  4 <= length (po_id (snd s)) -> strict_weak_on (fc_lt (p_nec (po_prob (snd s))) (p_ctol (po_prob (snd s)))) (po_f (snd s)) -> fitness_defined (po_prob (snd s)) ->
  0 < iters -> (forall X F, alg 1 X F = IRet Y) -> i < length (po_id (snd s)) -> (forall y, nth_error Y i = Some y -> ~ In y (po_x (snd s))) ->
  fst (cstrs_evolve dexp srt alg iters s) = UB.
Proof.
  destruct s as [g0 s]. cbn [snd]. intros SC V NO NC ST N4 SW FD IT HA Hi HY. pose proof V as (PO & (L1 & L2 & Fx & Ff & _) & _).
  assert (RKD : ranked srt s) by (intros _; auto).
  assert (NE : po_id s <> []) by (intros X; rewrite X in N4; cbn in N4; lia).
  destruct (best_worst srt s V NO NC NE RKD) as (b & w & bx & bf & Eb & Ew & Hw & Nx & Nf & UBN).
  assert (LFs : forall f, In f (po_f s) -> length f = Datatypes.S (get_nc (po_prob s))) by (intros f Hf; destruct (lenf (po_prob s) s V eq_refl f Hf); [assumption|contradiction]).
  destruct (update_ok (po_prob s) PO (po_x s) (po_f s) LFs ltac:(lia)) as (g & Eg & Lg & Mg).
  assert (LXF : length (po_x s) = length (po_f s)) by lia.
  assert (K0 : knows (po_prob s) s [] (g, s)).
  { split; [destruct s; reflexivity|]. split; [cbn [fst]; exact Lg|]. cbn [fst snd]. rewrite Mg. split; [|split; [|split; [constructor|split; [intros x []|apply evals_0]]]].
    - intros x. rewrite map_rev, <- in_rev, fst_combine by exact LXF. cbn. tauto.
    - intros x f Hc. left. apply has_combine. now apply in_rev. }
  assert (HS : forall i, In i (seq 0 (length (po_x s))) -> i < length (po_x s)) by (intros k Hk; apply in_seq in Hk; lia).
  pose proof (refresh_ends dexp (po_prob s) FD s V eq_refl NO [] (g, s) (seq 0 (length (po_x s))) K0 HS) as RF.
  unfold cstrs_evolve. unfold rbind at 1. unfold getp at 1. cbn [snd]. rewrite NO. change (1 =? 1) with true. cbn [negb]. rewrite ST.
  destruct (Nat.eqb_spec (get_nc (po_prob s)) 0); [lia|]. destruct (Nat.ltb_spec (length (po_id s)) 4); [lia|].
  unfold rbind at 1. unfold rlift at 1. rewrite Eg. unfold rbind at 1. unfold setg at 1. cbn [snd]. replace (length (po_id s)) with (length (po_x s)) by lia.
  eapply ub_bind; [exact RF|]. intros XF s1 [-> _]. apply ub_first. destruct iters as [|iters]; [lia|]. cbn [seq rfold]. apply ub_first.
  unfold cstrs_iter. unfold rbind at 1. unfold getp at 1. cbn [snd]. unfold rbind at 1. unfold rlift at 1. rewrite Eb. unfold rbind at 1. unfold rlift at 1. rewrite (proj2 (vget_ok _ _ _) Nx).
  unfold rbind at 1. unfold rlift at 1. rewrite (proj2 (vget_ok _ _ _) Nf). unfold rbind at 1. unfold rlift at 1. rewrite Ew. unfold rbind at 1. unfold rlift at 1. rewrite Eg.
  unfold rbind at 1. unfold setg at 1. cbn [snd]. eapply ub_bind; [exact RF|]. intros XF2 s1 [-> _].
  rewrite HA. cbn [inner_run]. unfold rbind at 1. unfold rret at 1. apply ub_first.
  apply (back_ub s V NO g Y i Hi); [|intros x f Hx|reflexivity|exact V|reflexivity|reflexivity|lia|lia].
  - intros y Ey IN. destruct K0 as (_ & _ & K3 & _). apply K3 in IN. destruct IN as [[]|IN]. now apply (HY y Ey).
  - destruct K0 as (_ & _ & _ & K4 & _). destruct (K4 x f Hx) as [Hh|[[] _]]. apply has_in in Hh. destruct Hh. auto.
Qed.
End V.
