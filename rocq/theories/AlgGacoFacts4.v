From Coq Require Import List Bool Arith ZArith Lia Permutation.
From Verif Require Import Dbl DblFacts IntDbl Outcome StdSort BaseFacts Compare CompareFacts Constrained SpecConstrained ConstrainedFacts Problem SpecProblem ProblemFacts2 Rng SpecGeneric SpecGenetic SpecHarmony Generic GeneticOps GeneticFacts Population SpecPopulation PopulationFacts PopulationFacts3 SpecAlgo RmFacts
  Algo SpecSga AlgSga AlgSgaFacts3 AlgDe AlgNsga2 SpecNsga2 AlgNsga2Facts5 AlgGaco AlgoFacts AlgoFacts2 AlgIhsFacts2 AlgPsoFacts3 AlgPsoFacts4 AlgGacoFacts AlgGacoFacts2 AlgGacoFacts3.
Import ListNotations.

Section K.
Context {G P : Type}.
Lemma ends_draws {A} (m : RM G A) (s : (G * ants) * pop P) (Q1 : A -> Prop) (Q : A -> (G * ants) * pop P -> Prop) E :
  always m Q1 E -> (forall v g, Q1 v -> Q v ((g, snd (fst s)), snd s)) -> ends (draws m) s Q E.
Proof. intros H K. unfold ends_w, draws. specialize (H (fst (fst s))). destruct (m (fst (fst s))) as [[v|e| |] g]; cbn [fst] in H; auto; contradiction. Qed.
Lemma ends_getk (s : (G * ants) * pop P) (Q : ants -> (G * ants) * pop P -> Prop) E : Q (snd (fst s)) s -> ends getk s Q E.
Proof. exact (fun H => H). Qed.
Lemma ends_setk k (s : (G * ants) * pop P) (Q : unit -> (G * ants) * pop P -> Prop) E : Q tt ((fst (fst s), k), snd s) -> ends (setk k) s Q E.
Proof. exact (fun H => H). Qed.
Lemma ends_okp {S A} (o : outcome A) (s : S) (Q1 : A -> Prop) (Q : A -> S -> Prop) E : okp o Q1 -> (forall v, Q1 v -> Q v s) -> ends (rlift o) s Q E.
Proof. intros (v & -> & H) K. apply ends_lift. now apply K. Qed.

Definition has_champion (s : pop P) : Prop := po_cx s <> [].
Lemma champion_kept p cx cf x f c : cx <> [] -> x <> [] -> update_champion p cx cf x f = Ok c -> fst c <> [].
Proof.
  intros HC HX H. unfold update_champion in H. destruct (negb _); [injection H as <-; exact HC|]. destruct (Nat.eqb _ 0); [injection H as <-; exact HX|]. destruct (Nat.eqb (get_nc p) 0).
  - destruct (vget f 0); cbn [bind] in H; try discriminate. destruct (vget cf 0); cbn [bind] in H; try discriminate. injection H as <-. destruct (less_than_f _ _); assumption.
  - destruct (compare_fc _ _ _ _) as [[|]| | |]; cbn [bind] in H; try discriminate; injection H as <-; assumption.
Qed.
End K.

Section S.
Context {G P : Type} (p : problem) (PO : prob_obj p) (bfe : option (problem -> list dbl -> outcome (list dbl))).
Context (BF : match bfe with None => fitness_defined p | Some ud => total_fitness p /\ faithful_bfe ud p end).
Notation ST := ((G * ants) * pop P)%type.
(** the population of the ants [new] *)
Definition pop_of (s0 s : pop P) (new : list (list dbl)) (n : nat) : Prop :=
  valid_pop s /\ po_prob s = p /\ po_id s = po_id s0 /\ has_champion s /\
  forall i x f, i < n -> nth_error (po_x s) i = Some x -> nth_error (po_f s) i = Some f -> nth_error new i = Some x /\ evaluated p x f.
Lemma nx_pos : 0 < get_nx p.
Proof. pose proof (prob_obj_bounds p PO) as (H & _). destruct (prob_obj_lens p PO) as [L _]. destruct (p_lb p); [congruence|cbn in L; lia]. Qed.
Lemma pop_of_set s0 s new n x f c : pop_of s0 s new n -> nth_error new n = Some x -> n < length (po_id s) -> evaluated p x f -> update_champion (po_prob s) (po_cx s) (po_cf s) x f = Ok c -> valid_pop (setp s n x f c) ->
  pop_of s0 (setp s n x f c) new (n + 1).
Proof.
  intros (V & EP & EI & HC & H) Nx Hn EV UC V'. split; [exact V'|]. split; [exact EP|]. split; [exact EI|]. pose proof V as (_ & (L1 & L2 & _) & _). split.
  - eapply champion_kept; [exact HC| |exact UC]. intros ->. destruct EV as (L & _). cbn in L. pose proof nx_pos. lia.
  - intros i y g Hi Ny Ng. cbn [setp po_x po_f] in Ny, Ng. destruct (Nat.eq_dec i n) as [->|N].
    + rewrite upd_same in Ny by lia. rewrite upd_same in Ng by lia. injection Ny as <-. injection Ng as <-. auto.
    + rewrite upd_other in Ny, Ng by exact N. apply H; [lia|exact Ny|exact Ng].
Qed.
Lemma set_ants_ok new (s : ST) : valid_pop (snd s) -> po_prob (snd s) = p -> has_champion (snd s) -> length new = length (po_id (snd s)) -> (forall x, In x new -> length x = get_nx p) ->
  ends (set_ants bfe new) s (fun _ t => fst t = fst s /\ pop_of (snd s) (snd t) new (length new) /\ evals (length new) (snd s) (snd t)) (fitness_throws p).
Proof.
  intros V EP HC LN LX. unfold set_ants. apply ends_bind, ends_getp. destruct bfe as [ud|].
  - destruct BF as (TF & FB).
    assert (EF : exists F, Forall2 (evaluated p) new F).
    { clear - TF LX. induction new as [|x l IH]; [exists []; constructor|]. destruct IH as (F & HF); [intros; apply LX; now right|]. destruct (TF x (LX x (or_introl eq_refl))) as (f & Hf). exists (f :: F). now constructor. }
    destruct EF as (F & EV). pose proof (F2_len _ _ _ EV) as LF.
    assert (LFs : forall f, In f F -> length f = get_nf p). { intros f Hf. apply In_nth_error in Hf. destruct Hf as (i & Hi). destruct (F2_nth _ _ _ EV i f Hi) as (x & _ & (_ & H & _)). exact H. }
    apply ends_bind. unfold ends_w at 1, nsga2_call. rewrite EP.
    destruct (bfe_call ud p (po_fevals (snd s)) (concat new)) as [o c] eqn:BC.
    assert (NF : 0 < get_nf p) by (destruct (prob_obj_facts p PO) as (_ & H & _ & E); unfold get_nf in *; lia).
    destruct (bfe_call_spec ud p _ _ o c nx_pos NF BC) as (S1 & S2 & _).
    assert (BA : is_batch (get_nx p) (length new) (concat new)) by (unfold is_batch; now apply concat_len).
    assert (EO : o = Ok (concat F)). { apply S1. exists (length new). split; [exact BA|]. split; [now apply FB|]. unfold is_batch. rewrite LF. now apply concat_len. }
    rewrite (S2 _ BA), EO. set (s1 := (fst s, with_fevals (snd s) _)).
    pose proof (sub_vectors (get_nf p) F [] LFs) as SV. cbn [app length Nat.add] in SV.
    eapply ends_weak; [apply (ends_seq _ (fun i _ t => fst t = fst s /\ pop_of (snd s) (snd t) new i /\ po_fevals (snd t) = po_fevals (snd s1)) (fitness_throws p))| |auto].
    + split; [reflexivity|]. split; [|reflexivity]. split; [exact V|]. split; [exact EP|]. split; [reflexivity|]. split; [exact HC|]. intros; lia.
    + intros i [] t Hi (E1 & PP & E2). destruct (nth_ex new i) as (x & Nx); [lia|]. destruct (nth_ex F i) as (f & Nf); [lia|].
      apply ends_bind. apply ends_lift_ok with (a := x); [unfold vget; now rewrite Nx|]. apply ends_bind. apply ends_lift_ok with (a := f).
      { assert (HH : mmap (fun i => sub_vector (concat F) (i * get_nf p) (get_nf p)) (seq 0 (length F)) = Ok F) by exact SV. clear - HH Nf.
        assert (GEN : forall (h : nat -> outcome (list dbl)) l F' j f', mmap h l = Ok F' -> nth_error F' j = Some f' -> exists n, nth_error l j = Some n /\ h n = Ok f').
        { intros h. induction l as [|n l IH]; intros F' j f' M N; [injection M as <-; destruct j; discriminate|]. cbn [mmap] in M. destruct (h n) as [b| | |] eqn:Eh; cbn [bind] in M; try discriminate.
          destruct (mmap h l) as [bs| | |] eqn:Em; cbn [bind] in M; try discriminate. injection M as <-. destruct j as [|j]; [injection N as <-; exists n; auto|]. exact (IH bs j f' eq_refl N). }
        destruct (GEN _ _ _ _ _ HH Nf) as (n & Nn & Hn). assert (i < length F) by (apply nth_error_Some; congruence). rewrite (nth_error_nth' _ 0) in Nn by (rewrite seq_length; assumption). injection Nn as <-. rewrite seq_nth in Hn by assumption. exact Hn. }
      destruct (F2_nth _ _ _ EV i f Nf) as (x' & Nx' & EVx). assert (x' = x) by congruence. subst x'. pose proof PP as (Vt & Et & It & _). pose proof EVx as (Q1 & Q2 & _).
      apply ends_pset; [exact Vt|rewrite It; lia|congruence|congruence|]. intros cc UC V'. split; [exact E1|]. cbn [snd]. split; [|exact E2].
      apply pop_of_set; auto. rewrite It. lia.
    + intros [] t (E1 & PP & E2). rewrite Nat.add_0_l, <- LN in PP. split; [exact E1|]. split; [exact PP|]. unfold evals. rewrite E2. unfold s1. cbn [snd with_fevals po_fevals]. unfold wrap64. rewrite Zmod_mod. reflexivity.
  - eapply ends_weak; [apply (ends_seq _ (fun i _ t => fst t = fst s /\ pop_of (snd s) (snd t) new i /\ evals i (snd s) (snd t)) (fitness_throws p))| |auto].
    + split; [reflexivity|]. split; [|apply evals_0]. split; [exact V|]. split; [exact EP|]. split; [reflexivity|]. split; [exact HC|]. intros; lia.
    + intros i [] t Hi (E1 & PP & E2). destruct (nth_ex new i) as (x & Nx); [lia|]. pose proof PP as (Vt & Et & It & _). pose proof (LX x (nth_error_In _ _ Nx)) as Lx.
      apply ends_bind. apply ends_lift_ok with (a := x); [unfold vget; now rewrite Nx|]. apply ends_bind. apply (ends_peval p); [exact Et|exact BF|exact Lx|auto|].
      intros f EVx. pose proof EVx as (Q1 & Q2 & _). apply ends_pset; [exact Vt|cbn; rewrite It; lia|cbn; congruence|cbn; congruence|]. intros cc UC V'. split; [exact E1|]. cbn [snd].
      split; [|apply evals_S in E2; exact E2]. apply pop_of_set; auto. cbn; rewrite It; lia.
    + intros [] t (E1 & PP & E2). rewrite Nat.add_0_l, <- LN in *. auto.
Qed.
End S.
