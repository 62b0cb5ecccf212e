From Coq Require Import List Bool Arith ZArith Lia.
From Verif Require Import Dbl DblFacts Outcome BaseFacts StdSort Problem ProblemFacts ProblemFacts2 Rng Generic SpecGeneric GenericFacts3 SpecGenetic RmFacts
  Population SpecPopulation PopulationFacts PopulationFacts3 Algo SpecAlgo.
Import ListNotations.

Section E.
Context {S : Type} {W : Prop}.
Lemma ends_ret {A} (a : A) (s : S) (Q : A -> S -> Prop) E : Q a s -> ends_w W (rret a) s Q E.
Proof. exact (fun H => H). Qed.
Lemma ends_lift {A} (o : outcome A) (s : S) (Q : A -> S -> Prop) (E : exn -> Prop) : match o with Ok a => Q a s | Throw e => E e | NoFuel => W | UB => False end -> ends_w W (rlift o) s Q E.
Proof. unfold ends_w, rlift. destruct o; exact (fun H => H). Qed.
Lemma ends_lift_ok {A} (o : outcome A) a (s : S) (Q : A -> S -> Prop) E : o = Ok a -> Q a s -> ends_w W (rlift o) s Q E.
Proof. intros -> H. exact H. Qed.
Lemma ends_bind {A B} (m : RM S A) (f : A -> RM S B) s Q E : ends_w W m s (fun a s' => ends_w W (f a) s' Q E) E -> ends_w W (rbind m f) s Q E.
Proof. unfold ends_w, rbind. destruct (m s) as [[a|e| |] s']; auto. Qed.
Lemma ends_weak {A} (m : RM S A) s (Q Q' : A -> S -> Prop) (E E' : exn -> Prop) : ends_w W m s Q E -> (forall a s', Q a s' -> Q' a s') -> (forall e, E e -> E' e) -> ends_w W m s Q' E'.
Proof. unfold ends_w. destruct (m s) as [[a|e| |] s']; auto. Qed.
(** Loop over seq a n with an invariant that knows the position *)
Lemma ends_seq {T} (f : T -> nat -> RM S T) (I : nat -> T -> S -> Prop) E n : forall a t s, I a t s ->
  (forall i t s, a <= i < a + n -> I i t s -> ends_w W (f t i) s (I (i + 1)) E) -> ends_w W (rfold f t (seq a n)) s (I (a + n)) E.
Proof.
  induction n as [|n IH]; intros a t s H0 H; cbn [seq rfold].
  - rewrite Nat.add_0_r. exact H0.
  - apply ends_bind. eapply ends_weak; [apply H; [lia|exact H0]| |auto]. intros t' s' H'. cbv beta.
    replace (a + Datatypes.S n) with ((a + 1) + n) by lia. replace (a + 1) with (Datatypes.S a) in * by lia. apply IH; [exact H'|]. intros i t'' s'' Hi. apply H. lia.
Qed.
Lemma ends_fold {T A} (f : T -> A -> RM S T) (I : T -> S -> Prop) E l : forall t s, I t s ->
  (forall a t s, In a l -> I t s -> ends_w W (f t a) s I E) -> ends_w W (rfold f t l) s I E.
Proof.
  induction l as [|a l IH]; intros t s H0 H; cbn [rfold]; [exact H0|].
  apply ends_bind. eapply ends_weak; [apply H; [now left|exact H0]| |auto]. intros t' s' H'. cbv beta. apply IH; [exact H'|]. intros; apply H; auto. now right.
Qed.
End E.

Lemma ends_always {G A} {W : Prop} (m : RM G A) g (Q1 : A -> Prop) (Q : A -> G -> Prop) E : always m Q1 E -> (forall a g', Q1 a -> Q a g') -> ends_w W m g Q E.
Proof. intros H K. unfold ends_w. specialize (H g). destruct (m g) as [[a|e| |] g']; cbn [fst] in H; auto; contradiction. Qed.

Section A.
Context {G P : Type} {W : Prop}.
Lemma ends_eng {A} (m : RM G A) (s : G * pop P) (Q1 : A -> Prop) (Q : A -> G * pop P -> Prop) E :
  always m Q1 E -> (forall a g, Q1 a -> Q a (g, snd s)) -> ends_w W (eng m) s Q E.
Proof. intros H K. unfold ends_w, eng. specialize (H (fst s)). destruct (m (fst s)) as [[a|e| |] g]; cbn [fst] in H; auto; contradiction. Qed.
Lemma ends_eng_w {A} (m : RM G A) (s : G * pop P) (Q : A -> G * pop P -> Prop) E :
  ends_w W m (fst s) (fun a g => Q a (g, snd s)) E -> ends_w W (eng m) s Q E.
Proof. unfold ends_w, eng. destruct (m (fst s)) as [[a|e| |] g]; auto. Qed.
Lemma ends_getp (s : G * pop P) (Q : pop P -> G * pop P -> Prop) E : Q (snd s) s -> ends_w W getp s Q E.
Proof. exact (fun H => H). Qed.

Lemma fitness_fst p c x : fst (fitness p c x) = fst (fitness p 0 x).
Proof. unfold fitness. destruct (bind _ _); reflexivity. Qed.
Lemma ends_peval p x (s : G * pop P) (Q : list dbl -> G * pop P -> Prop) (E : exn -> Prop) :
  po_prob (snd s) = p -> fitness_defined p -> length x = get_nx p -> (forall e, fitness_throws p e -> E e) ->
  (forall f, evaluated p x f -> Q f (fst s, with_fevals (snd s) (wrap64 (po_fevals (snd s) + 1)))) -> ends_w W (peval x) s Q E.
Proof.
  intros <- D L T K. unfold ends_w, peval. destruct (D x L) as [D1 D2].
  destruct (fitness_cases (po_prob (snd s)) (po_fevals (snd s)) x) as [(f & EQ & U & _ & LF)|(o & EQ & NO)]; rewrite EQ.
  - apply K. split; [exact L|]. split; [exact LF|exact U].
  - assert (H : fst (fitness (po_prob (snd s)) (po_fevals (snd s)) x) = o) by (now rewrite EQ).
    destruct o as [f|e| |]; [discriminate| | |].
    + apply T. exists x. split; [exact L|]. now rewrite fitness_fst in H.
    + exfalso. unfold fitness, prob_check_dv, prob_check_fv, throw_if in H. rewrite L, Nat.eqb_refl in H. cbn [negb bind] in H.
      destruct (u_fitness (p_udp (po_prob (snd s))) x) as [f0|e0| |]; cbn [bind] in H; try congruence; try discriminate. destruct (negb _); discriminate.
    + exfalso. unfold fitness, prob_check_dv, prob_check_fv, throw_if in H. rewrite L, Nat.eqb_refl in H. cbn [negb bind] in H.
      destruct (u_fitness (p_udp (po_prob (snd s))) x) as [f0|e0| |]; cbn [bind] in H; try congruence; try discriminate. destruct (negb _); discriminate.
Qed.

Lemma valid_fevals (s : pop P) c : valid_pop s -> valid_pop (with_fevals s c).
Proof. exact (fun H => H). Qed.

(** The population after set_xf *)
Definition setp (s : pop P) (i : nat) (x f : list dbl) (c : list dbl * list dbl) : pop P :=
  {| po_prob := po_prob s; po_fevals := po_fevals s; po_id := po_id s; po_x := upd (po_x s) i x; po_f := upd (po_f s) i f; po_cx := fst c; po_cf := snd c; po_rng := po_rng s |}.
Lemma set_xf_valid (s : pop P) i x f : valid_pop s -> i < length (po_id s) -> length x = get_nx (po_prob s) -> length f = get_nf (po_prob s) ->
  exists c, set_xf s i x f = (setp s i x f c, Ok tt) /\ update_champion (po_prob s) (po_cx s) (po_cf s) x f = Ok c /\ valid_pop (setp s i x f c).
Proof.
  intros (PO & ST & CH) Hi Lx Lf. destruct (champ_sizes (po_prob s) s PO eq_refl CH x f Lx Lf) as (c & Ec). exists c.
  pose proof ST as (L1 & L2 & Fx & Ff & Fi).
  assert (ES : set_xf s i x f = (setp s i x f c, Ok tt)).
  { unfold set_xf. destruct (Nat.leb_spec (length (po_id s)) i); [lia|]. rewrite Lf, Lx, !Nat.eqb_refl. cbn [negb]. rewrite Ec. cbn [bind]. unfold vset.
    destruct (Nat.ltb_spec i (length (po_x s))); [|lia]. cbn [bind]. destruct (Nat.ltb_spec i (length (po_f s))); [|lia]. cbn [bind]. destruct c. reflexivity. }
  split; [exact ES|]. split; [exact Ec|]. split; [exact PO|]. split.
  - unfold stored, setp. cbn. rewrite !upd_len. split; [exact L1|]. split; [exact L2|]. split; [|split; [|exact Fi]]; intros y Hy; apply upd_in in Hy; destruct Hy as [->|Hy]; auto.
  - unfold champion_shape, setp. cbn. unfold update_champion in Ec.
    destruct (negb _); [injection Ec as <-; exact CH|]. destruct (Nat.eqb _ 0); [injection Ec as <-; right; auto|].
    destruct (Nat.eqb (get_nc _) 0).
    + destruct (vget f 0); cbn [bind] in Ec; try discriminate. destruct (vget (po_cf s) 0); cbn [bind] in Ec; try discriminate. injection Ec as <-.
      destruct (Compare.less_than_f _ _); [right; auto|exact CH].
    + destruct (Constrained.compare_fc _ _ _ _) as [[|]| | |]; cbn [bind] in Ec; try discriminate; injection Ec as <-; [right; auto|exact CH].
Qed.
Lemma ends_pset i x f (s : G * pop P) (Q : unit -> G * pop P -> Prop) E : valid_pop (snd s) -> i < length (po_id (snd s)) ->
  length x = get_nx (po_prob (snd s)) -> length f = get_nf (po_prob (snd s)) ->
  (forall c, update_champion (po_prob (snd s)) (po_cx (snd s)) (po_cf (snd s)) x f = Ok c -> valid_pop (setp (snd s) i x f c) -> Q tt (fst s, setp (snd s) i x f c)) -> ends_w W (pset i x f) s Q E.
Proof.
  intros V Hi Lx Lf K. destruct (set_xf_valid (snd s) i x f V Hi Lx Lf) as (c & EQ & UC & V'). unfold ends_w, pset. rewrite EQ. now apply K.
Qed.
(** Every population built by calls is valid *)
Lemma reachable_valid (r : rng P) p s : rng_contract r -> prob_obj p -> reachable r p s -> valid_pop s.
Proof. intros RC PO R. destruct (reachable_inv r RC p s R) as (ST & CH & EP). split; [now rewrite EP|]. split; [exact ST|exact CH]. Qed.
End A.

(** wrap64 *)
Lemma wrap64_add a b : wrap64 (wrap64 a + b) = wrap64 (a + b).
Proof. unfold wrap64. now rewrite Zplus_mod_idemp_l. Qed.

(** Chains of replacements *)
Section R.
Context {P : Type}.
Lemma replaced_refl R (s : pop P) : replaced R s s.
Proof. split; [reflexivity|]. split; [reflexivity|]. split; [reflexivity|]. split; [reflexivity|]. intros i x f x' f' A B C D. left. split; congruence. Qed.
Lemma replaced_fevals R (s s' : pop P) c : replaced R s s' -> replaced R s (with_fevals s' c).
Proof. exact (fun H => H). Qed.
Lemma replaced_set R (s s' : pop P) i x f c : replaced R s s' -> length (po_x s) = length (po_f s) ->
  (forall x0 f0, nth_error (po_x s) i = Some x0 -> nth_error (po_f s) i = Some f0 -> R x0 f0 x f) -> replaced R s (setp s' i x f c).
Proof.
  intros (E1 & E2 & E3 & E4 & H) L K. unfold replaced, setp. cbn. rewrite !upd_len. split; [exact E1|]. split; [exact E2|]. split; [exact E3|]. split; [exact E4|].
  intros j y g y' g' A B C D. destruct (Nat.eq_dec j i) as [->|N].
  - rewrite upd_same in C by (rewrite E3; apply nth_error_Some; congruence). rewrite upd_same in D by (rewrite E4; apply nth_error_Some; congruence).
    injection C as <-. injection D as <-. right. now apply K.
  - rewrite upd_other in C, D by exact N. now apply (H j).
Qed.
End R.
Lemma evals_0 {P} (s : pop P) : evals 0 s s.
Proof. unfold evals. now rewrite Z.add_0_r. Qed.
Lemma evals_S {P} n (s s' : pop P) : evals n s s' -> evals (n + 1) s (with_fevals s' (wrap64 (po_fevals s' + 1))).
Proof.
  unfold evals. intros H. cbn [with_fevals po_fevals]. rewrite <- (Z.add_0_r (wrap64 (_ + 1))), wrap64_add, Z.add_0_r, <- wrap64_add, H, wrap64_add. f_equal. lia.
Qed.
