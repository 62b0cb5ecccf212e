From Coq Require Import List Bool Arith ZArith Lia Permutation.
From Verif Require Import Dbl DblFacts Outcome BaseFacts StdSort Compare CompareFacts SpecOrder Constrained SpecConstrained ConstrainedFacts ConstrainedFacts2
  Problem SpecProblem ProblemFacts ProblemFacts2 ProblemFacts3 Rng Generic SpecGeneric GenericFacts GenericFacts2 GenericFacts3 Population SpecPopulation.
Import ListNotations.

Lemma prob_obj_facts p : prob_obj p -> 0 < get_nx p /\ 0 < p_nobj p /\ length (p_ctol p) = get_nc p /\ get_nf p = p_nobj p + get_nc p.
Proof.
  induction 1 as [u p E|p t p' O IH E].
  - destruct (construct_iff u) as (C & _ & B). assert (GU : good_udp u) by (apply C; eauto). pose proof (B p E) as (_ & El & Eu & Eo & Ee & Ei & En & _ & _ & _ & Et).
    destruct GU as ((NE & _) & NO & _). unfold get_nx, get_nf, get_nc. rewrite El, Eo, Ee, Ei, Et, repeat_length.
    split; [destruct (u_lb u); [contradiction|cbn; lia]|]. split; [lia|]. split; [reflexivity|lia].
  - destruct (set_c_tol_spec p t) as [(X & L & _)|(X & _)]; rewrite X in E; inversion E; subst.
    unfold get_nx, get_nf, get_nc, set_ctol_field in *. cbn in *. destruct IH as (I1 & I2 & I3 & I4). auto.
Qed.

Section P.
Context {G : Type} (r : rng G) (RC : rng_contract r).

Definition upd_ok (s s' : pop G) (x f : list dbl) : Prop :=
  length x = get_nx (po_prob s) /\ length f = get_nf (po_prob s) /\ po_prob s' = po_prob s /\
  update_champion (po_prob s) (po_cx s) (po_cf s) x f = Ok (po_cx s', po_cf s').

Lemma same_refl (s : pop G) : same_content s s.
Proof. repeat split. Qed.

Lemma push_impl_spec s x f s' res : push_back_impl r s x f = (s', res) ->
  (res = Ok tt /\ upd_ok s s' x f /\ po_fevals s' = po_fevals s /\
     exists id, (0 <= id < 2 ^ 64)%Z /\ po_id s' = po_id s ++ [id] /\ po_x s' = po_x s ++ [x] /\ po_f s' = po_f s ++ [f]) \/
  (res <> Ok tt /\ same_content s s' /\ po_fevals s' = po_fevals s).
Proof.
  unfold push_back_impl, upd_ok, same_content. intros E.
  destruct (Nat.eqb_spec (length x) (get_nx (po_prob s))) as [Lx|]; cbn [negb] in E; [|inversion E; subst; right; split; [discriminate|auto 8]].
  destruct (Nat.eqb_spec (length f) (get_nf (po_prob s))) as [Lf|]; cbn [negb] in E; [|inversion E; subst; right; split; [discriminate|auto 8]].
  destruct (_ || _)%bool in E; [inversion E; subst; right; split; [discriminate|auto 8]|].
  destruct (g_int r 0 u64max (po_rng s)) as [id g] eqn:D.
  pose proof (int_in r RC 0 u64max (po_rng s)) as I. rewrite D in I. cbn [fst] in I. unfold u64max in I.
  destruct (update_champion (po_prob s) (po_cx s) (po_cf s) x f) as [[cx cf]|e| |]; inversion E; subst; cbn;
    [left; split; [reflexivity|]; split; [auto|]; split; [reflexivity|]; exists id; split; [lia|auto]|right; split; [discriminate|auto 8]..].
Qed.

Lemma set_xf_spec s i x f s' res : stored s -> set_xf s i x f = (s', res) ->
  (res = Ok tt /\ i < length (po_id s) /\ upd_ok s s' x f /\ po_fevals s' = po_fevals s /\
     po_id s' = po_id s /\ po_x s' = upd (po_x s) i x /\ po_f s' = upd (po_f s) i f) \/
  (res <> Ok tt /\ same_content s s' /\ po_fevals s' = po_fevals s).
Proof.
  intros (L1 & L2 & _). unfold set_xf, upd_ok, same_content. intros E.
  destruct (Nat.leb_spec (length (po_id s)) i) as [|Hi]; [inversion E; subst; right; split; [discriminate|auto 8]|].
  destruct (Nat.eqb_spec (length f) (get_nf (po_prob s))) as [Lf|]; cbn [negb] in E; [|inversion E; subst; right; split; [discriminate|auto 8]].
  destruct (Nat.eqb_spec (length x) (get_nx (po_prob s))) as [Lx|]; cbn [negb] in E; [|inversion E; subst; right; split; [discriminate|auto 8]].
  destruct (update_champion (po_prob s) (po_cx s) (po_cf s) x f) as [[cx cf]|e| |]; cbn [bind] in E; [|inversion E; subst; right; split; [discriminate|auto 8]..].
  unfold vset in E. destruct (Nat.ltb_spec i (length (po_x s))); [|lia]. cbn [bind] in E. destruct (Nat.ltb_spec i (length (po_f s))); [|lia]. cbn [bind] in E.
  inversion E; subst; cbn. left. auto 10.
Qed.
End P.

Lemma upd_same {A} (l : list A) i a : i < length l -> nth_error (upd l i a) i = Some a.
Proof. revert i. induction l as [|h l IH]; intros [|i] H; cbn in *; try lia; [reflexivity|]. apply IH. lia. Qed.
Lemma upd_other {A} (l : list A) i j a : j <> i -> nth_error (upd l i a) j = nth_error l j.
Proof. revert i j. induction l as [|h l IH]; intros [|i] [|j] H; cbn in *; try congruence; try reflexivity. apply IH. lia. Qed.
Lemma upd_len {A} (l : list A) i a : length (upd l i a) = length l.
Proof. revert i. induction l as [|h l IH]; intros [|i]; cbn; auto. Qed.
Lemma upd_in {A} (l : list A) i a y : In y (upd l i a) -> y = a \/ In y l.
Proof. revert i. induction l as [|h l IH]; intros [|i]; cbn; [tauto|tauto| |]. - intros [<-|H]; auto. - intros [<-|H]; [auto|]. destruct (IH _ H); auto. Qed.

Section Q.
Context {G : Type} (r : rng G) (RC : rng_contract r).

Lemma fitness_cases p c x : (exists f, fitness p c x = (Ok f, wrap64 (c + 1)) /\ u_fitness (p_udp p) x = Ok f /\ length x = get_nx p /\ length f = get_nf p) \/
  (exists o, fitness p c x = (o, c) /\ is_ok o = false).
Proof.
  unfold fitness, prob_check_dv, prob_check_fv, throw_if. destruct (Nat.eqb_spec (length x) (get_nx p)); cbn [negb bind]; [|right; eexists; split; reflexivity].
  destruct (u_fitness (p_udp p) x) as [f|e0| |]; cbn [bind]; try (right; eexists; split; reflexivity).
  destruct (Nat.eqb_spec (length f) (get_nf p)); cbn [negb bind]; [left; exists f; auto|right; eexists; split; reflexivity].
Qed.
Lemma step_spec s o s' res : stored s -> pop_step r s o = (s', res) ->
  stored s' /\ po_prob s' = po_prob s /\
  ((res = Ok tt /\ effect s o s' /\ (o <> RandomDV -> exists x f, puts (po_prob s) o = [(x, f)] /\ upd_ok s s' x f)) \/
   (res <> Ok tt /\ same_content s s')).
Proof.
  intros ST E.
  assert (APP : forall s1 s2 : pop G, stored s1 -> forall x f id, length x = get_nx (po_prob s1) -> length f = get_nf (po_prob s1) -> po_prob s2 = po_prob s1 -> (0 <= id < 2 ^ 64)%Z ->
     po_id s2 = po_id s1 ++ [id] -> po_x s2 = po_x s1 ++ [x] -> po_f s2 = po_f s1 ++ [f] -> stored s2).
  { intros s1 s2 (L1 & L2 & Fx & Ff & Fi) x f id Lx Lf Ep Hid Ei Ex Ef. unfold stored. rewrite Ep, Ei, Ex, Ef, !app_length. cbn.
    split; [lia|]. split; [lia|]. split; [|split]; intros y Hy; apply in_app_or in Hy; destruct Hy as [Hy|[<-|[]]]; auto. }
  assert (SAME : forall s1 s2 : pop G, stored s1 -> same_content s1 s2 -> stored s2).
  { intros s1 s2 H (E1 & E2 & E3 & E4 & _). unfold stored in *. rewrite E1, E2, E3, E4. exact H. }
  assert (UPD : forall s1 s2 : pop G, stored s1 -> forall i x f, length x = get_nx (po_prob s1) -> length f = get_nf (po_prob s1) -> po_prob s2 = po_prob s1 ->
     po_id s2 = po_id s1 -> po_x s2 = upd (po_x s1) i x -> po_f s2 = upd (po_f s1) i f -> stored s2).
  { intros s1 s2 (L1 & L2 & Fx & Ff & Fi) i x f Lx Lf Ep Ei Ex Ef. unfold stored. rewrite Ep, Ei, Ex, Ef, !upd_len.
    split; [lia|]. split; [lia|]. split; [|split]; [intros y Hy; apply upd_in in Hy; destruct Hy as [->|]; auto..|exact Fi]. }
  destruct o as [x|x f|i x|i x f|]; cbn [pop_step] in E.
  - unfold push_back, with_fitness in E. destruct (fitness_cases (po_prob s) (po_fevals s) x) as [(f & Ef & Uf & Lx & Lf)|(o & Ef & No)]; rewrite Ef in E.
    + destruct (push_impl_spec r RC _ _ _ _ _ E) as [(-> & (A1 & A2 & A3 & A4) & _ & id & Hid & B1 & B2 & B3)|(N & SC & _)]; cbn [with_fevals po_prob po_id po_x po_f po_cx po_cf] in *.
      * split; [eapply (APP s s'); eauto|]. split; [exact A3|]. left. split; [reflexivity|].
        assert (P : puts (po_prob s) (PushBack x) = [(x, f)]) by (cbn; rewrite Uf; reflexivity).
        split; [exists id, x, f; rewrite P; auto|]. intros _. exists x, f. split; [exact P|]. split; [exact A1|]. auto.
      * destruct SC as (E1 & E2 & E3 & E4 & E5 & E6). cbn in *. assert (SC : same_content s s') by (repeat split; assumption). split; [eapply SAME; eauto|]. split; [exact E1|]. right. auto.
    + assert (SC : same_content s s') by (destruct o; try discriminate No; inversion E; subst; repeat split). split; [eapply SAME; eauto|]. split; [apply SC|]. right. split; [|exact SC].
      destruct o; try discriminate No; inversion E; subst; discriminate.
  - unfold push_back_xf in E. destruct (push_impl_spec r RC _ _ _ _ _ E) as [(-> & (A1 & A2 & A3 & A4) & _ & id & Hid & B1 & B2 & B3)|(N & SC & _)].
    + split; [eapply (APP s s'); eauto|]. split; [exact A3|]. left. split; [reflexivity|]. split; [exists id, x, f; split; [reflexivity|auto]|]. intros _. exists x, f. split; [reflexivity|]. split; [exact A1|]. auto.
    + split; [eapply SAME; eauto|]. split; [apply SC|]. right. auto.
  - unfold set_x, with_fitness in E. destruct (fitness_cases (po_prob s) (po_fevals s) x) as [(f & Ef & Uf & Lx & Lf)|(o & Ef & No)]; rewrite Ef in E.
    + destruct (set_xf_spec _ _ _ _ _ _ (ST : stored (with_fevals s _)) E) as [(-> & Hi & (A1 & A2 & A3 & A4) & _ & B1 & B2 & B3)|(N & SC & _)]; cbn [with_fevals po_prob po_id po_x po_f po_cx po_cf] in *.
      * split; [eapply (UPD s s'); eauto|]. split; [exact A3|]. left. split; [reflexivity|].
        assert (P : puts (po_prob s) (SetX i x) = [(x, f)]) by (cbn; rewrite Uf; reflexivity). pose proof ST as (L1 & L2 & _).
        split; [|intros _; exists x, f; split; [exact P|]; split; [exact A1|]; auto].
        exists x, f. rewrite P, B1, B2, B3, !upd_len. split; [reflexivity|]. split; [exact Hi|]. split; [reflexivity|]. split; [reflexivity|]. split; [reflexivity|].
        split; [apply upd_same; lia|]. split; [apply upd_same; lia|]. intros j Hj. rewrite !upd_other by exact Hj. auto.
      * destruct SC as (E1 & E2 & E3 & E4 & E5 & E6). cbn in *. assert (SC : same_content s s') by (repeat split; assumption). split; [eapply SAME; eauto|]. split; [exact E1|]. right. auto.
    + assert (SC : same_content s s') by (destruct o; try discriminate No; inversion E; subst; repeat split). split; [eapply SAME; eauto|]. split; [apply SC|]. right. split; [|exact SC].
      destruct o; try discriminate No; inversion E; subst; discriminate.
  - destruct (set_xf_spec _ _ _ _ _ _ ST E) as [(-> & Hi & (A1 & A2 & A3 & A4) & _ & B1 & B2 & B3)|(N & SC & _)].
    + split; [eapply (UPD s s'); eauto|]. split; [exact A3|]. left. split; [reflexivity|]. pose proof ST as (L1 & L2 & _).
      split; [|intros _; exists x, f; split; [reflexivity|]; split; [exact A1|]; auto].
      exists x, f. rewrite B1, B2, B3, !upd_len. split; [reflexivity|]. split; [exact Hi|]. split; [reflexivity|]. split; [reflexivity|]. split; [reflexivity|].
      split; [apply upd_same; lia|]. split; [apply upd_same; lia|]. intros j Hj. rewrite !upd_other by exact Hj. auto.
    + split; [eapply SAME; eauto|]. split; [apply SC|]. right. auto.
  - unfold pop_random_dv in E. destruct (random_decision_vector r (po_prob s) (po_rng s)) as [o g]. inversion E; subst.
    assert (SC : same_content s (with_rng s g)) by repeat split. split; [eapply SAME; eauto|]. split; [reflexivity|].
    destruct o; cbn [bind]; [left|right; split; [discriminate|exact SC]..]. split; [reflexivity|]. split; [exact SC|]. congruence.
Qed.

Lemma run_stored ops : forall s s' tr, stored s -> pop_run r s ops = (s', tr) -> stored s' /\ po_prob s' = po_prob s.
Proof.
  induction ops as [|o ops IH]; intros s s' tr ST E; cbn [pop_run] in E; [inversion E; subst; auto|].
  destruct (pop_step r s o) as [s1 res] eqn:E1. destruct (pop_run r s1 ops) as [s2 tr'] eqn:E2. inversion E; subst.
  destruct (step_spec _ _ _ _ ST E1) as (ST1 & EP & _). destruct (IH _ _ _ ST1 E2) as [A B]. split; [exact A|congruence].
Qed.
End Q.
