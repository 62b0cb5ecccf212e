From Coq Require Import List Bool Arith ZArith Lia Permutation.
From Verif Require Import Dbl DblFacts Outcome BaseFacts StdSort Compare CompareFacts SpecOrder Constrained SpecConstrained ConstrainedFacts ConstrainedFacts2
  Problem SpecProblem ProblemFacts ProblemFacts2 ProblemFacts3 Rng Generic SpecGeneric GenericFacts GenericFacts2 GenericFacts3 Population SpecPopulation PopulationFacts.
Import ListNotations.

Section C.
Context {G : Type} (r : rng G) (RC : rng_contract r) (p : problem).
Context (lt : list dbl -> list dbl -> bool).
Context (NX : 0 < get_nx p).
Context (UPD : forall cx cf x f, length cx = get_nx p -> length cf = get_nf p -> length x = get_nx p -> length f = get_nf p ->
  update_champion p cx cf x f = Ok (if lt f cf then (x, f) else (cx, cf))).
Context (UPD0 : forall x f, update_champion p [] [] x f = Ok (x, f)).

Definition right_size (q : list dbl * list dbl) : Prop := length (fst q) = get_nx p /\ length (snd q) = get_nf p.
Definition laws (L : list (list dbl * list dbl)) : Prop :=
  (forall q, In q L -> lt (snd q) (snd q) = false) /\
  (forall a b c, In a L -> In b L -> In c L -> lt (snd a) (snd b) = true -> lt (snd b) (snd c) = true -> lt (snd a) (snd c) = true).
Definition weak (L : list (list dbl * list dbl)) : Prop :=
  forall a b c, In a L -> In b L -> In c L -> lt (snd a) (snd b) = true -> lt (snd c) (snd b) = false -> lt (snd a) (snd c) = true.
Definition champ (L : list (list dbl * list dbl)) (s : pop G) : Prop :=
  Forall right_size L /\
  ((L = [] /\ po_cx s = [] /\ po_cf s = []) \/
   (exists l1 l2, L = l1 ++ (po_cx s, po_cf s) :: l2 /\
      (laws L -> forall q, In q L -> lt (snd q) (po_cf s) = false) /\
      (laws L -> weak L -> forall q, In q l1 -> lt (po_cf s) (snd q) = true))).

Lemma laws_sub L L' : laws (L ++ L') -> laws L.
Proof. intros [I T]. split; [intros q Hq|intros a b c Ha Hb Hc]; [apply I|apply T]; apply in_or_app; auto. Qed.
Lemma weak_sub L L' : weak (L ++ L') -> weak L.
Proof. intros T a b c Ha Hb Hc. apply T; apply in_or_app; auto. Qed.

Lemma champ_step L s s' o res : po_prob s = p -> stored s -> champ L s -> pop_step r s o = (s', res) ->
  champ (L ++ match res with Ok _ => puts p o | _ => [] end) s'.
Proof.
  intros EP ST [RS CH] E. destruct (step_spec r RC _ _ _ _ ST E) as (_ & _ & [(-> & EF & PU)|(N & SC)]).
  - assert (CASE : o = RandomDV \/ o <> RandomDV) by (destruct o; auto; right; discriminate). destruct CASE as [->|NR].
    + cbn [puts]. rewrite app_nil_r. cbn [effect] in EF. destruct EF as (_ & _ & _ & _ & E5 & E6). unfold champ. rewrite E5, E6. auto.
    + destruct (PU NR) as (x & f & P & (A1 & A2 & A3 & A4)). rewrite EP in *. rewrite P. split; [apply Forall_app; split; [exact RS|constructor; [split; assumption|constructor]]|].
      right. destruct CH as [(-> & E1 & E2)|(l1 & l2 & EL & H1 & H2)].
      * rewrite E1, E2, UPD0 in A4. inversion A4. exists [], []. cbn. split; [reflexivity|]. split; [|intros _ _ q []]. intros [I _] q [<-|[]]. apply (I (po_cx s', po_cf s')). left. reflexivity.
      * assert (RC0 : right_size (po_cx s, po_cf s)) by (rewrite Forall_forall in RS; apply RS; rewrite EL; apply in_or_app; right; left; reflexivity).
        destruct RC0 as [R1 R2]. cbn in R1, R2. rewrite UPD in A4 by assumption. destruct (lt f (po_cf s)) eqn:EF2; injection A4 as Y1 Y2; [subst x f|rewrite <- Y1, <- Y2; clear Y1 Y2].
        -- exists L, []. split; [reflexivity|]. split.
           ++ intros LW q Hq. apply in_app_or in Hq. destruct Hq as [Hq|[<-|[]]].
              ** destruct (lt (snd q) (po_cf s')) eqn:E3; [|reflexivity]. exfalso.
                 assert (C : lt (snd q) (po_cf s) = true).
                 { destruct LW as [I T]. apply (T q (po_cx s', po_cf s') (po_cx s, po_cf s)); auto; try (apply in_or_app; auto; right; left; reflexivity).
                   apply in_or_app. left. rewrite EL. apply in_or_app. right. left. reflexivity. }
                 rewrite (H1 (laws_sub _ _ LW) q Hq) in C. discriminate.
              ** apply (proj1 LW (po_cx s', po_cf s')). apply in_or_app. right. left. reflexivity.
           ++ intros LW WK q Hq. apply (WK (po_cx s', po_cf s') (po_cx s, po_cf s) q).
              ** apply in_or_app. right. left. reflexivity.
              ** apply in_or_app. left. rewrite EL. apply in_or_app. right. left. reflexivity.
              ** apply in_or_app. left. exact Hq.
              ** exact EF2.
              ** apply (H1 (laws_sub _ _ LW) q Hq).
        -- exists l1, (l2 ++ [(x, f)]). split; [rewrite EL, <- app_assoc; reflexivity|]. split.
           ++ intros LW q Hq. apply in_app_or in Hq. destruct Hq as [Hq|[<-|[]]]; [exact (H1 (laws_sub _ _ LW) q Hq)|exact EF2].
           ++ intros LW WK q Hq. exact (H2 (laws_sub _ _ LW) (weak_sub _ _ WK) q Hq).
  - assert (X : match res with Ok _ => puts p o | _ => [] end = []) by (destruct res as [[]| | |]; congruence || reflexivity). rewrite X, app_nil_r.
    destruct SC as (_ & _ & _ & _ & E5 & E6). unfold champ. rewrite E5, E6. auto.
Qed.

Lemma champ_run ops : forall L s s' tr, po_prob s = p -> stored s -> champ L s -> pop_run r s ops = (s', tr) -> champ (L ++ inserted p tr) s'.
Proof.
  induction ops as [|o ops IH]; intros L s s' tr EP ST CH E; cbn [pop_run] in E; [inversion E; subst; cbn; rewrite app_nil_r; exact CH|].
  destruct (pop_step r s o) as [s1 res] eqn:E1. destruct (pop_run r s1 ops) as [s2 tr'] eqn:E2. inversion E; subst s2 tr.
  pose proof (champ_step _ _ _ _ _ EP ST CH E1) as CH1. destruct (step_spec r RC _ _ _ _ ST E1) as (ST1 & EP1 & _).
  assert (EP2 : po_prob s1 = p) by congruence.
  specialize (IH _ _ _ _ EP2 ST1 CH1 E2). replace (inserted p ((o, res) :: tr')) with (match res with Ok _ => puts p o | _ => [] end ++ inserted p tr') by (destruct res; reflexivity).
  rewrite app_assoc. exact IH.
Qed.
Lemma champ_history g ops s' tr : pop_run r (empty_pop p g) ops = (s', tr) -> champ (inserted p tr) s'.
Proof.
  intros E. apply (champ_run ops [] (empty_pop p g) s' tr); [reflexivity| | |exact E].
  - repeat split; cbn; intros; contradiction.
  - split; [constructor|]. left. auto.
Qed.
End C.

(** Unconstrained. *)
Lemma champion_unconstrained G (r : rng G) p g ops s' tr : rng_contract r -> prob_obj p -> p_nobj p = 1 -> get_nc p = 0 ->
  pop_run r (empty_pop p g) ops = (s', tr) ->
  (inserted p tr = [] /\ po_cx s' = [] /\ po_cf s' = []) \/
  (exists l1 l2, inserted p tr = l1 ++ (po_cx s', po_cf s') :: l2 /\
     (forall q, In q (inserted p tr) -> not_worse (nth 0 (po_cf s') NaN) (nth 0 (snd q) NaN)) /\
     (forall q, In q l1 -> better (nth 0 (po_cf s') NaN) (nth 0 (snd q) NaN))).
Proof.
  intros RC PO NO NC E. destruct (prob_obj_facts p PO) as (NX & _ & LT & NF). rewrite NO, NC in NF.
  set (lt := fun a b => less_than_f (nth 0 a NaN) (nth 0 b NaN)).
  destruct (champ_history r RC p lt) with (g := g) (ops := ops) (s' := s') (tr := tr) as [_ [H|(l1 & l2 & EL & H1 & H2)]]; auto.
  - intros cx cf x f L1 L2 L3 L4. unfold update_champion. rewrite NO, NC. cbn [negb Nat.eqb]. destruct (Nat.eqb_spec (length cx) 0); [lia|].
    rewrite (vget_nth f 0 NaN), (vget_nth cf 0 NaN) by lia. reflexivity.
  - intros x f. unfold update_champion. rewrite NO. reflexivity.
  - right. exists l1, l2. split; [exact EL|].
    assert (S : forall L : list (list dbl * list dbl), strict_weak_on (fun a b => lt (snd a) (snd b)) L) by (intros L; exact (ltf_key_swo (fun q : list dbl * list dbl => nth 0 (snd q) NaN) L)).
    assert (LW : laws lt (inserted p tr)) by (destruct (S (inserted p tr)); split; assumption).
    assert (WK : weak lt (inserted p tr)).
    { intros a b c _ _ _. unfold lt. intros A B. apply less_than_f_spec in A. apply ltf_false in B. apply less_than_f_spec. exact (better_not_worse _ _ _ A B). }
    split; [intros q Hq; apply ltf_false, (H1 LW q Hq)|intros q Hq; apply less_than_f_spec, (H2 LW WK q Hq)].
Qed.
(** Constrained, on vectors none of which beats itself. *)
Lemma champion_constrained G (r : rng G) p g ops s' tr : rng_contract r -> prob_obj p -> p_nobj p = 1 -> 0 < get_nc p ->
  pop_run r (empty_pop p g) ops = (s', tr) ->
  (forall q, In q (inserted p tr) -> fc_lt (p_nec p) (p_ctol p) (snd q) (snd q) = false) ->
  (inserted p tr = [] /\ po_cx s' = [] /\ po_cf s' = []) \/
  (In (po_cx s', po_cf s') (inserted p tr) /\
     forall q, In q (inserted p tr) -> compare_fc (snd q) (po_cf s') (p_nec p) (p_ctol p) = Ok false).
Proof.
  intros RC PO NO NC E IR. destruct (prob_obj_facts p PO) as (NX & _ & LT & NF). rewrite NO in NF.
  set (lt := fc_lt (p_nec p) (p_ctol p)).
  assert (OKA : forall f, length f = get_nf p -> fc_args_ok (p_nec p) (p_ctol p) f) by (intros f L; split; unfold get_nc in *; lia).
  destruct (champ_history r RC p lt) with (g := g) (ops := ops) (s' := s') (tr := tr) as [RS [H|(l1 & l2 & EL & H1 & H2)]]; auto.
  - intros cx cf x f L1 L2 L3 L4. unfold update_champion. rewrite NO. cbn [negb Nat.eqb]. destruct (Nat.eqb_spec (length cx) 0); [lia|]. destruct (Nat.eqb_spec (get_nc p) 0); [lia|].
    unfold lt, fc_lt. rewrite compare_fc_eq by auto. reflexivity.
  - intros x f. unfold update_champion. rewrite NO. reflexivity.
  - right. assert (IC : In (po_cx s', po_cf s') (inserted p tr)) by (rewrite EL; apply in_or_app; right; left; reflexivity). split; [exact IC|].
    rewrite Forall_forall in RS.
    assert (LW : laws lt (inserted p tr)).
    { split; [exact IR|]. destruct (fc_lt_spo (p_nec p) (p_ctol p) (map snd (inserted p tr))) as [T _].
      - intros f Hf. apply in_map_iff in Hf. destruct Hf as (q & <- & Hq). apply OKA, RS, Hq.
      - intros f Hf. apply in_map_iff in Hf. destruct Hf as (q & <- & Hq). apply IR, Hq.
      - intros a b c Ha Hb Hc. apply T; apply in_map; assumption. }
    intros q Hq. pose proof (H1 LW q Hq) as X. unfold lt, fc_lt in X.
    rewrite compare_fc_eq in * by (apply OKA; (apply (RS _ Hq) || apply (RS _ IC))). congruence.
Qed.
