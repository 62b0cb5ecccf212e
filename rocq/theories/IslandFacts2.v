(** Facts on the archipelago's status and waiting. *)
From Coq Require Import List Bool Arith Lia.
From Verif Require Import Outcome BaseFacts Island SpecIsland IslandFacts.
Import ListNotations.

Lemma of_island_app j a b : of_island j (a ++ b) = of_island j a ++ of_island j b.
Proof. induction a as [|[] a IH]; cbn; rewrite ?IH; try destruct (Nat.eqb _ j); auto. Qed.
Definition counts (tr : list aevent) (j : nat) : nat * nat := (submitted (of_island j tr), finished (of_island j tr)).

(** what island j looks like after tr *)
Definition agrees (tr : list aevent) (j : nat) (k : aisl) : Prop := finished (of_island j tr) + ai_left k = submitted (of_island j tr).
Definition silent (ev : aevent) : bool := match ev with AStatusCall | AStatusRet _ | AWaitRet => true | _ => false end.
Lemma of_silent ev : silent ev = true -> forall tr j, of_island j (tr ++ [ev]) = of_island j tr.
Proof. intros H tr j. rewrite of_island_app. destruct ev; try discriminate; cbn; apply app_nil_r. Qed.

Definition ainv (n : nat) (tr : list aevent) (s : astate) : Prop :=
  length (as_isl s) = n /\ (forall j k, nth_error (as_isl s) j = Some k -> agrees tr j k) /\
  let same lo := forall j k, lo <= j -> nth_error (as_isl s) j = Some k -> ai_err k = error_in tr j in
  let clear hi := forall j k, j < hi -> nth_error (as_isl s) j = Some k -> k = mkai 0 None in
  match as_pos s with
  | AIdle => same 0
  | AStatus i a b c d => same 0 /\ i <= n /\ exists tr0 mid, tr = tr0 ++ AStatusCall :: mid /\ forallb is_finish mid = true /\ a + b + c + d = i /\
      (0 < b + d -> exists j, j < n /\ busy_in tr0 j) /\ (b + d = 0 -> forall j, j < i -> ~ busy_in tr j) /\
      (0 < c + d -> exists j, j < n /\ error_in tr j <> None) /\ (c + d = 0 -> forall j, j < i -> error_in tr0 j = None)
  | AWait i => same 0 /\ i <= n /\ forall j k, j < i -> nth_error (as_isl s) j = Some k -> ai_left k = 0
  | ACheck i => i <= n /\ clear i /\ same 0
  | ACheckRest i e => i <= n /\ clear i /\ same i /\ exists k, k < i /\ error_in tr k = Some e /\ forall j, j < k -> error_in tr j = None
  end.

Lemma agree_busy tr j k : agrees tr j k -> (busy_in tr j <-> 0 < ai_left k).
Proof. unfold agrees, busy_in. lia. Qed.
Lemma finish_other tr j e i : i <> j -> of_island i (tr ++ [AFinish j e]) = of_island i tr.
Proof. intros H. rewrite of_island_app. cbn. destruct (Nat.eqb_spec j i); [congruence|]. apply app_nil_r. Qed.
Lemma finish_self tr j e : of_island j (tr ++ [AFinish j e]) = of_island j tr ++ [Finish e].
Proof. rewrite of_island_app. cbn. now rewrite Nat.eqb_refl. Qed.
Lemma error_keep tr j e i : error_in tr i <> None -> error_in (tr ++ [AFinish j e]) i = error_in tr i.
Proof.
  intros H. unfold error_in in *. destruct (Nat.eq_dec i j) as [->|D]; [|now rewrite finish_other]. rewrite finish_self, first_error_app. cbn. now destruct (first_error (of_island j tr)).
Qed.
Lemma finish_idle tr j e i : ~ busy_in tr i -> i <> j -> ~ busy_in (tr ++ [AFinish j e]) i.
Proof. intros H D. unfold busy_in. now rewrite finish_other. Qed.

Lemma ainv_finish n tr s j e is : ainv n tr s -> afinish j e (as_isl s) = Some is -> ainv n (tr ++ [AFinish j e]) (mkas is (as_pos s)).
Proof.
  intros (L & A & P) H. unfold afinish in H. destruct (nth_error (as_isl s) j) as [[[|u] er]|] eqn:Ej; try discriminate. injection H as <-.
  assert (Lj : j < n) by (rewrite <- L; apply nth_error_Some; congruence). pose proof (A _ _ Ej) as Aj. unfold agrees in Aj. cbn [ai_left] in Aj.
  assert (EQ : forall er', er' = error_in tr j -> match er' with None => e | Some _ => er' end = error_in (tr ++ [AFinish j e]) j).
  { intros er' ->. unfold error_in. rewrite finish_self, first_error_app. cbn. now destruct (first_error (of_island j tr)). }
  set (new := mkai u (match er with None => e | Some _ => er end)) in *. assert (NTH : forall i k, nth_error (upd (as_isl s) j new) i = Some k -> (i = j /\ k = new) \/ (i <> j /\ nth_error (as_isl s) i = Some k)).
  { intros i k H. destruct (Nat.eq_dec i j) as [->|D]; [left; split; [reflexivity|]; rewrite nth_error_upd_eq in H by lia; congruence|right; rewrite nth_error_upd_neq in H by auto; auto]. }
  assert (SAME : forall lo, (forall i k, lo <= i -> nth_error (as_isl s) i = Some k -> ai_err k = error_in tr i) ->
    forall i k, lo <= i -> nth_error (upd (as_isl s) j new) i = Some k -> ai_err k = error_in (tr ++ [AFinish j e]) i).
  { intros lo S i k Hi H. destruct (NTH _ _ H) as [[-> ->]|[D H']]; [unfold new; cbn [ai_err]; apply EQ; exact (S j _ Hi Ej)|]. unfold error_in. rewrite finish_other by auto. now apply S. }
  assert (CLEAR : forall hi, (forall i k, i < hi -> nth_error (as_isl s) i = Some k -> k = mkai 0 None) -> hi <= j /\ forall i k, i < hi -> nth_error (upd (as_isl s) j new) i = Some k -> k = mkai 0 None).
  { intros hi C. assert (hi <= j). { destruct (le_lt_dec hi j); [assumption|]. specialize (C j _ l Ej). discriminate. } split; [assumption|]. intros i k Hi H1. destruct (NTH _ _ H1) as [[-> _]|[_ H']]; [lia|]. now apply (C i k). }
  split; [cbn; now rewrite upd_length|]. split.
  { cbn [as_isl]. intros i k H. destruct (NTH _ _ H) as [[-> ->]|[D H']].
    - unfold agrees. rewrite finish_self, submitted_app, finished_app. unfold new. cbn [ai_left]. cbn. lia.
    - unfold agrees. rewrite finish_other by auto. exact (A i k H'). }
  cbv zeta in *. cbn [as_pos as_isl]. destruct (as_pos s) as [|i a b c d|i|i|i x].
  - now apply SAME.
  - destruct P as (S & Li & tr0 & mid & Et & Fm & N & B1 & B2 & E1 & E2). split; [now apply SAME|]. split; [exact Li|]. exists tr0, (mid ++ [AFinish j e]). split; [rewrite Et, <- app_assoc; reflexivity|].
    split; [rewrite forallb_app, Fm; reflexivity|]. split; [exact N|]. split; [exact B1|]. split; [|split; [|exact E2]].
    + intros Z q Hq. specialize (B2 Z q Hq). destruct (Nat.eq_dec q j) as [->|D]; [|now apply finish_idle]. unfold busy_in in B2. exfalso. lia.
    + intros Z. destruct (E1 Z) as (q & Hq & Eq). exists q. split; [exact Hq|]. now rewrite error_keep.
  - destruct P as (S & Li & C). split; [now apply SAME|]. split; [exact Li|]. intros q k Hq H. destruct (NTH _ _ H) as [[-> ->]|[D H']]; [|now apply (C q)]. specialize (C j _ Hq Ej). discriminate.
  - destruct P as (Li & C & S). split; [exact Li|]. split; [now apply CLEAR|now apply SAME].
  - destruct P as (Li & C & S & k & Hk & Ek & Em). destruct (CLEAR _ C) as [Hj C']. split; [exact Li|]. split; [exact C'|]. split; [now apply SAME|]. exists k. split; [exact Hk|]. unfold error_in in *.
    split; [now rewrite finish_other by lia|]. intros q Hq. rewrite finish_other by lia. now apply Em.
Qed.
Lemma isl_status_spec k : is_busy (isl_status k) = (0 <? ai_left k) /\ is_error (isl_status k) = has_exc (ai_err k).
Proof. destruct k as [[|u] [e|]]; split; reflexivity. Qed.

Definition agood (n : nat) (tr : list aevent) (ev : aevent) : Prop :=
  match ev with
  | AStatusRet st => exists tr0 mid, tr = tr0 ++ AStatusCall :: mid /\ forallb is_finish mid = true /\
      (is_busy st = true -> exists j, j < n /\ busy_in tr0 j) /\ (is_busy st = false -> forall j, j < n -> ~ busy_in tr j) /\
      (is_error st = true -> exists j, j < n /\ error_in tr j <> None) /\ (is_error st = false -> forall j, j < n -> error_in tr0 j = None)
  | AWaitRet => forall j, j < n -> ~ busy_in tr j
  | ACheckRet r => (forall j, j < n -> ~ busy_in tr j) /\ r = lowest (map (error_in tr) (seq 0 n))
  | _ => True
  end.
Lemma combine_spec n a b c d : a + b + c + d = n -> is_busy (combine_status n a b c d) = negb (b + d =? 0) /\ is_error (combine_status n a b c d) = negb (c + d =? 0).
Proof.
  intros <-. unfold combine_status. destruct (Nat.eqb_spec d 0) as [->|D]; cbn [negb].
  - rewrite !Nat.add_0_r. destruct (Nat.eqb_spec c 0) as [->|C]; cbn [negb].
    + rewrite Nat.add_0_r. destruct (Nat.eqb_spec a (a + b)); destruct (Nat.eqb_spec b 0); try lia; split; reflexivity.
    + destruct (Nat.eqb_spec b 0) as [->|B]; split; reflexivity.
  - destruct (Nat.eqb_spec (b + d) 0); [lia|]. destruct (Nat.eqb_spec (c + d) 0); [lia|]. split; reflexivity.
Qed.
Lemma lowest_none l : (forall x, In x l -> x = None) -> lowest l = None.
Proof. induction l as [|[e|] l IH]; cbn; intros H; auto; try (specialize (H (Some e) (or_introl eq_refl)); discriminate). Qed.
Lemma lowest_at f k n e : k < n -> f k = Some e -> (forall j, j < k -> f j = None) -> lowest (map f (seq 0 n)) = Some e.
Proof.
  intros L E H. replace n with (k + S (n - k - 1)) by lia. rewrite seq_app, map_app, lowest_app, lowest_none.
  - cbn [seq map]. rewrite Nat.add_0_l, E. reflexivity.
  - intros x Hx. apply in_map_iff in Hx. destruct Hx as (j & <- & Hj). apply in_seq in Hj. apply H. lia.
Qed.
Lemma silent_inv tr ev is : silent ev = true -> (forall j k, nth_error is j = Some k -> agrees tr j k) -> (forall j k, 0 <= j -> nth_error is j = Some k -> ai_err k = error_in tr j) ->
  (forall j k, nth_error is j = Some k -> agrees (tr ++ [ev]) j k) /\ (forall j k, 0 <= j -> nth_error is j = Some k -> ai_err k = error_in (tr ++ [ev]) j).
Proof. intros S A E. split; intros j k; unfold agrees, error_in; rewrite of_silent by exact S; [apply A|apply E]. Qed.

Lemma ainv_client n tr s ev s' : ainv n tr s -> aclient_step s = Some (ev, s') -> ainv n (tr ++ ev) s' /\ Forall (agood n tr) ev /\ length ev <= 1.
Proof.
  intros (L & A & P) H. unfold aclient_step in H. cbv zeta in P, H. destruct (as_pos s) as [|i a b c d|i|i|i x]; try discriminate.
  - destruct P as (S & Li & tr0 & mid & Et & Fm & N & B1 & B2 & E1 & E2). destruct (nth_error (as_isl s) i) as [k|] eqn:Ei.
    + assert (Hi : i < n) by (rewrite <- L; apply nth_error_Some; congruence). injection H as <- <-. rewrite app_nil_r. split; [|split; [constructor|cbn; lia]].
      pose proof (agree_busy _ _ _ (A _ _ Ei)) as AB. pose proof (S i k ltac:(lia) Ei) as EB.
      assert (B0 : 0 < ai_left k -> busy_in tr0 i).
      { intros HB. apply AB in HB. unfold busy_in in *. rewrite Et in HB. rewrite of_island_app, submitted_app, finished_app in HB. cbn [of_island] in HB.
        assert (Z : submitted (of_island i mid) = 0). { clear - Fm. induction mid as [|[] mid IH]; cbn in *; try discriminate; auto. destruct (Nat.eqb _ i); cbn; auto. } lia. }
      assert (E0 : ai_err k = None -> error_in tr0 i = None).
      { intros HE. rewrite HE in EB. unfold error_in in *. rewrite Et, of_island_app, first_error_app in EB. cbn [of_island] in EB. destruct (first_error (of_island i tr0)) as [y|] eqn:EY; [|reflexivity].
        exfalso. clear - Fm EB. revert EB. induction mid as [|[] mid IH]; cbn in *; try discriminate; auto. destruct (Nat.eqb _ i); cbn; auto. }
      assert (GEN : forall a' b' c' d', a' + b' + c' + d' = Datatypes.S i -> (b' + d' = b + d /\ ai_left k = 0 \/ 0 < b' + d' /\ 0 < ai_left k) -> (c' + d' = c + d /\ ai_err k = None \/ 0 < c' + d' /\ ai_err k <> None) ->
        ainv n tr (mkas (as_isl s) (AStatus (Datatypes.S i) a' b' c' d'))).
      { intros a' b' c' d' N' HB HE. split; [exact L|]. split; [exact A|]. cbv zeta. cbn [as_pos as_isl]. split; [exact S|]. split; [lia|]. exists tr0, mid. split; [exact Et|]. split; [exact Fm|]. split; [exact N'|].
        split; [|split; [|split]].
        - intros Z. destruct HB as [[HB _]|[_ HB]]; [rewrite HB in Z; auto|]. exists i. auto.
        - intros Z q Hq. destruct HB as [[HB K0]|[HB _]]; [|lia]. destruct (Nat.eq_dec q i) as [->|D]; [rewrite AB; lia|]. apply B2; lia.
        - intros Z. destruct HE as [[HE _]|[_ HE]]; [rewrite HE in Z; auto|]. exists i. split; [exact Hi|]. rewrite <- EB. exact HE.
        - intros Z q Hq. destruct HE as [[HE K0]|[HE _]]; [|lia]. destruct (Nat.eq_dec q i) as [->|D]; [auto|]. apply E2; lia. }
      destruct k as [[|u] [e|]]; cbn [isl_status ai_left ai_err] in *; apply GEN; try lia; (left; split; [lia|reflexivity]) || (right; split; [lia|discriminate || lia]).
    + injection H as <- <-. apply nth_error_None in Ei. assert (i = n) by lia. subst i. rewrite L. destruct (silent_inv tr (AStatusRet (combine_status n a b c d)) _ eq_refl A S) as [A' S'].
      split; [split; [exact L|]; split; [exact A'|exact S']|]. split; [|cbn; lia]. constructor; [|constructor]. cbn [agood]. exists tr0, mid. split; [exact Et|]. split; [exact Fm|].
      destruct (combine_spec n a b c d H) as [-> ->]. split; [|split; [|split]].
      * intros Z. apply B1. apply negb_true_iff, Nat.eqb_neq in Z. lia.
      * intros Z j Hj. apply B2; [|lia]. now apply negb_false_iff, Nat.eqb_eq in Z.
      * intros Z. apply E1. apply negb_true_iff, Nat.eqb_neq in Z. lia.
      * intros Z j Hj. apply E2; [|lia]. now apply negb_false_iff, Nat.eqb_eq in Z.
  - destruct P as (S & Li & C). destruct (nth_error (as_isl s) i) as [k|] eqn:Ei.
    + assert (Hi : i < n) by (rewrite <- L; apply nth_error_Some; congruence). destruct (ai_left k) eqn:Ek; [|discriminate]. injection H as <- <-. rewrite app_nil_r. split; [|split; [constructor|cbn; lia]].
      split; [exact L|]. split; [exact A|]. split; [exact S|]. split; [lia|]. cbn [as_isl]. intros j q Hj Ej. destruct (Nat.eq_dec j i) as [->|D]; [congruence|]. apply (C j q); [lia|exact Ej].
    + injection H as <- <-. apply nth_error_None in Ei. assert (i = n) by lia. subst i. destruct (silent_inv tr AWaitRet _ eq_refl A S) as [A' S']. split; [split; [exact L|]; split; [exact A'|exact S']|]. split; [|cbn; lia]. constructor; [|constructor].
      cbn [agood]. intros j Hj. destruct (nth_error (as_isl s) j) as [k|] eqn:Ej; [|apply nth_error_None in Ej; lia]. rewrite (agree_busy _ _ _ (A _ _ Ej)). rewrite (C j k Hj Ej). lia.
  - destruct P as (Li & C & S). destruct (nth_error (as_isl s) i) as [k|] eqn:Ei.
    + assert (Hi : i < n) by (rewrite <- L; apply nth_error_Some; congruence). destruct (ai_left k) eqn:Ek; [|discriminate]. injection H as <- <-. rewrite app_nil_r. split; [|split; [constructor|cbn; lia]].
      assert (NTH : forall j q, nth_error (upd (as_isl s) i (mkai 0 None)) j = Some q -> (j = i /\ q = mkai 0 None) \/ (j <> i /\ nth_error (as_isl s) j = Some q)).
      { intros j q Hq. destruct (Nat.eq_dec j i) as [->|D]; [left; split; [reflexivity|]; rewrite nth_error_upd_eq in Hq by lia; congruence|right; rewrite nth_error_upd_neq in Hq by auto; auto]. }
      pose proof (A _ _ Ei) as Ai. unfold agrees in Ai. rewrite Ek in Ai.
      split; [cbn; now rewrite upd_length|]. split.
      { cbn [as_isl]. intros j q Hq. destruct (NTH _ _ Hq) as [[-> ->]|[D Hq']]; [unfold agrees; cbn; lia|now apply A]. }
      cbv zeta. cbn [as_isl as_pos]. assert (CL : forall j q, j < Datatypes.S i -> nth_error (upd (as_isl s) i (mkai 0 None)) j = Some q -> q = mkai 0 None) by (intros j q Hj Hq; destruct (NTH _ _ Hq) as [[_ ->]|[D Hq']]; [reflexivity|apply (C j q); [lia|exact Hq']]).
      destruct (ai_err k) as [e|] eqn:Ee.
      * split; [lia|]. split; [exact CL|]. split; [intros j q Hj Hq; destruct (NTH _ _ Hq) as [[-> _]|[_ Hq']]; [lia|apply S; [lia|exact Hq']]|]. exists i. split; [lia|]. split; [rewrite <- (S i k ltac:(lia) Ei); exact Ee|].
        intros j Hj. destruct (nth_error (as_isl s) j) as [q|] eqn:Ej; [|apply nth_error_None in Ej; lia]. rewrite <- (S j q ltac:(lia) Ej). now rewrite (C j q Hj Ej).
      * split; [lia|]. split; [exact CL|]. intros j q Hj Hq. destruct (NTH _ _ Hq) as [[-> ->]|[_ Hq']]; [|apply S; [lia|exact Hq']]. rewrite <- (S i k ltac:(lia) Ei). now rewrite Ee.
    + injection H as <- <-. apply nth_error_None in Ei. assert (i = n) by lia. subst i. split; [|split; [|cbn; lia]].
      * split; [exact L|]. cbn [as_isl as_pos]. cbv zeta. assert (N : forall j q, nth_error (as_isl s) j = Some q -> q = mkai 0 None) by (intros j q Hq; apply (C j q); [rewrite <- L; apply nth_error_Some; congruence|exact Hq]). split.
        -- intros j q Hq. pose proof (A j q Hq) as Aj. unfold agrees in *. rewrite of_island_app, submitted_app, finished_app. cbn. lia.
        -- intros j q _ Hq. rewrite (N j q Hq). unfold error_in. rewrite of_island_app, first_error_app. reflexivity.
      * constructor; [|constructor]. cbn [agood]. assert (N : forall j, j < n -> exists q, nth_error (as_isl s) j = Some q /\ q = mkai 0 None).
        { intros j Hj. destruct (nth_error (as_isl s) j) as [q|] eqn:Ej; [|apply nth_error_None in Ej; lia]. exists q. split; [reflexivity|]. exact (C j q Hj Ej). }
        split; [intros j Hj; destruct (N j Hj) as (q & Eq & ->); rewrite (agree_busy _ _ _ (A _ _ Eq)); cbn; lia|]. symmetry. apply lowest_none. intros y Hy. apply in_map_iff in Hy. destruct Hy as (j & <- & Hj). apply in_seq in Hj.
        destruct (N j ltac:(lia)) as (q & Eq & ->). rewrite <- (S j _ ltac:(lia) Eq). reflexivity.
  - destruct P as (Li & C & S & m & Hm & Em & Mm). destruct (nth_error (as_isl s) i) as [k|] eqn:Ei.
    + assert (Hi : i < n) by (rewrite <- L; apply nth_error_Some; congruence). destruct (ai_left k) eqn:Ek; [|discriminate]. injection H as <- <-. rewrite app_nil_r. split; [|split; [constructor|cbn; lia]].
      assert (NTH : forall j q, nth_error (upd (as_isl s) i (mkai 0 None)) j = Some q -> (j = i /\ q = mkai 0 None) \/ (j <> i /\ nth_error (as_isl s) j = Some q)).
      { intros j q Hq. destruct (Nat.eq_dec j i) as [->|D]; [left; split; [reflexivity|]; rewrite nth_error_upd_eq in Hq by lia; congruence|right; rewrite nth_error_upd_neq in Hq by auto; auto]. }
      pose proof (A _ _ Ei) as Ai. unfold agrees in Ai. rewrite Ek in Ai.
      split; [cbn; now rewrite upd_length|]. split.
      { cbn [as_isl]. intros j q Hq. destruct (NTH _ _ Hq) as [[-> ->]|[D Hq']]; [unfold agrees; cbn; lia|now apply A]. }
      cbv zeta. cbn [as_isl as_pos]. split; [lia|]. split; [intros j q Hj Hq; destruct (NTH _ _ Hq) as [[_ ->]|[D Hq']]; [reflexivity|apply (C j q); [lia|exact Hq']]|].
      split; [intros j q Hj Hq; destruct (NTH _ _ Hq) as [[-> _]|[_ Hq']]; [lia|apply S; [lia|exact Hq']]|]. exists m. split; [lia|auto].
    + injection H as <- <-. apply nth_error_None in Ei. assert (i = n) by lia. subst i. split; [|split; [|cbn; lia]].
      * split; [exact L|]. cbn [as_isl as_pos]. cbv zeta. assert (N : forall j q, nth_error (as_isl s) j = Some q -> q = mkai 0 None) by (intros j q Hq; apply (C j q); [rewrite <- L; apply nth_error_Some; congruence|exact Hq]). split.
        -- intros j q Hq. pose proof (A j q Hq) as Aj. unfold agrees in *. rewrite of_island_app, submitted_app, finished_app. cbn. lia.
        -- intros j q _ Hq. rewrite (N j q Hq). unfold error_in. rewrite of_island_app, first_error_app. reflexivity.
      * constructor; [|constructor]. cbn [agood]. split; [|symmetry; apply (lowest_at _ m); auto].
        intros j Hj. destruct (nth_error (as_isl s) j) as [q|] eqn:Ej; [|apply nth_error_None in Ej; lia]. rewrite (agree_busy _ _ _ (A _ _ Ej)). rewrite (C j q Hj Ej). cbn. lia.
Qed.
Lemma arun_inv n tr s : arun n tr s -> ainv n tr s.
Proof.
  induction 1 as [|tr is j u er H IH E|tr is H IH|tr is H IH|tr is H IH|tr s ev s' H IH E|tr s j e is H IH E].
  - split; [apply repeat_length|]. cbn [as_isl as_pos]. cbv zeta. assert (N : forall j k, nth_error (repeat (mkai 0 None) n) j = Some k -> k = mkai 0 None) by (intros j k K; apply nth_error_In in K; apply repeat_spec in K; exact K).
    split; [intros j k K|intros j k _ K]; rewrite (N _ _ K); reflexivity.
  - destruct IH as (L & A & P). cbv zeta in P. cbn [as_isl as_pos] in *. assert (Hj : j < length is) by (apply nth_error_Some; congruence). split; [cbn; now rewrite upd_length|]. cbn [as_isl as_pos]. cbv zeta.
    assert (O : forall i, of_island i (tr ++ [ASubmit j]) = if Nat.eqb j i then of_island i tr ++ [Submit] else of_island i tr).
    { intros i. rewrite of_island_app. cbn. destruct (Nat.eqb j i); [reflexivity|apply app_nil_r]. }
    split; intros i k; [|intros _]; (destruct (Nat.eq_dec i j) as [->|D]; [rewrite nth_error_upd_eq by lia; intros [= <-]|rewrite nth_error_upd_neq by auto; intros K]).
    + unfold agrees. rewrite O, Nat.eqb_refl, submitted_app, finished_app. pose proof (A _ _ E) as Aj. unfold agrees in Aj. cbn in *. lia.
    + unfold agrees. rewrite O. destruct (Nat.eqb_spec j i); [congruence|]. now apply A.
    + unfold error_in. rewrite O, Nat.eqb_refl, first_error_app. cbn. exact (P j _ ltac:(lia) E).
    + unfold error_in. rewrite O. destruct (Nat.eqb_spec j i); [congruence|]. apply P; [lia|exact K].
  - destruct IH as (L & A & P). cbv zeta in P. cbn [as_isl as_pos] in *. destruct (silent_inv tr AStatusCall _ eq_refl A P) as [A' S']. split; [exact L|]. split; [exact A'|]. cbv zeta. cbn [as_isl as_pos]. split; [exact S'|]. split; [lia|].
    exists tr, []. repeat split; auto; intros; lia.
  - destruct IH as (L & A & P). split; [exact L|]. split; [exact A|]. cbv zeta in *. cbn [as_isl as_pos] in *. split; [exact P|]. split; [lia|]. intros j k Hj. lia.
  - destruct IH as (L & A & P). split; [exact L|]. split; [exact A|]. cbv zeta in *. cbn [as_isl as_pos] in *. split; [lia|]. split; [intros j k Hj; lia|exact P].
  - now apply (ainv_client _ _ _ _ _ IH E).
  - now apply ainv_finish.
Qed.
Lemma arun_ret n tr ev s : arun n (tr ++ [ev]) s -> agood n tr ev.
Proof.
  intros H. remember (tr ++ [ev]) as t eqn:Et. revert tr ev Et. induction H as [|t is j u er H IH E|t is H IH|t is H IH|t is H IH|t s ev s' H IH E|t s j e is H IH E]; intros tr x Et; auto.
  - destruct tr; discriminate.
  - apply app_inj_tail in Et. destruct Et as [-> <-]. exact I.
  - apply app_inj_tail in Et. destruct Et as [-> <-]. exact I.
  - destruct (snoc_split _ _ _ _ Et) as [(-> & ->)|(b & -> & ->)]; [now apply IH|]. destruct (ainv_client _ _ _ _ _ (arun_inv _ _ _ H) E) as (_ & F & L).
    rewrite app_length in L. cbn in L. destruct b; [|cbn in L; lia]. rewrite app_nil_r. now inversion F.
  - apply app_inj_tail in Et. destruct Et as [-> <-]. exact I.
Qed.
Lemma astatus_ret n tr st s : arun n (tr ++ [AStatusRet st]) s -> exists tr0 mid, tr = tr0 ++ AStatusCall :: mid /\ forallb is_finish mid = true /\
      (is_busy st = true -> exists j, j < n /\ busy_in tr0 j) /\ (is_busy st = false -> forall j, j < n -> ~ busy_in tr j) /\
      (is_error st = true -> exists j, j < n /\ error_in tr j <> None) /\ (is_error st = false -> forall j, j < n -> error_in tr0 j = None).
Proof. exact (arun_ret n tr (AStatusRet st) s). Qed.
Lemma astatus_quiet n tr0 st s : arun n (tr0 ++ [AStatusCall] ++ [AStatusRet st]) s ->
  (is_busy st = true <-> exists j, j < n /\ busy_in tr0 j) /\ (is_error st = true <-> exists j, j < n /\ error_in tr0 j <> None).
Proof.
  rewrite app_assoc. intros H. destruct (astatus_ret _ _ _ _ H) as (t & mid & E & F & B1 & B2 & E1 & E2).
  assert (X : t = tr0 /\ mid = []).
  { destruct mid as [|y mid _] using rev_ind; [apply app_inj_tail in E; destruct E; auto|]. change (tr0 ++ [AStatusCall] = t ++ (AStatusCall :: mid) ++ [y]) in E. rewrite app_assoc in E. apply app_inj_tail in E. destruct E as [_ <-].
    rewrite forallb_app in F. cbn in F. rewrite andb_false_r in F. discriminate. }
  destruct X as [-> ->]. assert (B2' : is_busy st = false -> forall j, j < n -> ~ busy_in tr0 j). { intros Z j Hj. specialize (B2 Z j Hj). unfold busy_in in *. now rewrite of_silent in B2. }
  assert (E1' : is_error st = true -> exists j, j < n /\ error_in tr0 j <> None). { intros Z. destruct (E1 Z) as (j & Hj & Ej). exists j. split; [exact Hj|]. unfold error_in in *. now rewrite of_silent in Ej. }
  split; split.
  - exact B1.
  - intros (j & Hj & Bj). destruct (is_busy st) eqn:Z; [reflexivity|]. exfalso. exact (B2' eq_refl j Hj Bj).
  - exact E1'.
  - intros (j & Hj & Ej). destruct (is_error st) eqn:Z; [reflexivity|]. exfalso. exact (Ej (E2 eq_refl j Hj)).
Qed.
Lemma await_ret n tr s : arun n (tr ++ [AWaitRet]) s -> (forall j, j < n -> ~ busy_in tr j) /\ forall j, error_in (tr ++ [AWaitRet]) j = error_in tr j.
Proof. intros H. split; [exact (arun_ret n tr AWaitRet s H)|]. intros j. unfold error_in. now rewrite of_silent. Qed.
Lemma acheck_ret n tr r s : arun n (tr ++ [ACheckRet r]) s -> (forall j, j < n -> ~ busy_in tr j) /\ r = lowest (map (error_in tr) (seq 0 n)) /\ forall j, error_in (tr ++ [ACheckRet r]) j = None.
Proof. intros H. destruct (arun_ret n tr (ACheckRet r) s H) as [A B]. split; [exact A|]. split; [exact B|]. intros j. unfold error_in. rewrite of_island_app, first_error_app. reflexivity. Qed.

(** Every call returns once nothing is left to do. *)
Definition aleft (n : nat) (s : astate) : nat := match as_pos s with AIdle => 0 | AStatus i _ _ _ _ | AWait i | ACheck i | ACheckRest i _ => S n - i end.
Lemma areturns n tr s : arun n tr s -> (exists i a b c d, as_pos s = AStatus i a b c d) \/ (forall j, j < n -> ~ busy_in tr j) -> exists s', asteps s s' /\ as_pos s' = AIdle.
Proof.
  remember (aleft n s) as m eqn:Em. revert tr s Em. induction m as [m IH] using lt_wf_ind. intros tr s -> H C.
  pose proof (arun_inv _ _ _ H) as (L & A & P). cbv zeta in P.
  assert (GO : forall ev s1, aclient_step s = Some (ev, s1) -> as_pos s1 = AIdle \/ (ev = [] /\ aleft n s1 < aleft n s /\ ((exists i a b c d, as_pos s = AStatus i a b c d) -> exists i a b c d, as_pos s1 = AStatus i a b c d)) -> exists s', asteps s s' /\ as_pos s' = AIdle).
  { intros ev s1 E [I|(-> & D & ST)]; [exists s1; split; [econstructor; [exact E|constructor]|exact I]|]. pose proof (ar_client _ _ _ _ _ H E) as H1. rewrite app_nil_r in H1.
    destruct (IH _ D tr s1 eq_refl H1) as (s2 & X & Y); [destruct C as [C|C]; auto|]. exists s2. split; [econstructor; eassumption|exact Y]. }
  assert (IDLE : (forall j, j < n -> ~ busy_in tr j) -> forall i k, nth_error (as_isl s) i = Some k -> ai_left k = 0).
  { intros Q i k E. specialize (Q i). rewrite <- L in Q. assert (i < length (as_isl s)) by (apply nth_error_Some; congruence). specialize (Q H0). rewrite (agree_busy _ _ _ (A _ _ E)) in Q. lia. }
  assert (NTH : forall i k, nth_error (as_isl s) i = Some k -> i < n) by (intros i k E; rewrite <- L; apply nth_error_Some; congruence).
  unfold aclient_step, aleft in GO. destruct (as_pos s) as [|i a b c d|i|i|i x] eqn:EP.
  - exists s. split; [constructor|exact EP].
  - destruct (nth_error (as_isl s) i) as [k|] eqn:Ei; [|eapply GO; [reflexivity|left; reflexivity]]. specialize (NTH _ _ Ei). eapply GO; [reflexivity|]. right. split; [reflexivity|]. destruct (isl_status k); cbn [as_pos]; (split; [lia|]; intros _; eauto 10).
  - destruct C as [(? & ? & ? & ? & ? & C)|C]; [discriminate|]. destruct (nth_error (as_isl s) i) as [k|] eqn:Ei; [|eapply GO; [reflexivity|left; reflexivity]]. rewrite (IDLE C i k Ei) in GO. specialize (NTH _ _ Ei).
    eapply GO; [reflexivity|]. right. cbn [as_pos]. split; [reflexivity|]. split; [lia|]. intros (? & ? & ? & ? & ? & Q). discriminate.
  - destruct C as [(? & ? & ? & ? & ? & C)|C]; [discriminate|]. destruct (nth_error (as_isl s) i) as [k|] eqn:Ei; [|eapply GO; [reflexivity|left; reflexivity]]. rewrite (IDLE C i k Ei) in GO. specialize (NTH _ _ Ei).
    eapply GO; [reflexivity|]. right. cbn [as_pos]. split; [reflexivity|]. destruct (ai_err k); (split; [lia|]); intros (? & ? & ? & ? & ? & Q); discriminate.
  - destruct C as [(? & ? & ? & ? & ? & C)|C]; [discriminate|]. destruct (nth_error (as_isl s) i) as [k|] eqn:Ei; [|eapply GO; [reflexivity|left; reflexivity]]. rewrite (IDLE C i k Ei) in GO. specialize (NTH _ _ Ei).
    eapply GO; [reflexivity|]. right. cbn [as_pos]. split; [reflexivity|]. split; [lia|]. intros (? & ? & ? & ? & ? & Q). discriminate.
Qed.

(** Playing a schedule, for concrete runs. *)
Inductive iact := DoCall (c : icall) | DoStep | DoFinish (e : option exn).
Definition iplay1 (x : list ievent * istate) (a : iact) : option (list ievent * istate) :=
  let (tr, s) := x in
  match a with
  | DoCall c => option_map (fun r => (tr ++ fst r, snd r)) (begin_call s c)
  | DoStep => option_map (fun r => (tr ++ fst r, snd r)) (client_step s)
  | DoFinish e => option_map (fun fs => (tr ++ [Finish e], mkis fs (is_pos s))) (finish_first e (is_futs s))
  end.
Fixpoint iplay (x : list ievent * istate) (l : list iact) : option (list ievent * istate) :=
  match l with [] => Some x | a :: l' => match iplay1 x a with Some y => iplay y l' | None => None end end.
Lemma iplay_sound l tr s tr' s' : irun tr s -> iplay (tr, s) l = Some (tr', s') -> irun tr' s'.
Proof.
  revert tr s. induction l as [|a l IH]; intros tr s H E; cbn in E; [injection E as <- <-; exact H|].
  destruct a; [destruct (begin_call s c) as [[ev s1]|] eqn:K|destruct (client_step s) as [[ev s1]|] eqn:K|destruct (finish_first e (is_futs s)) as [fs|] eqn:K]; cbn in E; try discriminate; (eapply IH; [|exact E]).
  - eapply ir_call; eauto.
  - eapply ir_client; eauto.
  - now apply ir_finish.
Qed.
Lemma iplay_run l tr s : iplay ([], mkis [] KIdle) l = Some (tr, s) -> irun tr s.
Proof. apply iplay_sound. constructor. Qed.

Inductive aact := DoSubmit (j : nat) | DoStatus | DoWait | DoCheck | DoAStep | DoAFinish (j : nat) (e : option exn).
Definition aplay1 (x : list aevent * astate) (a : aact) : option (list aevent * astate) :=
  let (tr, s) := x in
  match a with
  | DoAStep => option_map (fun r => (tr ++ fst r, snd r)) (aclient_step s)
  | DoAFinish j e => option_map (fun is => (tr ++ [AFinish j e], mkas is (as_pos s))) (afinish j e (as_isl s))
  | _ => match as_pos s with
         | AIdle => match a with
                    | DoSubmit j => match nth_error (as_isl s) j with Some k => Some (tr ++ [ASubmit j], mkas (upd (as_isl s) j (mkai (S (ai_left k)) (ai_err k))) AIdle) | None => None end
                    | DoStatus => Some (tr ++ [AStatusCall], mkas (as_isl s) (AStatus 0 0 0 0 0))
                    | DoWait => Some (tr, mkas (as_isl s) (AWait 0))
                    | _ => Some (tr, mkas (as_isl s) (ACheck 0))
                    end
         | _ => None
         end
  end.
Fixpoint aplay (x : list aevent * astate) (l : list aact) : option (list aevent * astate) :=
  match l with [] => Some x | a :: l' => match aplay1 x a with Some y => aplay y l' | None => None end end.
Lemma aplay_sound n l tr s tr' s' : arun n tr s -> aplay (tr, s) l = Some (tr', s') -> arun n tr' s'.
Proof.
  revert tr s. induction l as [|a l IH]; intros tr s H E; cbn [aplay] in E; [injection E as <- <-; exact H|].
  destruct (aplay1 (tr, s) a) as [[tr1 s1]|] eqn:K; [|discriminate]. apply (IH tr1 s1); [|exact E]. clear IH E. unfold aplay1 in K. destruct s as [is p].
  destruct a; cbn [as_isl as_pos] in K.
  - destruct p; try discriminate. destruct (nth_error is j) as [[u er]|] eqn:N; [|discriminate]. injection K as <- <-. now apply ar_submit.
  - destruct p; try discriminate. injection K as <- <-. now apply ar_status.
  - destruct p; try discriminate. injection K as <- <-. now apply ar_wait.
  - destruct p; try discriminate. injection K as <- <-. now apply ar_check.
  - destruct (aclient_step (mkas is p)) as [[ev s2]|] eqn:N; [|discriminate]. injection K as <- <-. eapply ar_client; eauto.
  - destruct (afinish j e is) as [is'|] eqn:N; [|discriminate]. injection K as <- <-. now apply (ar_finish n tr (mkas is p)).
Qed.
Lemma aplay_run n l tr s : aplay ([], mkas (repeat (mkai 0 None) n) AIdle) l = Some (tr, s) -> arun n tr s.
Proof. apply aplay_sound. constructor. Qed.

(** The combined status need not hold at any one moment. *)
Lemma snapshot_refuted : exists n tr0 mid s, arun n (tr0 ++ AStatusCall :: mid ++ [AStatusRet SBusyError]) s /\ forallb is_finish mid = true /\
  forall m1 m2, mid = m1 ++ m2 -> ~ ((exists j, j < n /\ busy_in (tr0 ++ AStatusCall :: m1) j) /\ (exists j, j < n /\ error_in (tr0 ++ AStatusCall :: m1) j <> None)).
Proof.
  exists 2, [ASubmit 0; ASubmit 1], [AFinish 0 None; AFinish 1 (Some RuntimeError)], (mkas [mkai 0 None; mkai 0 (Some RuntimeError)] AIdle). split; [|split].
  - apply (aplay_run 2 [DoSubmit 0; DoSubmit 1; DoStatus; DoAStep; DoAFinish 0 None; DoAFinish 1 (Some RuntimeError); DoAStep; DoAStep]). reflexivity.
  - reflexivity.
  - intros m1 m2 E [(j & Hj & B) (k & Hk & K)]. assert (J : j = 0 \/ j = 1) by lia. assert (Q : k = 0 \/ k = 1) by lia. clear Hj Hk.
    destruct m1 as [|x [|y [|z m1]]]; cbn in E; try discriminate; [clear E|injection E as <- _|injection E as <- <- _]; destruct J as [-> | ->], Q as [-> | ->]; unfold busy_in in B; cbn in B, K; try lia; try congruence.
Qed.
