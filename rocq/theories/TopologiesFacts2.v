(** Facts about ring, fully connected and wrapped topologies. *)
From Coq Require Import List Bool Arith ZArith Lia.
From Verif Require Import Dbl Outcome BaseFacts DblFacts Topologies SpecTopologies TopologiesFacts.
Import ListNotations.

Lemma ring_w_neighbour n w i j v : ring_w n w j i = Some v <-> ring_neighbour n i j /\ v = w.
Proof.
  unfold ring_w, ring_neighbour.
  assert (MOD : forall a, a < n -> (a + 1) mod n = if Nat.eqb a (n - 1) then 0 else a + 1).
  { intros a Ha. destruct (Nat.eqb_spec a (n - 1)).
    - replace (a + 1) with n by lia. apply Nat.mod_same. lia.
    - apply Nat.mod_small. lia. }
  destruct (Nat.ltb_spec j n); cbn [andb]; [|split; [discriminate|lia]].
  destruct (Nat.ltb_spec i n); cbn [andb]; [|split; [discriminate|lia]].
  destruct (Nat.eqb_spec j i); cbn [andb negb]; [split; [discriminate|lia]|].
  rewrite !MOD by lia.
  split.
  - intros H1. assert (v = w) by (match type of H1 with (if ?b then _ else _) = _ => destruct b end; congruence). split; auto.
    split; [lia|]. split; [lia|]. split; [lia|]. revert H1. bcase; intros; lia.
  - intros ((_ & _ & _ & K) & ->). revert K. bcase; intros; lia.
Qed.

Lemma ring_w_0 w i j : ring_w 0 w i j = None.
Proof. reflexivity. Qed.
Lemma ring_pushes_ok w : weight_ok w -> forall k n g, repr g (mkag n (ring_w n w)) ->
  exists g', ring_pushes k w g = Ok g' /\ repr g' (mkag (n + k) (ring_w (n + k) w)).
Proof.
  intros W. induction k as [|k IH]; intros n g R; cbn [ring_pushes].
  - rewrite Nat.add_0_r. exists g. auto.
  - destruct (ring_step n w g W R) as (g1 & E & R1). rewrite E. cbn [bind].
    destruct (IH (S n) g1 R1) as (g2 & E2 & R2). exists g2. split; auto. replace (n + S k) with (S n + k) by lia. exact R2.
Qed.
Lemma ring_ctor_repr n w : weight_ok w -> exists g, ring_ctor n w = Ok g /\ repr g (mkag n (ring_w n w)).
Proof.
  intros W. unfold ring_ctor. destruct (check_weight_cases w) as [[-> _]|[_ K]]; [|contradiction]. cbn [bind].
  apply (ring_pushes_ok w W n 0). apply (repr_ext empty_graph no_graph); auto; [apply repr_empty].
Qed.

Lemma all_repeat {A} (l : list A) a : (forall x, In x l -> x = a) -> l = repeat a (length l).
Proof. induction l as [|x l IH]; intros H; cbn; auto. rewrite (H x) by (left; auto). f_equal. apply IH. intros; apply H; right; auto. Qed.

Lemma repr_lists g n w (P : nat -> nat -> Prop) m i : repr g (mkag n m) -> (forall j v, m j i = Some v <-> P i j /\ v = w) -> i < n ->
  exists r, get_connections g i = Ok r /\ lists_exactly (P i) w r.
Proof.
  intros R HM Hi. destruct (connections_ok g _ i R Hi) as (js & ws & E & L & ND & C). exists (js, ws). split; [exact E|].
  cbn [a_w] in C. split; [exact ND|]. cbn [fst snd]. split.
  - intros j. split.
    + intros H. apply In_nth_error in H. destruct H as (k & Hk).
      assert (k < length ws) by (rewrite L; apply nth_error_Some; congruence).
      destruct (nth_error ws k) as [v|] eqn:Ev; [|apply nth_error_None in Ev; lia].
      assert (m j i = Some v) by (apply C; eauto). apply HM in H0. tauto.
    + intros H. assert (m j i = Some w) by (apply HM; auto). apply C in H0. destruct H0 as (k & K & _). eapply nth_error_In; eauto.
  - rewrite <- L. apply all_repeat. intros v Hv. apply In_nth_error in Hv. destruct Hv as (k & Hk).
    assert (k < length js) by (rewrite <- L; apply nth_error_Some; congruence).
    destruct (nth_error js k) as [j|] eqn:Ej; [|apply nth_error_None in Ej; lia].
    assert (m j i = Some v) by (apply C; eauto). apply HM in H0. tauto.
Qed.

Lemma ring_spec n w : (weight_ok w -> exists g, ring_ctor n w = Ok g /\ gnv g = n /\
    (forall i, i < n -> exists r, get_connections g i = Ok r /\ lists_exactly (ring_neighbour n i) w r) /\
    (forall i, n <= i -> get_connections g i = Throw InvalidArgument)) /\
  (~ weight_ok w -> ring_ctor n w = Throw InvalidArgument).
Proof.
  split; intros W.
  - destruct (ring_ctor_repr n w W) as (g & E & R). exists g. split; [exact E|]. split; [apply R|]. split.
    + intros i Hi. apply (repr_lists g n w (fun i j => ring_neighbour n i j) _ i R); auto. intros j v. apply ring_w_neighbour.
    + intros i Hi. destruct R as (N & _). cbn in N. unfold get_connections. destruct (check_vertex_cases g i) as [[_ K]|[-> _]]; [lia|reflexivity].
  - unfold ring_ctor. destruct (check_weight_cases w) as [[_ K]|[-> _]]; [contradiction|reflexivity].
Qed.
Lemma ring_grow n w g : weight_ok w -> ring_ctor n w = Ok g -> exists g', ring_push_back w g = Ok g' /\ ring_ctor (S n) w = Ok g'.
Proof.
  intros W E. destruct (ring_ctor_repr n w W) as (g0 & E0 & R). rewrite E in E0. injection E0 as <-.
  destruct (ring_step n w g W R) as (g' & E1 & _). exists g'. split; auto.
  unfold ring_ctor in *. destruct (check_weight_cases w) as [[EW _]|[_ K]]; [|contradiction]. rewrite EW in *. cbn [bind] in *.
  revert E E1. generalize empty_graph. clear. induction n as [|n IH]; intros g0 E E1; cbn [ring_pushes] in *.
  - injection E as <-. rewrite E1. reflexivity.
  - destruct (ring_push_back w g0) as [g1| | |]; try discriminate. cbn [bind] in *. apply IH; auto.
Qed.

(** On a ring of at least three vertices: exactly the two neighbours. *)
Lemma ring_neighbour_3 n i j : 3 <= n -> (ring_neighbour n i j <-> i < n /\ (j = (i + 1) mod n \/ j = (i + (n - 1)) mod n)).
Proof.
  intros H. unfold ring_neighbour.
  assert (MOD : forall a, a < n -> (a + 1) mod n = if Nat.eqb a (n - 1) then 0 else a + 1).
  { intros a Ha. destruct (Nat.eqb_spec a (n - 1)).
    - replace (a + 1) with n by lia. apply Nat.mod_same. lia.
    - apply Nat.mod_small. lia. }
  assert (MOD' : forall a, a < n -> (a + (n - 1)) mod n = if Nat.eqb a 0 then n - 1 else a - 1).
  { intros a Ha. destruct (Nat.eqb_spec a 0).
    - subst. apply Nat.mod_small. lia.
    - replace (a + (n - 1)) with (a - 1 + 1 * n) by lia. rewrite Nat.mod_add by lia. apply Nat.mod_small. lia. }
  split.
  - intros (A & B & C & D). split; auto. rewrite !MOD in D by lia. rewrite MOD, MOD' by lia.
    destruct (Nat.eqb_spec i (n - 1)), (Nat.eqb_spec j (n - 1)), (Nat.eqb_spec i 0); lia.
  - intros (A & D). rewrite MOD, MOD' in D by lia.
    assert (B : j < n) by (destruct (Nat.eqb_spec i (n - 1)), (Nat.eqb_spec i 0); lia).
    split; [lia|]. split; [lia|]. rewrite !MOD by lia.
    destruct (Nat.eqb_spec i (n - 1)), (Nat.eqb_spec j (n - 1)), (Nat.eqb_spec i 0); lia.
Qed.
Lemma ring_neighbour_small : (forall i j, ~ ring_neighbour 1 i j) /\ (forall i j, ring_neighbour 2 i j <-> i < 2 /\ j = 1 - i).
Proof.
  split.
  - intros i j (A & B & C & _). lia.
  - intros i j. unfold ring_neighbour. split.
    + intros (A & B & C & _). lia.
    + intros (A & ->). destruct i as [|[|i]]; [| |lia]; cbn; lia.
Qed.

(** ** Fully connected *)
Lemma upd_app {A} (a : A) l x t : upd (l ++ x :: t) (length l) a = l ++ a :: t.
Proof. induction l; cbn; congruence. Qed.
Lemma vset_run d : forall len pre post, len <= length post ->
  mfold (fun v j => vset v (j - d) j) (pre ++ post) (seq (length pre + d) len) = Ok (pre ++ seq (length pre + d) len ++ skipn len post).
Proof.
  induction len as [|len IH]; intros pre post L; [reflexivity|].
  destruct post as [|x post]; [cbn in L; lia|]. cbn [length] in L. cbn [seq mfold].
  replace (length pre + d - d) with (length pre) by lia. unfold vset.
  destruct (Nat.ltb_spec (length pre) (length (pre ++ x :: post))) as [H|H]; [|rewrite app_length in H; cbn in H; lia].
  cbn [bind]. rewrite upd_app.
  replace (pre ++ (length pre + d) :: post) with ((pre ++ [length pre + d]) ++ post) by (rewrite <- app_assoc; reflexivity).
  replace (S (length pre + d)) with (length (pre ++ [length pre + d]) + d) by (rewrite app_length; cbn; lia).
  rewrite IH by lia. rewrite <- !app_assoc. reflexivity.
Qed.
Lemma mfold_ext {A B} (f g : A -> B -> outcome A) l : (forall a b, f a b = g a b) -> forall a, mfold f a l = mfold g a l.
Proof. intros H. induction l as [|b l IH]; intros a; cbn; auto. rewrite H. destruct (g a b); cbn; auto. Qed.

Lemma full_connections_eq t i : i < fc_n t ->
  full_connections t i = Ok (seq 0 i ++ seq (i + 1) (fc_n t - (i + 1)), repeat (fc_w t) (fc_n t - 1)).
Proof.
  intros H. unfold full_connections. destruct (Nat.leb_spec (fc_n t) i); [lia|]. cbn [throw_if bind].
  rewrite (mfold_ext _ (fun v j => vset v (j - 0) j)) by (intros; now rewrite Nat.sub_0_r).
  pose proof (vset_run 0 i [] (repeat 0 (fc_n t - 1))) as R1. cbn [app length Nat.add] in R1. rewrite R1 by (rewrite repeat_length; lia). cbn [bind].
  pose proof (vset_run 1 (fc_n t - (i + 1)) (seq 0 i) (skipn i (repeat 0 (fc_n t - 1)))) as R2. rewrite seq_length in R2.
  rewrite R2 by (rewrite skipn_length, repeat_length; lia). cbn [bind]. rewrite (skipn_all2 (n := fc_n t - (i + 1))) by (rewrite skipn_length, repeat_length; lia).
  rewrite app_nil_r. reflexivity.
Qed.
Lemma full_lists n w i : i < n -> lists_exactly (fun j => j < n /\ j <> i) w (seq 0 i ++ seq (i + 1) (n - (i + 1)), repeat w (n - 1)).
Proof.
  intros H. split; [|split]; cbn [fst snd].
  - apply NoDup_app_intro; try apply seq_NoDup. intros x A B. apply in_seq in A, B. lia.
  - intros j. rewrite in_app_iff, !in_seq. lia.
  - rewrite app_length, !seq_length. f_equal. lia.
Qed.

Definition full_w (n : nat) (w : dbl) (i j : nat) : option dbl := if Nat.ltb i n && Nat.ltb j n && negb (Nat.eqb i j) then Some w else None.
Lemma full_w_spec n w i j v : full_w n w i j = Some v <-> i < n /\ j < n /\ i <> j /\ v = w.
Proof.
  unfold full_w. destruct (Nat.ltb_spec i n) as [A|A]; cbn [andb]; [|split; [discriminate|lia]].
  destruct (Nat.ltb_spec j n) as [B|B]; cbn [andb]; [|split; [discriminate|lia]].
  destruct (Nat.eqb_spec i j) as [C|C]; cbn [negb]; [split; [discriminate|lia]|].
  split; [intros [= <-]; auto|intros (_ & _ & _ & ->); reflexivity].
Qed.

Lemma full_inner w i n0 : forall js g, gnv g <= n0 -> i < n0 -> (forall j, In j js -> j < n0) ->
  let g' := fold_left (fun g j => if Nat.eqb i j then g else bgl_add_edge g i j w) js g in
  gedges g' = gedges g ++ map (fun j => (i, j, w)) (filter (fun j => negb (Nat.eqb i j)) js) /\ gnv g' <= n0 /\ gnv g <= gnv g' /\
  (forall j, In j js -> j <> i -> j < gnv g').
Proof.
  induction js as [|j js IH]; intros g HG HI HJ; cbn [fold_left filter map].
  - rewrite app_nil_r. split; [auto|]. split; [auto|]. split; [auto|]. intros j [].
  - assert (Hj : j < n0) by (apply HJ; left; auto).
    destruct (Nat.eqb_spec i j) as [->|D]; cbn [negb].
    + destruct (IH g HG HI) as (A & B & C & E); [intros; apply HJ; right; auto|]. cbn zeta in *. split; [exact A|]. split; [exact B|]. split; [exact C|].
      intros k [<-|K] N; [congruence|auto].
    + destruct (IH (bgl_add_edge g i j w)) as (A & B & C & E); [unfold bgl_add_edge; cbn [gnv]; lia|exact HI|intros; apply HJ; right; auto|].
      cbn zeta in *. split; [rewrite A; unfold bgl_add_edge; cbn [gedges map]; rewrite <- app_assoc; reflexivity|]. split; [exact B|].
      unfold bgl_add_edge in C; cbn [gnv] in C. split; [eapply Nat.le_trans; [|exact C]; lia|].
      intros k [<-|K] N; [eapply Nat.lt_le_trans; [|exact C]; lia|auto].
Qed.
Lemma full_outer w n0 js : (forall j, In j js -> j < n0) -> forall is_ g, gnv g <= n0 -> (forall i, In i is_ -> i < n0) ->
  let g' := fold_left (fun g i => fold_left (fun g j => if Nat.eqb i j then g else bgl_add_edge g i j w) js g) is_ g in
  gedges g' = gedges g ++ flat_map (fun i => map (fun j => (i, j, w)) (filter (fun j => negb (Nat.eqb i j)) js)) is_ /\ gnv g' <= n0 /\ gnv g <= gnv g' /\
  (forall i j, In i is_ -> In j js -> j <> i -> j < gnv g').
Proof.
  intros HJ. induction is_ as [|i l IH]; intros g HG HI; cbn [fold_left flat_map].
  - rewrite app_nil_r. split; [auto|]. split; [auto|]. split; [auto|]. intros i j [].
  - destruct (full_inner w i n0 js g HG) as (A & B & C & E); [apply HI; left; auto|exact HJ|]. cbn zeta in *.
    destruct (IH _ B) as (A2 & B2 & C2 & E2); [intros; apply HI; right; auto|].
    split; [rewrite A2, A, app_assoc; reflexivity|]. split; [exact B2|]. split; [lia|].
    intros k j [<-|K] J N; [|eapply E2; eauto]. pose proof (E j J N). lia.
Qed.

Lemma flat_pairs_in n (w : dbl) i j (v : dbl) : In (i, j, v) (flat_map (fun i => map (fun j => (i, j, w)) (filter (fun j => negb (Nat.eqb i j)) (seq 0 n))) (seq 0 n)) <->
  i < n /\ j < n /\ i <> j /\ v = w.
Proof.
  rewrite in_flat_map. split.
  - intros (k & K & H). apply in_map_iff in H. destruct H as (l & E & H). injection E as -> -> ->. apply filter_In in H. destruct H as [H N].
    apply in_seq in K, H. apply negb_true_iff, Nat.eqb_neq in N. lia || (repeat split; auto; lia).
  - intros (A & B & C & ->). exists i. split; [apply in_seq; lia|]. apply in_map_iff. exists j. split; auto. apply filter_In. split; [apply in_seq; lia|].
    apply negb_true_iff, Nat.eqb_neq. exact C.
Qed.
Lemma flat_pairs_nodup (w : dbl) js : NoDup js -> forall l, NoDup l -> NoDup (map fst (flat_map (fun i => map (fun j => (i, j, w)) (filter (fun j => negb (Nat.eqb i j)) js)) l)).
Proof.
  intros NJ. induction l as [|i l IH]; intros NL; cbn [flat_map map]; [constructor|]. inversion NL as [|? ? NI NL']; subst.
  rewrite map_app. apply NoDup_app_intro; [|auto|].
  - rewrite map_map. cbn. apply FinFun.Injective_map_NoDup; [intros x y E; congruence|]. now apply NoDup_filter.
  - intros [a b] A B. rewrite map_map in A. apply in_map_iff in A. destruct A as (j & E & _). cbn in E. injection E as <- <-.
    apply in_map_iff in B. destruct B as (e & E & B). apply in_flat_map in B. destruct B as (k & K & B). apply in_map_iff in B. destruct B as (m & <- & _).
    cbn in E. injection E as -> _. contradiction.
Qed.
Lemma full_to_bgl_repr t : weight_ok (fc_w t) -> repr (full_to_bgl t) (mkag (fc_n t) (full_w (fc_n t) (fc_w t))).
Proof.
  intros W. destruct t as [w n]. cbn [fc_w fc_n] in *.
  assert (B : forall i j v, full_w n w i j = Some v -> i < n /\ j < n /\ weight_ok v).
  { intros i j v H. apply full_w_spec in H. destruct H as (? & ? & ? & ->). auto. }
  unfold full_to_bgl. cbn [fc_n fc_w].
  destruct n as [|[|m]].
  - split; [reflexivity|]. split; [constructor|]. split; [|exact B]. intros i j v. cbn [a_w]. rewrite full_w_spec. cbn. lia.
  - split; [reflexivity|]. split; [constructor|]. split; [|exact B]. intros i j v. cbn [a_w]. rewrite full_w_spec. cbn. lia.
  - set (n := S (S m)) in *.
    destruct (full_outer w n (seq 0 n)) with (is_ := seq 0 n) (g := empty_graph) as (A & C & _ & E).
    { intros j H. apply in_seq in H. lia. } { cbn. lia. } { intros j H. apply in_seq in H. lia. }
    cbn zeta in *. cbn [gedges empty_graph app] in A. split; [|split; [|split; [|exact B]]].
    + cbn [a_n]. apply Nat.le_antisymm; [exact C|]. assert (K : n - 1 < n) by (subst n; lia).
      pose proof (E 0 (n - 1)) as K2. cut (n - 1 < gnv (fold_left (fun g i => fold_left (fun g j => if Nat.eqb i j then g else bgl_add_edge g i j w) (seq 0 n) g) (seq 0 n) empty_graph)); [lia|].
      apply K2; [apply in_seq; lia|apply in_seq; lia|subst n; lia].
    + rewrite A. apply flat_pairs_nodup; apply seq_NoDup.
    + intros i j v. rewrite A. cbn [a_w]. rewrite full_w_spec. apply flat_pairs_in.
Qed.

Lemma full_spec n w : (weight_ok w -> exists t, full_ctor n w = Ok t /\ fc_n t = n /\ fc_w t = w) /\ (~ weight_ok w -> full_ctor n w = Throw InvalidArgument).
Proof.
  unfold full_ctor. split; intros W; destruct (check_weight_cases w) as [[E K]|[E K]]; rewrite E; try contradiction; cbn [bind]; eauto.
Qed.

(** The wrapper *)
Lemma topology_connections_spec udt n : (forall r, topology_connections udt n = Ok r <-> udt n = Ok r /\ length (fst r) = length (snd r) /\ Forall weight_ok (snd r)) /\
  (forall r, udt n = Ok r -> ~ (length (fst r) = length (snd r) /\ Forall weight_ok (snd r)) -> topology_connections udt n = Throw InvalidArgument) /\
  (forall e, udt n = Throw e -> topology_connections udt n = Throw e).
Proof.
  unfold topology_connections.
  assert (W : forall l, (Forall weight_ok l -> mfold (fun _ p => (throw_if (negb (isfinite p)) InvalidArgument ;;; throw_if (dlt p dzero || dgt p done) InvalidArgument)%outcome) tt l = Ok tt) /\
                        (~ Forall weight_ok l -> mfold (fun _ p => (throw_if (negb (isfinite p)) InvalidArgument ;;; throw_if (dlt p dzero || dgt p done) InvalidArgument)%outcome) tt l = Throw InvalidArgument)).
  { induction l as [|p l [IH1 IH2]]; cbn [mfold].
    - split; [auto|]. intros H; destruct H; constructor.
    - change ((throw_if (negb (isfinite p)) InvalidArgument ;;; throw_if (dlt p dzero || dgt p done) InvalidArgument)%outcome) with (check_weight p).
      destruct (check_weight_cases p) as [[-> K]|[-> K]]; cbn [bind].
      + split; intros H; [apply IH1; now inversion H|apply IH2; intros H2; apply H; constructor; auto].
      + split; intros H; [inversion H; contradiction|reflexivity]. }
  destruct (udt n) as [r0|e0| |] eqn:E; cbn [bind].
  2-4: split; [intros r; split; [discriminate|intros [K _]; discriminate]|split; [discriminate|congruence]].
  destruct (Nat.eqb_spec (length (fst r0)) (length (snd r0))) as [L|L]; cbn [negb throw_if bind].
  2:{ split; [intros r; split; [discriminate|intros ([= <-] & L2 & _); contradiction]|]. split; [auto|discriminate]. }
  destruct (W (snd r0)) as [W1 W2].
  assert (D : Forall weight_ok (snd r0) \/ ~ Forall weight_ok (snd r0)).
  { clear. induction (snd r0) as [|p l [IH|IH]]; [left; constructor| |right; intros H; inversion H; auto].
    destruct (check_weight_cases p) as [[_ K]|[_ K]]; [left; auto|right; intros H; inversion H; auto]. }
  destruct D as [D|D]; [rewrite (W1 D)|rewrite (W2 D)]; cbn [bind].
  - split; [intros r; split; [intros [= <-]; auto|intros ([= <-] & _); auto]|]. split; [intros r [= <-] N; destruct N; auto|discriminate].
  - split; [intros r; split; [discriminate|intros ([= <-] & _ & H); contradiction]|]. split; [auto|discriminate].
Qed.

Lemma history_from_empty ops : exists a, explained no_graph ops (fst (gcalls empty_graph ops)) a /\ proper a.
Proof.
  destruct (history_explained ops) as (a & E). exists a. split; auto. eapply explained_proper; eauto. intros i j w H; discriminate.
Qed.
Lemma history_from_graph g a ops : repr g a -> exists a', free_form_of g = Ok g /\ explained a ops (fst (gcalls g ops)) a' /\ proper a'.
Proof.
  intros R. destruct (gcalls_explained ops _ _ R) as (a' & E & R'). exists a'. split.
  - apply free_form_cases. intros [[i j] w] He. destruct R as (_ & _ & M & B). cbn. apply M in He. apply B in He. tauto.
  - split; auto. destruct R' as (_ & _ & _ & B). exact B.
Qed.
Lemma free_form_rejects g : free_form_of g = Throw InvalidArgument <-> exists e, In e (gedges g) /\ ~ weight_ok (ewt e).
Proof.
  destruct (free_form_cases g) as [A B]. split.
  - intros H.
    assert (D : forall l, (forall e, In e l -> weight_ok (ewt e)) \/ exists e, In e l /\ ~ weight_ok (ewt e)).
    { induction l as [|e l IH]; [left; intros e []|]. destruct (check_weight_cases (ewt e)) as [[_ K]|[_ K]].
      - destruct IH as [IH|(x & X1 & X2)]; [left; intros x [<-|Hx]; auto|right; exists x; split; [right|]; auto].
      - right. exists e. split; [left|]; auto. }
    destruct (D (gedges g)) as [K|K]; auto. rewrite (A K) in H. discriminate.
  - intros (e & He & N). apply B. intros K. apply N, K, He.
Qed.
Lemma ring_shape n w g : weight_ok w -> ring_ctor n w = Ok g -> gnv g = n /\
  (forall i, i < n -> exists r, get_connections g i = Ok r /\ lists_exactly (ring_neighbour n i) w r) /\
  (forall i, n <= i -> get_connections g i = Throw InvalidArgument).
Proof. intros W E. destruct (ring_spec n w) as [A _]. destruct (A W) as (g' & E' & K). rewrite E in E'. injection E' as <-. exact K. Qed.
Lemma ring_accepts n w : (weight_ok w -> exists g, ring_ctor n w = Ok g) /\ (~ weight_ok w -> ring_ctor n w = Throw InvalidArgument).
Proof. destruct (ring_spec n w) as [A B]. split; auto. intros W. destruct (A W) as (g & E & _). eauto. Qed.
Lemma full_shape n w t : full_ctor n w = Ok t ->
  (forall i, i < n -> exists r, full_connections t i = Ok r /\ lists_exactly (fun j => j < n /\ j <> i) w r) /\
  (forall i, n <= i -> full_connections t i = Throw InvalidArgument).
Proof.
  intros E. destruct (check_weight_cases w) as [[EW W]|[EW W]]; unfold full_ctor in E; rewrite EW in E; cbn [bind] in E; [|discriminate].
  injection E as <-. split; intros i Hi.
  - rewrite full_connections_eq by exact Hi. eexists. split; [reflexivity|]. cbn [fc_n fc_w]. now apply full_lists.
  - unfold full_connections. cbn [fc_n]. destruct (Nat.leb_spec n i); [reflexivity|lia].
Qed.
Lemma full_push n w t : full_ctor n w = Ok t -> full_ctor (S n) w = Ok (full_push_back t).
Proof.
  unfold full_ctor. destruct (check_weight w); cbn [bind]; try discriminate. intros [= <-]. unfold full_push_back. cbn. do 2 f_equal. lia.
Qed.
Lemma full_accepts n w : (weight_ok w -> exists t, full_ctor n w = Ok t) /\ (~ weight_ok w -> full_ctor n w = Throw InvalidArgument).
Proof. destruct (full_spec n w) as [A B]. split; auto. intros W. destruct (A W) as (t & E & _). eauto. Qed.
Lemma full_graph n w t : full_ctor n w = Ok t -> exists a, repr (full_to_bgl t) a /\ a_n a = n /\
  forall i j v, a_w a i j = Some v <-> i < n /\ j < n /\ i <> j /\ v = w.
Proof.
  intros E. destruct (check_weight_cases w) as [[EW W]|[EW W]]; unfold full_ctor in E; rewrite EW in E; cbn [bind] in E; [|discriminate].
  injection E as <-. exists (mkag n (full_w n w)). split; [apply (full_to_bgl_repr (mkfull w n) W)|]. split; [reflexivity|]. intros. apply full_w_spec.
Qed.
Lemma parallel_refuted : exists g i j w1 w2, free_form_of g = Ok g /\ In (i, j, w1) (gedges g) /\ In (i, j, w2) (gedges g) /\ w1 <> w2 /\
  get_connections g j = Ok ([i; i], [w1; w1]).
Proof.
  exists (mkgraph 2 [(0, 1, dzero); (0, 1, done)]), 0, 1, dzero, done.
  split; [vm_compute; reflexivity|]. split; [left; auto|]. split; [right; left; auto|]. split; [discriminate|]. vm_compute. reflexivity.
Qed.
