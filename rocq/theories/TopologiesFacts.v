(** Facts about topologies. *)
From Coq Require Import List Bool Arith ZArith Lia.
From Verif Require Import Dbl Outcome BaseFacts DblFacts Topologies SpecTopologies.
Import ListNotations.

Lemma bind_throw_if {A} b e (k : outcome A) : (throw_if b e ;;; k)%outcome = if b then Throw e else k.
Proof. destruct b; reflexivity. Qed.

Lemma weight_test w : (negb (isfinite w) || (dlt w dzero || dgt w done)) = false <-> weight_ok w.
Proof.
  unfold weight_ok, dzero, done, dgt. destruct w as [| |z|]; cbn [isfinite negb orb dlt]; split; intros H; try discriminate; try (destruct H; discriminate).
  - rewrite !dle_fin. apply orb_false_iff in H. destruct H as [A B]. apply Z.ltb_ge in A. apply Z.ltb_ge in B. auto.
  - rewrite !dle_fin in H. apply orb_false_iff. rewrite !Z.ltb_ge. lia.
Qed.
Lemma check_weight_cases w : check_weight w = Ok tt /\ weight_ok w \/ check_weight w = Throw InvalidArgument /\ ~ weight_ok w.
Proof.
  unfold check_weight. rewrite bind_throw_if. pose proof (weight_test w) as T.
  destruct (isfinite w) eqn:F; cbn [negb orb] in *.
  - destruct (dlt w dzero || dgt w done) eqn:E; cbn [throw_if]; [right|left]; split; auto; [intros K; apply T in K; discriminate|now apply T].
  - right. split; auto. intros K. apply T in K. discriminate.
Qed.
Lemma check_vertex_cases g i : check_vertex g i = Ok tt /\ i < gnv g \/ check_vertex g i = Throw InvalidArgument /\ ~ i < gnv g.
Proof. unfold check_vertex. destruct (Nat.leb_spec (gnv g) i); [right|left]; split; auto; lia. Qed.

(** ** The graph represents a partial map *)
Lemma is_edge_spec i j e : is_edge i j e = true <-> fst e = (i, j).
Proof.
  unfold is_edge, esrc, etgt. rewrite andb_true_iff, !Nat.eqb_eq. destruct e as [[s t] w]; cbn. split; [intros [-> ->]; auto|].
  intros H. injection H; auto.
Qed.

Lemma find_edge l i j : match find (is_edge i j) l with Some e => In e l /\ fst e = (i, j) | None => forall w, ~ In ((i, j), w) l end.
Proof.
  destruct (find (is_edge i j) l) as [e|] eqn:E.
  - apply find_some in E. destruct E as [A B]. apply is_edge_spec in B. auto.
  - intros w H. apply (find_none _ _ E) in H. assert (is_edge i j ((i, j), w) = true) by (now apply is_edge_spec). congruence.
Qed.
Lemma first_edge_spec g a i j : repr g a -> match first_edge g i j with Some e => a_w a i j = Some (ewt e) /\ fst e = (i, j) /\ In e (gedges g) | None => a_w a i j = None end.
Proof.
  intros (_ & _ & M & _). unfold first_edge. pose proof (find_edge (gedges g) i j) as F.
  destruct (find _ _) as [[p w]|].
  - destruct F as [A B]. cbn in B. subst p. split; [apply M, A|auto].
  - destruct (a_w a i j) as [w|] eqn:E; auto. apply M in E. destruct (F _ E).
Qed.
Lemma adjacent_spec g a i j : repr g a -> existsb (is_edge i j) (gedges g) = match a_w a i j with Some _ => true | None => false end.
Proof.
  intros (_ & _ & M & _). destruct (a_w a i j) as [w|] eqn:E.
  - apply existsb_exists. exists ((i, j), w). split; [now apply M|now apply is_edge_spec].
  - destruct (existsb _ _) eqn:X; auto. apply existsb_exists in X. destruct X as ([p w] & A & B). apply is_edge_spec in B. cbn in B. subst p.
    apply M in A. congruence.
Qed.

Lemma are_adjacent_ok g a i j : repr g a -> i < a_n a -> j < a_n a ->
  are_adjacent g i j = Ok (match a_w a i j with Some _ => true | None => false end).
Proof.
  intros R Hi Hj. unfold are_adjacent. pose proof R as (N & _).
  destruct (check_vertex_cases g i) as [[-> _]|[_ K]]; [|lia]. destruct (check_vertex_cases g j) as [[-> _]|[_ K]]; [|lia].
  cbn [bind]. rewrite (adjacent_spec g a) by auto. reflexivity.
Qed.
Lemma are_adjacent_bad g a i j : repr g a -> ~ (i < a_n a /\ j < a_n a) -> are_adjacent g i j = Throw InvalidArgument.
Proof.
  intros (N & _) H. unfold are_adjacent.
  destruct (check_vertex_cases g i) as [[E1 L1]|[E1 L1]]; rewrite E1; cbn [bind]; auto.
  destruct (check_vertex_cases g j) as [[E2 L2]|[E2 L2]]; rewrite E2; cbn [bind]; auto. exfalso; apply H; lia.
Qed.

Lemma put_same m i j o : put m i j o i j = o.
Proof. unfold put. rewrite !Nat.eqb_refl. reflexivity. Qed.
Lemma put_cases m i j o a b : (a = i /\ b = j /\ put m i j o a b = o) \/ ((a <> i \/ b <> j) /\ put m i j o a b = m a b).
Proof. unfold put. destruct (Nat.eqb_spec a i), (Nat.eqb_spec b j); cbn; auto. Qed.

Lemma add_edge_ok g a i j w : repr g a -> weight_ok w -> i < a_n a -> j < a_n a -> a_w a i j = None ->
  exists g', add_edge g i j w = Ok g' /\ repr g' (mkag (a_n a) (put (a_w a) i j (Some w))).
Proof.
  intros R W Hi Hj N. unfold add_edge. destruct (check_weight_cases w) as [[-> _]|[_ K]]; [|contradiction]. cbn [bind].
  rewrite (are_adjacent_ok g a) by auto. rewrite N. cbn [bind]. eexists. split; [reflexivity|].
  destruct R as (RN & ND & M & B). split; [exact RN|]. cbn [gedges a_w a_n]. split; [|split].
  - rewrite map_app. apply NoDup_app_intro; auto; [repeat constructor; intros []|].
    cbn. intros x Hx [<-|[]]. apply in_map_iff in Hx. destruct Hx as ([p v] & E & Hx). cbn in E. subst p. apply M in Hx. congruence.
  - intros x y v. rewrite in_app_iff. cbn [In]. rewrite M. destruct (put_cases (a_w a) i j (Some w) x y) as [(-> & -> & ->)|[D ->]].
    + split; [intros [H|[H|[]]]; congruence|]. intros H. injection H as ->. auto.
    + split; [intros [H|[H|[]]]; auto|auto]. injection H; intros; subst. destruct D; contradiction.
  - intros x y v. destruct (put_cases (a_w a) i j (Some w) x y) as [(-> & -> & ->)|[D ->]]; [|apply B].
    intros H; injection H as <-. auto.
Qed.

Lemma NoDup_map_filter {A B} (f : A -> B) p l : NoDup (map f l) -> NoDup (map f (filter p l)).
Proof.
  induction l as [|x l IH]; cbn; auto. intros H. inversion H as [|? ? H1 H2]; subst. destruct (p x); cbn; auto. constructor; auto.
  intros K. apply H1. apply in_map_iff in K. destruct K as (y & E & K). apply filter_In in K. rewrite <- E. apply in_map. tauto.
Qed.
Lemma remove_edge_ok g a i j : repr g a -> i < a_n a -> j < a_n a -> a_w a i j <> None ->
  exists g', remove_edge g i j = Ok g' /\ repr g' (mkag (a_n a) (put (a_w a) i j None)).
Proof.
  intros R Hi Hj N. unfold remove_edge. rewrite (are_adjacent_ok g a) by auto. cbn [bind].
  destruct (a_w a i j) as [w0|] eqn:E0; [|contradiction]. cbn [bind]. eexists. split; [reflexivity|].
  destruct R as (RN & ND & M & B). split; [exact RN|]. cbn [gedges a_w a_n]. split; [now apply NoDup_map_filter|]. split.
  - intros x y v. rewrite filter_In, M. destruct (put_cases (a_w a) i j None x y) as [(-> & -> & ->)|[D ->]].
    + split; [|discriminate]. intros [_ K]. assert (T : is_edge i j (i, j, v) = true) by (now apply is_edge_spec). rewrite T in K. discriminate.
    + split; [tauto|]. intros H. split; auto. apply negb_true_iff. destruct (is_edge i j (x, y, v)) eqn:T; auto.
      apply is_edge_spec in T. cbn in T. injection T as -> ->. destruct D; contradiction.
  - intros x y v. destruct (put_cases (a_w a) i j None x y) as [(-> & -> & ->)|[D ->]]; [discriminate|apply B].
Qed.

Lemma set_first_fst i j w l : map fst (set_first i j w l) = map fst l.
Proof. induction l as [|e l IH]; cbn; auto. destruct (is_edge i j e); cbn; congruence. Qed.
Lemma set_first_in i j w l : NoDup (map fst l) -> (exists v, In ((i, j), v) l) -> forall x y v,
  In ((x, y), v) (set_first i j w l) <-> (x = i /\ y = j /\ v = w) \/ ((x <> i \/ y <> j) /\ In ((x, y), v) l).
Proof.
  induction l as [|[p u] l IH]; intros ND [v0 H0] x y v; [destruct H0|].
  cbn [set_first]. cbn in ND. inversion ND as [|? ? H1 H2]; subst.
  destruct (is_edge i j (p, u)) eqn:E.
  - apply is_edge_spec in E. cbn in E. subst p. cbn [fst In]. split.
    + intros [H|H]; [injection H as -> -> ->; auto|]. right. split; auto.
      destruct (Nat.eq_dec x i), (Nat.eq_dec y j); auto. subst. exfalso. apply H1. apply in_map_iff. exists ((i, j), v). auto.
    + intros [(-> & -> & ->)|[D [H|H]]]; auto. injection H; intros; subst. destruct D; contradiction.
  - assert (NE : p <> (i, j)) by (intros ->; assert (is_edge i j (i, j, u) = true) by (now apply is_edge_spec); congruence).
    destruct H0 as [H0|H0]; [injection H0; intros; subst; contradiction|].
    cbn [In]. rewrite (IH H2 (ex_intro _ v0 H0) x y v). split.
    + intros [H|[H|[D H]]]; auto. right. split; [|left; exact H]. injection H; intros; subst.
      destruct (Nat.eq_dec x i), (Nat.eq_dec y j); auto; subst; contradiction.
    + intros [H|[D [H|H]]]; auto.
Qed.
Lemma set_weight_ok g a i j w : repr g a -> weight_ok w -> i < a_n a -> j < a_n a -> a_w a i j <> None ->
  exists g', set_weight g i j w = Ok g' /\ repr g' (mkag (a_n a) (put (a_w a) i j (Some w))).
Proof.
  intros R W Hi Hj N. unfold set_weight. destruct (check_weight_cases w) as [[-> _]|[_ K]]; [|contradiction]. cbn [bind].
  pose proof R as (RN & ND & M & B).
  destruct (check_vertex_cases g i) as [[-> _]|[_ K]]; [|lia]. destruct (check_vertex_cases g j) as [[-> _]|[_ K]]; [|lia]. cbn [bind].
  pose proof (first_edge_spec g a i j R) as F. destruct (first_edge g i j) as [e|]; [|contradiction].
  destruct F as (F1 & F2 & F3). eexists. split; [reflexivity|].
  split; [exact RN|]. cbn [gedges a_w a_n]. split; [rewrite set_first_fst; exact ND|]. split.
  - intros x y v. rewrite set_first_in; [|exact ND|exists (ewt e); destruct e as [p u]; cbn in F2; subst p; exact F3].
    rewrite M. destruct (put_cases (a_w a) i j (Some w) x y) as [(-> & -> & ->)|[D ->]].
    + split; [intros [(_ & _ & ->)|[[D|D] _]]; auto; contradiction|]. intros H; injection H as <-. auto.
    + split; [intros [(-> & -> & ->)|[_ H]]; auto; destruct D; contradiction|auto].
  - intros x y v. destruct (put_cases (a_w a) i j (Some w) x y) as [(-> & -> & ->)|[D ->]]; [|apply B].
    intros H; injection H as <-. auto.
Qed.

Lemma connections_ok g a i : repr g a -> i < a_n a ->
  exists js ws, get_connections g i = Ok (js, ws) /\ length ws = length js /\ NoDup js /\
    forall j w, (exists k, nth_error js k = Some j /\ nth_error ws k = Some w) <-> a_w a j i = Some w.
Proof.
  intros R Hi. pose proof R as (RN & ND & M & B). unfold get_connections.
  destruct (check_vertex_cases g i) as [[-> _]|[_ K]]; [|lia]. cbn [bind].
  set (into := filter (fun e => Nat.eqb (etgt e) i) (gedges g)).
  assert (E : mmap (fun e => match first_edge g (esrc e) i with Some e' => Ok (esrc e, ewt e') | None => UB end) into
              = Ok (map (fun e => (esrc e, ewt e)) into)).
  { assert (S : forall e, In e into -> In e (gedges g) /\ etgt e = i) by (intros e He; apply filter_In in He; rewrite Nat.eqb_eq in He; exact He).
    induction into as [|e l IH]; [reflexivity|]. cbn [mmap map].
    destruct (S e (or_introl eq_refl)) as [I1 I2]. pose proof (first_edge_spec g a (esrc e) i R) as F.
    assert (AW : a_w a (esrc e) i = Some (ewt e)).
    { apply M. destruct e as [[s t] w]. cbn in *. subst. exact I1. }
    destruct (first_edge g (esrc e) i) as [e'|]; [|congruence]. destruct F as (F1 & _). rewrite AW in F1. injection F1 as F1. rewrite <- F1. cbn [bind].
    rewrite IH; [reflexivity|]. intros e0 He0. apply S. right; auto. }
  rewrite E. cbn [bind]. rewrite !map_map. cbn [fst snd].
  exists (map esrc into), (map ewt into). split; [reflexivity|]. split; [now rewrite !map_length|]. split.
  - (* each source once *)
    assert (S : forall e, In e into -> etgt e = i) by (intros e He; apply filter_In in He; destruct He as [_ He]; now apply Nat.eqb_eq in He).
    assert (ND' : NoDup (map fst into)) by (apply NoDup_map_filter; exact ND).
    clear E. induction into as [|e l IH]; [constructor|]. cbn in *. inversion ND' as [|? ? H1 H2]; subst. constructor.
    + intros K. apply in_map_iff in K. destruct K as (e' & E1 & E2). apply H1. apply in_map_iff. exists e'. split; auto.
      assert (etgt e' = etgt e) by (rewrite (S e') by auto; symmetry; apply S; auto).
      destruct e as [[s t] w], e' as [[s' t'] w']. cbn in *. congruence.
    + apply IH; auto.
  - intros j w. rewrite <- M. split.
    + intros (k & K1 & K2). rewrite nth_error_map in K1, K2. destruct (nth_error into k) as [[[s t] v]|] eqn:K; [|discriminate].
      cbn in K1, K2. injection K1 as ->. injection K2 as ->. apply nth_error_In in K. apply filter_In in K. destruct K as [K T].
      apply Nat.eqb_eq in T. cbn in T. subst. exact K.
    + intros H. assert (K : In ((j, i), w) into) by (apply filter_In; split; auto; apply Nat.eqb_refl).
      apply In_nth_error in K. destruct K as (k & K). exists k. rewrite !nth_error_map, K. auto.
Qed.

(** Every call does what the abstract graph says. *)
Lemma gcall_effect g a op : repr g a -> exists a' good, effect a op a' good /\ good (fst (gcall g op)) /\ repr (snd (gcall g op)) a'.
Proof.
  intros R. pose proof R as (RN & ND & M & B). destruct op as [|i j w|i j|i j w|w| |i j|i j|i]; cbn [gcall].
  - eexists _, _. split; [apply ef_vertex|]. split; [reflexivity|]. split; [cbn; lia|]. split; [exact ND|]. split; [exact M|].
    cbn. intros x y v H. apply B in H. lia || (destruct H as (H1 & H2 & H3); split; [lia|split; [lia|exact H3]]).
  - destruct (check_weight_cases w) as [[EW W]|[EW W]].
    2:{ eexists _, _. split; [apply ef_add_bad; tauto|]. unfold add_edge. rewrite EW. cbn. auto. }
    destruct (lt_dec i (a_n a)) as [Hi|Hi]; [destruct (lt_dec j (a_n a)) as [Hj|Hj]|].
    + destruct (a_w a i j) as [v|] eqn:E.
      * eexists _, _. split; [apply ef_add_bad; rewrite E; intros (_ & _ & _ & K); discriminate|].
        unfold add_edge. rewrite EW, (are_adjacent_ok g a), E by auto. cbn. auto.
      * destruct (add_edge_ok g a i j w R W Hi Hj E) as (g' & E1 & R1).
        eexists _, _. split; [apply ef_add; auto|]. rewrite E1. cbn. auto.
    + eexists _, _. split; [apply ef_add_bad; tauto|]. unfold add_edge. rewrite EW, (are_adjacent_bad g a) by tauto. cbn. auto.
    + eexists _, _. split; [apply ef_add_bad; tauto|]. unfold add_edge. rewrite EW, (are_adjacent_bad g a) by tauto. cbn. auto.
  - destruct (lt_dec i (a_n a)) as [Hi|Hi]; [destruct (lt_dec j (a_n a)) as [Hj|Hj]|].
    + destruct (a_w a i j) as [v|] eqn:E.
      * assert (N : a_w a i j <> None) by congruence. destruct (remove_edge_ok g a i j R Hi Hj N) as (g' & E1 & R1).
        eexists _, _. split; [apply ef_remove; auto|]. rewrite E1. cbn. auto.
      * eexists _, _. split; [apply ef_remove_bad; tauto|]. unfold remove_edge. rewrite (are_adjacent_ok g a), E by auto. cbn. auto.
    + eexists _, _. split; [apply ef_remove_bad; tauto|]. unfold remove_edge. rewrite (are_adjacent_bad g a) by tauto. cbn. auto.
    + eexists _, _. split; [apply ef_remove_bad; tauto|]. unfold remove_edge. rewrite (are_adjacent_bad g a) by tauto. cbn. auto.
  - destruct (check_weight_cases w) as [[EW W]|[EW W]].
    2:{ eexists _, _. split; [apply ef_set_bad; tauto|]. unfold set_weight. rewrite EW. cbn. auto. }
    destruct (lt_dec i (a_n a)) as [Hi|Hi].
    2:{ eexists _, _. split; [apply ef_set_bad; tauto|]. unfold set_weight. rewrite EW. cbn [bind].
        destruct (check_vertex_cases g i) as [[_ K]|[-> _]]; [lia|]. cbn. auto. }
    destruct (lt_dec j (a_n a)) as [Hj|Hj].
    2:{ eexists _, _. split; [apply ef_set_bad; tauto|]. unfold set_weight. rewrite EW. cbn [bind].
        destruct (check_vertex_cases g i) as [[-> _]|[_ K]]; [|lia]. cbn [bind].
        destruct (check_vertex_cases g j) as [[_ K]|[-> _]]; [lia|]. cbn. auto. }
    destruct (a_w a i j) as [v|] eqn:E.
    + assert (N : a_w a i j <> None) by congruence. destruct (set_weight_ok g a i j w R W Hi Hj N) as (g' & E1 & R1).
      eexists _, _. split; [apply ef_set; auto|]. rewrite E1. cbn. auto.
    + eexists _, _. split; [apply ef_set_bad; tauto|]. unfold set_weight. rewrite EW. cbn [bind].
      destruct (check_vertex_cases g i) as [[-> _]|[_ K]]; [|lia]. cbn [bind].
      destruct (check_vertex_cases g j) as [[-> _]|[_ K]]; [|lia]. cbn [bind].
      pose proof (first_edge_spec g a i j R) as F. destruct (first_edge g i j); [destruct F; congruence|]. cbn. auto.
  - destruct (check_weight_cases w) as [[EW W]|[EW W]]; unfold set_all_weights; rewrite EW; cbn [bind gupd fst snd].
    + eexists _, _. split; [apply ef_all; auto|]. split; [reflexivity|]. split; [exact RN|]. cbn [gedges a_w a_n].
      split; [rewrite map_map; exact ND|]. split.
      * intros x y v. rewrite in_map_iff. split.
        -- intros ([p u] & E & H). cbn in E. injection E as -> ->. apply M in H. rewrite H. reflexivity.
        -- destruct (a_w a x y) as [u|] eqn:E; [|discriminate]. intros H. injection H as <-. exists ((x, y), u). split; auto. now apply M.
      * intros x y v. destruct (a_w a x y) as [u|] eqn:E; [|discriminate]. intros H. injection H as <-. apply B in E. tauto.
    + eexists _, _. split; [apply ef_all_bad; auto|]. auto.
  - eexists _, _. split; [apply ef_num|]. cbn. rewrite RN. auto.
  - destruct (lt_dec i (a_n a)) as [Hi|Hi]; [destruct (lt_dec j (a_n a)) as [Hj|Hj]|].
    + eexists _, _. split; [apply ef_adj; auto|]. rewrite (are_adjacent_ok g a) by auto. cbn. split; auto.
      eexists. split; [reflexivity|]. destruct (a_w a i j); split; intros; congruence.
    + eexists _, _. split; [apply ef_adj_bad; tauto|]. rewrite (are_adjacent_bad g a) by tauto. cbn. auto.
    + eexists _, _. split; [apply ef_adj_bad; tauto|]. rewrite (are_adjacent_bad g a) by tauto. cbn. auto.
  - unfold get_edge_weight.
    destruct (check_vertex_cases g i) as [[-> Hi]|[-> Hi]]; cbn [bind].
    2:{ eexists _, _. split; [apply ef_weight_bad; lia|]. auto. }
    destruct (check_vertex_cases g j) as [[-> Hj]|[-> Hj]]; cbn [bind].
    2:{ eexists _, _. split; [apply ef_weight_bad; lia|]. auto. }
    pose proof (first_edge_spec g a i j R) as F. destruct (first_edge g i j) as [e|]; cbn [bind].
    + destruct F as (F & _). eexists _, _. split; [apply (ef_weight a i j (ewt e)); auto; lia|]. auto.
    + eexists _, _. split; [apply ef_weight_bad; tauto|]. auto.
  - destruct (lt_dec i (a_n a)) as [Hi|Hi].
    + destruct (connections_ok g a i R Hi) as (js & ws & E & P). rewrite E. cbn.
      eexists _, _. split; [apply ef_conn; auto|]. split; auto. exists js, ws. auto.
    + eexists _, _. split; [apply ef_conn_bad; auto|]. unfold get_connections.
      destruct (check_vertex_cases g i) as [[_ K]|[-> _]]; [lia|]. cbn. auto.
Qed.

Lemma repr_empty : repr empty_graph no_graph.
Proof. split; [reflexivity|]. split; [constructor|]. split; [intros; cbn; split; [tauto|discriminate]|discriminate]. Qed.

Lemma gcalls_explained ops : forall g a, repr g a -> exists a', explained a ops (fst (gcalls g ops)) a' /\ repr (snd (gcalls g ops)) a'.
Proof.
  induction ops as [|op ops IH]; intros g a R; cbn [gcalls].
  - exists a. split; [constructor|exact R].
  - destruct (gcall_effect g a op R) as (a1 & good & E & G & R1). destruct (gcall g op) as [r g1]. cbn in G, R1.
    destruct (IH g1 a1 R1) as (a2 & E2 & R2). destruct (gcalls g1 ops) as [rs g2]. cbn in *. exists a2. split; auto. econstructor; eauto.
Qed.

Lemma history_explained ops : exists a, explained no_graph ops (fst (gcalls empty_graph ops)) a.
Proof. destruct (gcalls_explained ops _ _ repr_empty) as (a & E & _). eauto. Qed.

Lemma effect_proper a op a' good : effect a op a' good -> proper a -> proper a'.
Proof.
  intros E P. destruct E; try exact P; intros x y v HH; cbn in *.
  - apply P in HH. destruct HH as (? & ? & ?). split; [lia|split; [lia|auto]].
  - destruct (put_cases (a_w a) i j (Some w) x y) as [(-> & -> & E)|[D E]]; rewrite E in HH; [injection HH as <-; auto|apply P; auto].
  - destruct (put_cases (a_w a) i j None x y) as [(-> & -> & E)|[D E]]; rewrite E in HH; [discriminate|apply P; auto].
  - destruct (put_cases (a_w a) i j (Some w) x y) as [(-> & -> & E)|[D E]]; rewrite E in HH; [injection HH as <-; auto|apply P; auto].
  - destruct (a_w a x y) eqn:E; [|discriminate]. injection HH as <-. apply P in E. tauto.
Qed.
Lemma explained_proper a ops rs a' : explained a ops rs a' -> proper a -> proper a'.
Proof. induction 1; auto. intros. apply IHexplained. eapply effect_proper; eauto. Qed.

(** free_form from a graph *)
Lemma free_form_cases g : ((forall e, In e (gedges g) -> weight_ok (ewt e)) -> free_form_of g = Ok g) /\
  (~ (forall e, In e (gedges g) -> weight_ok (ewt e)) -> free_form_of g = Throw InvalidArgument).
Proof.
  unfold free_form_of. induction (gedges g) as [|e l [IH1 IH2]]; cbn [mfold].
  - split; [reflexivity|]. intros H. exfalso. apply H. intros e [].
  - rewrite <- orb_assoc. pose proof (weight_test (ewt e)) as T.
    destruct (negb (isfinite (ewt e)) || (dlt (ewt e) dzero || dgt (ewt e) done)); cbn [throw_if bind].
    + split; [|reflexivity]. intros H. specialize (H e (or_introl eq_refl)). apply T in H. discriminate.
    + split; [intros H; apply IH1; intros; apply H; right; auto|]. intros H. apply IH2. intros K. apply H.
      intros e' [<-|He]; auto. now apply T.
Qed.

(** ** Rings *)
Definition ring_w (n : nat) (w : dbl) (i j : nat) : option dbl :=
  if (Nat.ltb i n && Nat.ltb j n && negb (Nat.eqb i j) &&
      (Nat.eqb j (i + 1) || Nat.eqb i (j + 1) || (Nat.eqb i 0 && Nat.eqb j (n - 1)) || (Nat.eqb j 0 && Nat.eqb i (n - 1))))
  then Some w else None.
Lemma repr_ext g a a' : repr g a -> a_n a = a_n a' -> (forall i j, a_w a i j = a_w a' i j) -> repr g a'.
Proof.
  intros (N & ND & M & B) EN EW. split; [congruence|]. split; [exact ND|]. split.
  - intros. rewrite M, EW. tauto.
  - intros i j w H. rewrite <- EW in H. apply B in H. rewrite <- EN. exact H.
Qed.

Ltac bcase := match goal with
  | |- context [Nat.eqb ?a ?b] => destruct (Nat.eqb_spec a b); cbn [andb orb negb]; try (exfalso; lia); bcase
  | |- context [Nat.ltb ?a ?b] => destruct (Nat.ltb_spec a b); cbn [andb orb negb]; try (exfalso; lia); bcase
  | |- _ => try reflexivity; try discriminate; try (exfalso; lia)
  end.

Lemma ring_step n w g : weight_ok w -> repr g (mkag n (ring_w n w)) -> exists g', ring_push_back w g = Ok g' /\ repr g' (mkag (S n) (ring_w (S n) w)).
Proof.
  intros W R. pose proof R as (N & _). cbn in N. unfold ring_push_back. cbv zeta.
  change (gnv (add_vertex g)) with (gnv g + 1). rewrite N.
  assert (R0 : repr (add_vertex g) (mkag (S n) (ring_w n w))).
  { destruct R as (_ & ND & M & B). split; [cbn; lia|]. split; [exact ND|]. split; [exact M|]. cbn in *. intros i j v H. apply B in H.
    destruct H as (? & ? & ?). split; [lia|split; [lia|auto]]. }
  destruct n as [|[|[|n]]]; cbn [Nat.add].
  - eexists. split; [reflexivity|]. eapply repr_ext; [exact R0|reflexivity|]. intros i j. cbn [a_w]. unfold ring_w.
    bcase.
  - destruct (add_edge_ok _ _ 0 1 w R0 W) as (g1 & E1 & R1); [cbn; lia|cbn; lia|reflexivity|]. rewrite E1. cbn [bind].
    destruct (add_edge_ok _ _ 1 0 w R1 W) as (g2 & E2 & R2); [cbn; lia|cbn; lia|reflexivity|]. rewrite E2.
    eexists. split; [reflexivity|]. eapply repr_ext; [exact R2|reflexivity|]. intros i j. cbn [a_w a_n]. unfold put, ring_w.
    bcase.
  - destruct (add_edge_ok _ _ 1 2 w R0 W) as (g1 & E1 & R1); [cbn; lia|cbn; lia|reflexivity|]. rewrite E1. cbn [bind].
    destruct (add_edge_ok _ _ 2 1 w R1 W) as (g2 & E2 & R2); [cbn; lia|cbn; lia|reflexivity|]. rewrite E2. cbn [bind].
    destruct (add_edge_ok _ _ 2 0 w R2 W) as (g3 & E3 & R3); [cbn; lia|cbn; lia|reflexivity|]. rewrite E3. cbn [bind].
    destruct (add_edge_ok _ _ 0 2 w R3 W) as (g4 & E4 & R4); [cbn; lia|cbn; lia|reflexivity|]. rewrite E4.
    eexists. split; [reflexivity|]. eapply repr_ext; [exact R4|reflexivity|]. intros i j. cbn [a_w a_n]. unfold put, ring_w.
    destruct i as [|[|[|i]]], j as [|[|[|j]]]; cbn; try reflexivity; rewrite ?andb_false_r; reflexivity.
  - set (m := n + 1). assert (Em : n + 1 = m) by reflexivity. clearbody m.
    replace (S (S (S m)) - 2) with (S m) by lia. replace (S (S (S m)) - 1) with (S (S m)) by lia.
    replace (S (S (S n))) with (S (S m)) in * by lia. assert (Hm : 1 <= m) by lia. clear Em N n.
    destruct (remove_edge_ok _ _ (S m) 0 R0) as (g1 & E1 & R1); [cbn; lia|cbn; lia| |].
    { cbn [a_w]. unfold ring_w. bcase. }
    rewrite E1. cbn [bind].
    destruct (remove_edge_ok _ _ 0 (S m) R1) as (g2 & E2 & R2); [cbn; lia|cbn; lia| |].
    { cbn [a_w]. unfold put, ring_w. bcase. }
    rewrite E2. cbn [bind].
    destruct (add_edge_ok _ _ (S m) (S (S m)) w R2 W) as (g3 & E3 & R3); [cbn; lia|cbn; lia| |].
    { cbn [a_w]. unfold put, ring_w. bcase. }
    rewrite E3. cbn [bind].
    destruct (add_edge_ok _ _ (S (S m)) (S m) w R3 W) as (g4 & E4 & R4); [cbn; lia|cbn; lia| |].
    { cbn [a_w]. unfold put, ring_w. bcase. }
    rewrite E4. cbn [bind].
    destruct (add_edge_ok _ _ 0 (S (S m)) w R4 W) as (g5 & E5 & R5); [cbn; lia|cbn; lia| |].
    { cbn [a_w]. unfold put, ring_w. bcase. }
    rewrite E5. cbn [bind].
    destruct (add_edge_ok _ _ (S (S m)) 0 w R5 W) as (g6 & E6 & R6); [cbn; lia|cbn; lia| |].
    { cbn [a_w]. unfold put, ring_w. bcase. }
    rewrite E6. exists g6. split; [destruct m; [lia|reflexivity]|]. eapply repr_ext; [exact R6|cbn [a_n]; lia|].
    clear - Hm. intros i j. cbn [a_w a_n]. unfold put, ring_w.
    bcase.
Qed.
