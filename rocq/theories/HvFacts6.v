(** The hypervolume class: validation, reference points, counterexamples. *)
From Coq Require Import List ZArith Bool Lia Sorting.Permutation.
From Verif Require Import Dbl DblFacts IntDbl Outcome StdSort BaseFacts Hypervolume SpecHypervolume HvFacts HvFacts2 HvFacts3 HvFacts4 HvFacts5.
Import ListNotations.
Local Open Scope Z_scope.

(** ** Validation, for any arithmetic *)
Section Gen.
Context {N : Type} (A : arith N).
Lemma point_bad_false r p : length p = length r ->
  (point_bad A r p = false <->
   (forall i a b, nth_error r i = Some a -> nth_error p i = Some b -> alt A a b = false) /\
   (exists i a b, nth_error r i = Some a /\ nth_error p i = Some b /\ aeq A a b = false)).
Proof.
  intros LE. unfold point_bad. rewrite orb_false_iff.
  assert (CR : forall l i x, nth_error l i = Some x -> crd A l i = x) by (intros l i x H; unfold crd; now apply nth_error_nth).
  assert (EX : forall i, (i < length p)%nat -> exists a b, nth_error r i = Some a /\ nth_error p i = Some b).
  { intros i Hi. destruct (nth_error r i) eqn:E1; [|apply nth_error_None in E1; lia]. destruct (nth_error p i) eqn:E2; [|apply nth_error_None in E2; lia]. eauto. }
  split.
  - intros [F1 F2]. split.
    + intros i a b H1 H2. destruct (alt A a b) eqn:E; auto. exfalso. assert (X : existsb (fun i => alt A (crd A r i) (crd A p i)) (seq 0 (length p)) = true).
      { apply existsb_exists. exists i. split; [apply in_seq; split; [lia|cbn; apply nth_error_Some; congruence]|]. now rewrite (CR r i a), (CR p i b). }
      congruence.
    + assert (X : exists i, In i (seq 0 (length p)) /\ aeq A (crd A r i) (crd A p i) = false).
      { clear - F1. induction (seq 0 (length p)) as [|i l IH]; [discriminate|]. cbn in F1. apply andb_false_iff in F1. destruct F1 as [F|F]; [exists i; split; auto; now left|].
        destruct (IH F) as (j & H & K). exists j. split; auto. now right. }
      destruct X as (i & Hi & E). apply in_seq in Hi. destruct (EX i) as (a & b & H1 & H2); [lia|]. exists i, a, b. rewrite (CR r i a), (CR p i b) in E by auto. auto.
  - intros [H1 (i & a & b & E1 & E2 & E3)]. split.
    + destruct (forallb _ _) eqn:E; auto. rewrite forallb_forall in E. specialize (E i). rewrite (CR r i a), (CR p i b), E3 in E by auto.
      discriminate E. apply in_seq. split; [lia|]. cbn. apply nth_error_Some. congruence.
    + destruct (existsb _ _) eqn:E; auto. apply existsb_exists in E. destruct E as (j & Hj & E). apply in_seq in Hj.
      destruct (EX j) as (c & d & F1 & F2); [lia|]. rewrite (CR r j c), (CR p j d) in E by auto. rewrite (H1 j c d) in E by auto. discriminate.
Qed.
Lemma assert_min_cases pts r : assert_minimisation A pts r = Ok tt /\ (forall p, In p pts -> point_bad A r p = false) \/
  assert_minimisation A pts r = Throw InvalidArgument /\ exists p, In p pts /\ point_bad A r p = true.
Proof.
  unfold assert_minimisation. destruct (existsb (point_bad A r) pts) eqn:E; [right|left]; split; auto.
  - apply existsb_exists in E. exact E.
  - intros p Hp. destruct (point_bad A r p) eqn:F; auto. rewrite <- not_true_iff_false in E. exfalso. apply E. apply existsb_exists. eauto.
Qed.
Lemma hv_verify_cases a pts r : pts <> [] -> (forall p q, In p pts -> In q pts -> length p = length q) ->
  hv_verify A a pts r = Ok tt /\ dimension_ok a (length r) /\ (forall p, In p pts -> length p = length r /\ point_bad A r p = false) \/
  hv_verify A a pts r = Throw InvalidArgument /\ (~ dimension_ok a (length r) \/ exists p, In p pts /\ (length p <> length r \/ point_bad A r p = true)).
Proof.
  intros NE EQ. unfold hv_verify. destruct pts as [|p0 l] eqn:EP; [contradiction|]. rewrite <- EP in *.
  assert (I0 : In p0 pts) by (subst; now left).
  destruct (Nat.eqb_spec (length p0) (length r)) as [E|E]; cbn [negb throw_if bind]; [|right; split; auto; right; exists p0; auto].
  assert (LEN : forall p, In p pts -> length p = length r) by (intros p Hp; rewrite (EQ p p0); auto).
  pose proof (assert_min_cases pts r) as AM. clear NE EQ EP.
  destruct a as [| |s]; cbn [alg_verify dimension_ok].
  - destruct (Nat.eqb_spec (length r) 2) as [D|D]; cbn [negb throw_if bind]; [|right; split; auto].
    destruct AM as [[-> H]|[-> H]]; [left|right]; split; auto. destruct H as (p & ? & ?). right; exists p; auto.
  - destruct (Nat.eqb_spec (length r) 3) as [D|D]; cbn [negb throw_if bind]; [|right; split; auto].
    destruct AM as [[-> H]|[-> H]]; [left|right]; split; auto. destruct H as (p & ? & ?). right; exists p; auto.
  - destruct AM as [[-> H]|[-> H]]; [left|right]; split; auto. destruct H as (p & ? & ?). right; exists p; auto.
Qed.
End Gen.

(** ** Doubles *)
Definition disnan (x : dbl) : bool := match x with NaN => true | _ => false end.
Lemma disnan_spec x : disnan x = true <-> x = NaN.
Proof. destruct x; cbn; split; congruence. Qed.
Lemma construct_cases pts : hv_construct disnan pts = Ok pts /\ well_formed pts \/ hv_construct disnan pts = Throw InvalidArgument /\ ~ well_formed pts.
Proof.
  unfold hv_construct. destruct pts as [|p0 l] eqn:EP; [right; split; auto; intros [K _]; now apply K|]. rewrite <- EP.
  assert (I0 : In p0 pts) by (subst; now left). clear EP.
  destruct (Nat.leb_spec (length p0) 1) as [H1|H1]; cbn [throw_if bind].
  { right. split; auto. intros (_ & (d & D & E) & _). specialize (E p0 I0). lia. }
  destruct (existsb (fun p => negb (Nat.eqb (length p) (length p0))) pts) eqn:E1; cbn [throw_if bind].
  { right. split; auto. intros (_ & (d & D & E) & _). apply existsb_exists in E1. destruct E1 as (p & Hp & K). rewrite (E p Hp), (E p0 I0), Nat.eqb_refl in K. discriminate. }
  destruct (existsb (existsb disnan) pts) eqn:E2; cbn [throw_if bind].
  { right. split; auto. intros (_ & _ & K). apply existsb_exists in E2. destruct E2 as (p & Hp & E2). apply existsb_exists in E2. destruct E2 as (x & Hx & E2). apply disnan_spec in E2. exact (K p x Hp Hx E2). }
  left. split; auto. split; [intros ->; contradiction I0|]. split.
  - exists (length p0). split; [lia|]. intros p Hp. destruct (Nat.eq_dec (length p) (length p0)) as [|NEQ]; auto. exfalso.
    rewrite <- not_true_iff_false in E1. apply E1. apply existsb_exists. exists p. split; auto. apply negb_true_iff. now apply Nat.eqb_neq.
  - intros p x Hp Hx ->. rewrite <- not_true_iff_false in E2. apply E2. apply existsb_exists. exists p. split; auto. apply existsb_exists. exists NaN. auto.
Qed.
Lemma construct_pop_cases nc nobj pts :
  hv_construct_pop disnan nc nobj pts = Ok pts /\ (nc = 0 /\ 2 <= nobj)%nat /\ well_formed pts \/
  hv_construct_pop disnan nc nobj pts = Throw InvalidArgument /\ ~ ((nc = 0 /\ 2 <= nobj)%nat /\ well_formed pts).
Proof.
  unfold hv_construct_pop. destruct (Nat.ltb_spec 0 nc); cbn [throw_if bind]; [right; split; auto; lia|].
  destruct (Nat.ltb_spec nobj 2); cbn [throw_if bind]; [right; split; auto; lia|].
  destruct (construct_cases pts) as [[-> W]|[-> W]]; [left|right]; split; auto; [split; auto; lia|tauto].
Qed.
Lemma verify_doubles a pts r : well_formed pts ->
  hv_verify Dar a pts r = Ok tt /\ dimension_ok a (length r) /\ (forall p, In p pts -> length p = length r /\ strictly_below r p) \/
  hv_verify Dar a pts r = Throw InvalidArgument /\ ~ (dimension_ok a (length r) /\ (forall p, In p pts -> length p = length r /\ strictly_below r p)).
Proof.
  intros (NE & (d & D & E) & _). destruct (hv_verify_cases Dar a pts r) as [(V & DO & H)|(V & H)]; auto; [intros p q Hp Hq; rewrite (E p), (E q); auto| |].
  - left. repeat split; auto; try (apply H; auto); destruct (H p) as [L K]; auto; apply (point_bad_false Dar r p L) in K; apply K.
  - right. split; auto. intros [DO K]. destruct H as [H|(p & Hp & H)]; auto. destruct (K p Hp) as [L SB]. destruct H as [H|H]; auto.
    assert (point_bad Dar r p = false) by (apply (point_bad_false Dar r p L); exact SB). congruence.
Qed.

(** ** Exact arithmetic *)
Lemma point_bad_Z m r p : length p = length r -> (point_bad (Zar m) r p = false <-> Forall2 Z.le p r /\ p <> r).
Proof.
  intros LE. rewrite point_bad_false by auto. cbn [alt aeq Zar]. split.
  - intros [H1 (i & a & b & E1 & E2 & E3)]. split.
    + clear - H1 LE. revert r H1 LE. induction p as [|x p IH]; intros [|y r] H LE; try discriminate; constructor.
      * specialize (H 0%nat y x eq_refl eq_refl). apply Z.ltb_ge in H. lia.
      * apply IH; [|cbn in LE; lia]. intros i a b. exact (H (S i) a b).
    + intros ->. rewrite E1 in E2. injection E2 as ->. now rewrite Z.eqb_refl in E3.
  - intros [F NE]. split.
    + clear - F. induction F as [|x y p r H F IH]; intros [|i] a b E1 E2; cbn in *; try discriminate; [|eauto].
      injection E1 as ->; injection E2 as ->. apply Z.ltb_ge. lia.
    + clear - LE NE. revert r LE NE. induction p as [|x p IH]; intros [|y r] LE NE; try discriminate; [now contradict NE|].
      destruct (Z.eq_dec y x) as [->|N]; [|exists 0%nat, y, x; repeat split; auto; now apply Z.eqb_neq].
      destruct (IH r) as (i & a & b & H); [cbn in LE; lia|congruence|]. exists (S i), a, b. exact H.
Qed.
Lemma verify_Z m a pts r : acceptable r pts -> dimension_ok a (length r) -> hv_verify (Zar m) a pts r = Ok tt.
Proof.
  intros [NE H] D. assert (LEN : forall p, In p pts -> length p = length r).
  { intros p Hp. destruct (H p Hp) as [F _]. clear - F. induction F; cbn; lia. }
  destruct (hv_verify_cases (Zar m) a pts r) as [(V & _)|(V & [K|(p & Hp & [K|K])])]; auto.
  - intros p q Hp Hq. rewrite (LEN p), (LEN q); auto.
  - contradiction.
  - exfalso. auto.
  - assert (point_bad (Zar m) r p = false) by (apply point_bad_Z; auto). congruence.
Qed.
Lemma suits_dim a d : suits a d -> dimension_ok a d.
Proof. destruct a; cbn; auto. Qed.
Lemma best_suits r : (2 <= length r)%nat -> suits (best_alg (N := Z) r) (length r).
Proof. unfold best_alg. destruct (length r) as [|[|[|[|k]]]]; cbn; lia. Qed.
Lemma obj_compute m srt a pts r : sort_contract srt -> suits a (length r) -> acceptable r pts -> representable m pts ->
  exists v, hv_obj_compute (Zar m) srt a pts r = Ok v /\ volume (dominated pts r) v.
Proof.
  intros HS SU AC R. unfold hv_obj_compute. rewrite verify_Z by (auto; now apply suits_dim). cbn [bind].
  apply compute_volume; auto; [apply AC|]. intros p Hp. now apply AC.
Qed.
Lemma obj_exclusive m srt a i pts r : sort_contract srt -> suits a (length r) -> acceptable r pts -> representable m pts ->
  ((i < length pts)%nat -> exists v, hv_obj_exclusive (Zar m) srt a i pts r = Ok v /\ volume (only_dominated_by i pts r) v) /\
  ((length pts <= i)%nat -> hv_obj_exclusive (Zar m) srt a i pts r = Throw InvalidArgument).
Proof.
  intros HS SU AC R. unfold hv_obj_exclusive. rewrite verify_Z by (auto; now apply suits_dim). cbn [bind]. split; intros Hi.
  - destruct (Nat.leb_spec (length pts) i); [lia|]. cbn [throw_if bind]. apply exclusive_volume; auto. intros p Hp. now apply AC.
  - destruct (Nat.leb_spec (length pts) i); [reflexivity|lia].
Qed.
Lemma single_contribution m r p : Forall2 Z.le p r -> exact_contributions [p] r [vol_vec (Zar m) p r (length p)].
Proof.
  intros F. split; auto. intros [|i] v Hv; [|destruct i; discriminate]. injection Hv as <-.
  assert (B : bounded_by r [p]) by (intros q [<-|[]]; auto). destruct (bounded_within r [p] B) as (L & W).
  destruct (W p (or_introl eq_refl)) as [W1 W2]. rewrite W1, (vol_vec_eq m L r p (length r)) by auto.
  pose proof (excl_volume L r [p] W 0 (Nat.lt_0_succ _)) as V. unfold excl_meas in V. cbn [nth remove_nth firstn skipn app] in V.
  rewrite (meas_ext L r (length r) _ (inbox (length r) p)) in V; auto. intros x _. cbn. now rewrite andb_true_r.
Qed.
Lemma obj_contributions_wfg m srt stop pts r : sort_contract srt -> suits (WFG stop) (length r) -> acceptable r pts -> representable m pts ->
  exists c, hv_obj_contributions (Zar m) srt (WFG stop) pts r = Ok c /\ exact_contributions pts r c.
Proof.
  intros HS SU AC R. unfold hv_obj_contributions. rewrite verify_Z by (auto; now apply suits_dim). cbn [bind].
  assert (B : bounded_by r pts) by (intros p Hp; now apply AC).
  destruct pts as [|p [|q l]] eqn:EP; [now destruct AC| |].
  - eexists. split; [reflexivity|]. apply single_contribution. apply B. now left.
  - apply contributions_wfg; auto; apply SU.
Qed.
Lemma exact_nonneg pts r c : exact_contributions pts r c -> forall v, In v c -> 0 <= v.
Proof. intros [_ H] v Hv. apply In_nth_error in Hv. destruct Hv as (i & Hi). destruct (H i v Hi) as (l & _ & _ & ->). lia. Qed.
Lemma obj_least_wfg m srt stop pts r : sort_contract srt -> suits (WFG stop) (length r) -> acceptable r pts -> representable m pts ->
  exists c k k', hv_obj_contributions (Zar m) srt (WFG stop) pts r = Ok c /\
    hv_obj_least (Zar m) srt (WFG stop) pts r = Ok k /\ attains Z.le c k /\
    hv_obj_greatest (Zar m) srt (WFG stop) pts r = Ok k' /\ attains Z.ge c k'.
Proof.
  intros HS SU AC R. destruct (obj_contributions_wfg m srt stop pts r HS SU AC R) as (c & E & X).
  assert (B : bounded_by r pts) by (intros p Hp; now apply AC).
  unfold hv_obj_least, hv_obj_greatest. unfold hv_obj_contributions in *.
  rewrite !verify_Z in * by (auto; now apply suits_dim). cbn [bind] in *.
  destruct pts as [|p [|q l]] eqn:EP; [now destruct AC| |].
  - injection E as <-. exists [vol_vec (Zar m) p r (length p)], 0%nat, 0%nat. split; [reflexivity|]. split; [reflexivity|].
    split; [|split; [reflexivity|]]; eexists; (split; [reflexivity|]); intros [|j] w K; try (destruct j; discriminate); injection K as <-; lia.
  - rewrite <- EP in *.
    destruct (extreme_ok (alg_contributions (Zar m) srt (WFG stop)) (fun x y => alt (Zar m) x y) Z.le pts r c) as (k & K1 & K2); auto; cbn [alt Zar].
    { intros a b F. apply Z.ltb_ge in F. lia. } { intros a b F. apply Z.ltb_lt in F. lia. } { intros; lia. } { intros; lia. } { apply X. } { rewrite EP; discriminate. }
    destruct (extreme_ok (alg_contributions (Zar m) srt (WFG stop)) (fun x y => alt (Zar m) y x) Z.ge pts r c) as (k' & K3 & K4); auto; cbn [alt Zar].
    { intros a b F. apply Z.ltb_ge in F. lia. } { intros a b F. apply Z.ltb_lt in F. lia. } { intros; lia. } { intros; lia. } { apply X. } { rewrite EP; discriminate. }
    exists c, k, k'. auto.
Qed.

(** ** The reference point *)
Lemma amaxZ m a b : amax (Zar m) a b = Z.max a b.
Proof. unfold amax. cbn [alt Zar]. destruct (Z.ltb_spec a b); lia. Qed.
Lemma fold_max m i l : forall x0, 
  let M := fold_left (fun a p => amax (Zar m) a (crd (Zar m) p i)) l x0 in
  x0 <= M /\ (forall p, In p l -> zc p i <= M) /\ (M = x0 \/ exists p, In p l /\ M = zc p i).
Proof.
  induction l as [|q l IH]; intros x0; cbn [fold_left].
  - cbn. split; [lia|]. split; [intros p []|]. now left.
  - rewrite amaxZ, crd_zc. destruct (IH (Z.max x0 (zc q i))) as (H1 & H2 & H3). cbn in *. split; [lia|]. split.
    + intros p [<-|Hp]; [lia|auto].
    + destruct H3 as [->|(p & Hp & ->)]; [|right; exists p; auto]. destruct (Z.max_spec x0 (zc q i)) as [[_ ->]|[_ ->]]; [right; exists q; auto|now left].
Qed.
Lemma refpoint_Z m pts off d : pts <> [] -> (forall p, In p pts -> length p = d) -> 
  length (hv_refpoint (Zar m) pts off) = d /\
  forall i v, nth_error (hv_refpoint (Zar m) pts off) i = Some v -> column_max pts i (v - off).
Proof.
  intros NE LEN. unfold hv_refpoint. destruct pts as [|p0 l] eqn:EP; [contradiction|]. rewrite <- EP in *.
  assert (I0 : In p0 pts) by (subst; now left).
  split; [rewrite map_length, seq_length; auto|]. intros i v H. apply nth_error_map_seq in H. destruct H as [Hi ->]. cbn [aadd Zar]. rewrite crd_zc.
  destruct (fold_max m i l (zc p0 i)) as (H1 & H2 & H3). cbn in H1, H2, H3.
  set (M := fold_left _ l (zc p0 i)) in *. replace (M + off - off) with M by lia.
  assert (NTH : forall p, In p pts -> nth_error p i = Some (zc p i)).
  { intros p Hp. unfold zc. apply nth_error_nth'. rewrite (LEN p Hp), <- (LEN p0 I0). auto. }
  split.
  - destruct H3 as [->|(p & Hp & ->)]; [exists p0; auto|]. exists p. assert (In p pts) by (subst pts; now right). auto.
  - intros p z Hp Hz. rewrite NTH in Hz by auto. injection Hz as <-. rewrite EP in Hp. destruct Hp as [<-|Hp]; auto.
Qed.
Lemma refpoint_acceptable m pts off d : (1 <= d)%nat -> 0 < off -> pts <> [] -> (forall p, In p pts -> length p = d) -> acceptable (hv_refpoint (Zar m) pts off) pts.
Proof.
  intros D O NE LEN. destruct (refpoint_Z m pts off d NE LEN) as [RL RC]. split; auto. intros p Hp.
  assert (LT : Forall2 Z.lt p (hv_refpoint (Zar m) pts off)).
  { apply Forall2_nthZ. split; [rewrite RL; auto|]. intros i Hi. assert (Hi' : (i < length p)%nat) by (rewrite RL in Hi; rewrite (LEN p Hp); auto).
    assert (E1 : nth_error p i = Some (zc p i)) by (unfold zc; now apply nth_error_nth').
    assert (E2 : nth_error (hv_refpoint (Zar m) pts off) i = Some (zc (hv_refpoint (Zar m) pts off) i)) by (unfold zc; now apply nth_error_nth').
    destruct (RC i _ E2) as [_ K]. specialize (K p _ Hp E1). lia. }
  split; [clear - LT; induction LT; constructor; auto; lia|]. intros EQ. rewrite <- EQ in LT. destruct p as [|x p]; [specialize (LEN [] Hp); cbn in LEN; lia|].
  inversion LT. lia.
Qed.

(** ** Counterexamples *)
Lemma nth_error_ext {B} (a b : list B) : (forall i, nth_error a i = nth_error b i) -> a = b.
Proof.
  revert b. induction a as [|x a IH]; intros [|y b] H; auto; try (specialize (H 0%nat); discriminate).
  f_equal; [specialize (H 0%nat); cbn in H; congruence|]. apply IH. intros i. exact (H (S i)).
Qed.
Lemma exact_unique pts r c c' : exact_contributions pts r c -> exact_contributions pts r c' -> c = c'.
Proof.
  intros [L1 H1] [L2 H2]. apply nth_error_ext. intros i. destruct (nth_error c i) eqn:E1, (nth_error c' i) eqn:E2; auto.
  - f_equal. eapply volume_unique; eauto.
  - apply nth_error_None in E2. assert (nth_error c i <> None) by congruence. apply nth_error_Some in H. lia.
  - apply nth_error_None in E1. assert (nth_error c' i <> None) by congruence. apply nth_error_Some in H. lia.
Qed.

Definition pts3 : list (list Z) := [[1;3;0];[1;1;1];[0;0;2]].
Definition pts2 : list (list Z) := [[1;3];[1;1];[2;2]].
Lemma Forall2_le_dec p q : {Forall2 Z.le p q} + {~ Forall2 Z.le p q}.
Proof.
  revert q. induction p as [|x p IH]; intros [|y q]; try (right; intros H; inversion H; fail); [left; constructor|].
  destruct (Z_le_dec x y); [|right; intros H; inversion H; auto]. destruct (IH q); [left; constructor; auto|right; intros H; inversion H; auto].
Defined.
Lemma pts3_antichain : antichain pts3.
Proof.
  intros i j p q E1 E2 F.
  destruct i as [|[|[|i]]]; cbn in E1; try (destruct i; discriminate); injection E1 as <-;
  destruct j as [|[|[|j]]]; cbn in E2; try (destruct j; discriminate); injection E2 as <-; auto; exfalso;
  repeat (match goal with H : Forall2 Z.le (_ :: _) _ |- _ => inversion H; clear H; subst end); lia.
Qed.
Lemma pts3_acceptable : acceptable [4;4;4] pts3.
Proof. split; [discriminate|]. intros p [<-|[<-|[<-|[]]]]; (split; [repeat constructor; lia|discriminate]). Qed.
Lemma pts2_acceptable : acceptable [4;4] pts2.
Proof. split; [discriminate|]. intros p [<-|[<-|[<-|[]]]]; (split; [repeat constructor; lia|discriminate]). Qed.
Lemma pts3_representable : representable 1000 pts3.
Proof. intros p z [<-|[<-|[<-|[]]]] Hz; cbn in Hz; intuition lia. Qed.
Lemma pts2_representable : representable 1000 pts2.
Proof. intros p z [<-|[<-|[<-|[]]]] Hz; cbn in Hz; intuition lia. Qed.
Lemma hv3d_contributions_wrong : exists pts r c,
  antichain pts /\ acceptable r pts /\ length r = 3%nat /\ representable 1000 pts /\
  hv_obj_contributions (Zar 1000) (@isort) HV3D pts r = Ok c /\ ~ exact_contributions pts r c.
Proof.
  exists pts3, [4;4;4], [3;6;26]. split; [exact pts3_antichain|]. split; [exact pts3_acceptable|]. split; [reflexivity|].
  split; [exact pts3_representable|]. split; [vm_compute; reflexivity|]. intros X.
  destruct (obj_contributions_wfg 1000 (@isort) 2 pts3 [4;4;4] isort_contract) as (c & E & Y); [cbn; lia|exact pts3_acceptable|exact pts3_representable|].
  pose proof (exact_unique _ _ _ _ X Y) as K. subst c. vm_compute in E. discriminate.
Qed.
Lemma hv2d_contributions_wrong : exists pts r c k k',
  acceptable r pts /\ length r = 2%nat /\ representable 1000 pts /\
  hv_obj_contributions (Zar 1000) (@isort) HV2D pts r = Ok c /\ ~ exact_contributions pts r c /\
  hv_obj_exclusive (Zar 1000) (@isort) HV2D k pts r = Ok k' /\ nth_error c k <> Some k'.
Proof.
  exists pts2, [4;4], [0;6;2], 1%nat, 4. split; [exact pts2_acceptable|]. split; [reflexivity|].
  split; [exact pts2_representable|]. split; [vm_compute; reflexivity|]. split; [|split; [vm_compute; reflexivity|vm_compute; discriminate]]. intros X.
  destruct (obj_contributions_wfg 1000 (@isort) 2 pts2 [4;4] isort_contract) as (c & E & Y); [cbn; lia|exact pts2_acceptable|exact pts2_representable|].
  pose proof (exact_unique _ _ _ _ X Y) as K. subst c. vm_compute in E. discriminate.
Qed.
Lemma nan_reference_accepted : exists pts r, well_formed pts /\ In NaN r /\ hv_verify Dar HV2D pts r = Ok tt /\ hv_obj_compute Dar (@isort) HV2D pts r = Ok NaN.
Proof.
  exists [[dint 1; dint 2]], [NaN; dint 5]. split; [|split; [now left|split; vm_compute; reflexivity]].
  split; [discriminate|]. split; [exists 2%nat; split; [lia|]; intros p [<-|[]]; reflexivity|]. intros p x [<-|[]] [<-|[<-|[]]]; discriminate.
Qed.
Lemma refpoint_rejected : exists pts off, well_formed pts /\ dlt dzero off = true /\ hv_verify Dar HV2D pts (hv_refpoint Dar pts off) = Throw InvalidArgument.
Proof.
  exists [[dint (2^60); dint (2^60)]], (dint 1). split; [|split; vm_compute; reflexivity].
  split; [discriminate|]. split; [exists 2%nat; split; [lia|]; intros p [<-|[]]; reflexivity|]. intros p x [<-|[]] [<-|[<-|[]]]; discriminate.
Qed.

(** ** Equalities *)
Lemma Forall2_le_refl p : Forall2 Z.le p p.
Proof. induction p; constructor; auto; lia. Qed.
Lemma compute_same_set m srt a a' r pts pts' v v' : sort_contract srt ->
  suits a (length r) -> suits a' (length r) -> acceptable r pts -> acceptable r pts' -> representable m pts -> representable m pts' ->
  (forall p, In p pts <-> In p pts') ->
  alg_compute (Zar m) srt a pts r = Ok v -> alg_compute (Zar m) srt a' pts' r = Ok v' -> v = v'.
Proof.
  intros HS S1 S2 A1 A2 R1 R2 EQ E1 E2.
  assert (B1 : bounded_by r pts) by (intros p Hp; now apply A1). assert (B2 : bounded_by r pts') by (intros p Hp; now apply A2).
  destruct A1 as [N1 _], A2 as [N2 _]. apply Z.le_antisymm.
  - apply (compute_mono m srt HS a a' r pts pts' v v'); auto. intros p Hp. exists p. split; [now apply EQ|apply Forall2_le_refl].
  - apply (compute_mono m srt HS a' a r pts' pts v' v); auto. intros p Hp. exists p. split; [now apply EQ|apply Forall2_le_refl].
Qed.
Lemma compute_dominated_point m srt a r pts p q v v' : sort_contract srt ->
  suits a (length r) -> acceptable r pts -> acceptable r (p :: pts) -> representable m (p :: pts) ->
  In q pts -> Forall2 Z.le q p ->
  alg_compute (Zar m) srt a pts r = Ok v -> alg_compute (Zar m) srt a (p :: pts) r = Ok v' -> v = v'.
Proof.
  intros HS S1 A1 A2 R2 Hq F E1 E2.
  assert (R1 : representable m pts) by (intros x z Hx; apply R2; now right).
  assert (B1 : bounded_by r pts) by (intros x Hx; now apply A1). assert (B2 : bounded_by r (p :: pts)) by (intros x Hx; now apply A2).
  destruct A1 as [N1 _], A2 as [N2 _]. apply Z.le_antisymm.
  - apply (compute_mono m srt HS a a r pts (p :: pts) v v'); auto. intros x Hx. exists x. split; [now right|apply Forall2_le_refl].
  - apply (compute_mono m srt HS a a r (p :: pts) pts v' v); auto. intros x [<-|Hx]; [exists q; auto|]. exists x. split; [auto|apply Forall2_le_refl].
Qed.
