(** The three-dimensional sweep in exact arithmetic. *)
From Coq Require Import List Bool Arith ZArith Lia Permutation Sorting.Sorted.
From Verif Require Import Dbl Outcome StdSort BaseFacts Hypervolume SpecHypervolume HvFacts HvFacts2 HvFacts3.
Import ListNotations.
Local Open Scope Z_scope.

Section Three.
Context (m : Z) (L : Z) (r : list Z).

Lemma split_spec x T : let (b, a) := hv3d_split (Zar m) x T in T = b ++ a /\ (forall e, In e b -> x <= zc e 0) /\
  match a with [] => True | e :: _ => zc e 0 < x end.
Proof.
  induction T as [|e T IH]; cbn [hv3d_split]; [split; [auto|split; [intros e []|auto]]|]. rewrite crd_zc. cbn [alt Zar].
  destruct (Z.ltb_spec (zc e 0) x); [split; [auto|split; [intros e' []|auto]]|].
  destruct (hv3d_split (Zar m) x T) as [b a]. destruct IH as (-> & B & A). split; [auto|]. split; auto. intros e' [<-|He]; auto.
Qed.

(** Walking back *)
Lemma pops_ok py q aft : forall rb area, steps (rev rb ++ q :: aft) -> (exists e, In e rb /\ zc e 1 < py) ->
  area = stair r (rev rb ++ q :: aft) ->
  exists a' popped rb', hv3d_pops (Zar m) py (zc q 1) area rb = Ok (a', rb') /\ rb = popped ++ rb' /\ rb' <> [] /\
    (forall e, In e popped -> py <= zc e 1) /\ (forall e, In e rb' -> zc e 1 < py) /\ a' = stair r (rev rb' ++ q :: aft).
Proof.
  induction rb as [|e rb IH]; intros area SS (e0 & He0 & Hy) HA; [destruct He0|]. cbn [hv3d_pops]. rewrite !crd_zc. cbn [ale asub aabs amul Zar].
  cbn [rev] in SS. rewrite <- app_assoc in SS. cbn [app] in SS.
  destruct (SS_app_inv _ _ _ SS) as (S1 & S2 & S3).
  destruct (Z.leb_spec py (zc e 1)) as [H|H].
  - destruct He0 as [->|He0]; [lia|]. destruct rb as [|e' rb]; [destruct He0|].
    assert (PE : zc e 0 <= zc e' 0 /\ zc e' 1 <= zc e 1) by (apply S3; [apply in_rev; rewrite rev_involutive; left; auto|left; auto]).
    inversion S2 as [|? ? S2' F2]; subst. inversion F2 as [|? ? [Q1 Q2] _]; subst.
    destruct (IH (stair r (rev (e' :: rb) ++ q :: aft))) as (a' & popped & rb' & E1 & E2 & E3 & E4 & E5 & E6).
    + cbn [rev] in *. rewrite <- app_assoc in *. cbn [app] in *.
      destruct (SS_app_inv _ _ _ S1) as (K1 & K2 & K3). apply SS_app_intro; auto.
      * inversion S2' as [|? ? _ F3]; subst. constructor; auto. constructor.
        -- lia.
        -- apply Forall_forall. intros y Hy'. rewrite Forall_forall in F3. specialize (F3 y Hy'). lia.
      * intros a b Ha [<-|Hb]; [apply K3; [auto|left; auto]|]. apply S3; [apply in_app_iff; left; auto|right; auto].
    + exists e0. auto.
    + reflexivity.
    + assert (EA : stair r (rev (e :: e' :: rb) ++ q :: aft) - Z.abs ((zc e 0 - zc e' 0) * (zc e 1 - zc q 1)) = stair r (rev (e' :: rb) ++ q :: aft)).
      { cbn [rev]. rewrite <- !app_assoc. cbn [app]. rewrite (stair_app r (rev rb) e' (e :: q :: aft)), (stair_app r (rev rb) e' (q :: aft)).
        cbn [stair]. rewrite Z.abs_mul. rewrite (Z.abs_neq (zc e 0 - zc e' 0)), (Z.abs_neq (zc e 1 - zc q 1)) by lia.
        destruct aft; ring. }
      rewrite !crd_zc. rewrite EA. exists a', (e :: popped), rb'. split; [exact E1|]. split; [rewrite E2; reflexivity|]. split; [auto|]. split; auto.
      intros x [<-|Hx]; auto.
  - exists area, [], (e :: rb). split; [reflexivity|]. split; [reflexivity|]. split; [discriminate|]. split; [intros x []|]. split; [|exact HA].
    intros x [<-|Hx]; auto. pose proof (S3 x e) as K. assert (zc e 0 <= zc x 0 /\ zc x 1 <= zc e 1) by (apply K; [apply in_rev in Hx; auto|left; auto]). lia.
Qed.

(** The state of the sweep after the points [done]. *)
Definition sA := [zc r 0; - m; zc r 2].
Definition sB := [- m; zc r 1; zc r 2].
Definition above (p : list Z) : Prop := forall i, (i < 3)%nat -> - m < zc p i.
Definition tree (dn T : list (list Z)) : Prop :=
  steps T /\ (exists mid, T = sA :: mid ++ [sB] /\ forall e, In e mid -> within L r 2 e) /\
  (forall x, In x (cells L r 2) -> union 2 T x = union 2 dn x).
Lemma tree_area dn T : L <= zc r 0 -> tree dn T -> stair r T = meas L r 2 (union 2 dn).
Proof.
  intros HL (SS & (mid & -> & W) & U). rewrite <- (meas_ext L r 2 _ _ U).
  symmetry. change (sA :: mid ++ [sB]) with ((sA :: mid) ++ [sB]). apply stair_meas; auto.
  intros e [<-|He].
  - cbn. split; [unfold zc in *; cbn; lia|right; reflexivity].
  - specialize (W e He). pose proof (W 0%nat ltac:(lia)). pose proof (W 1%nat ltac:(lia)). split; [lia|left; lia].
Qed.

Lemma last_split {A} (l : list A) b c d : l ++ [b] = c ++ d -> d <> [] -> exists d', d = d' ++ [b] /\ l = c ++ d'.
Proof.
  intros H N. destruct (exists_last N) as (d' & x & ->). rewrite app_assoc in H. apply app_inj_tail in H. destruct H as [-> ->]. eauto.
Qed.
Lemma step_ok dn T v area z3 p : L <= zc r 0 -> tree dn T -> within L r 2 p -> above p -> area = stair r T ->
  exists st', hv3d_step (Zar m) (v, area, z3, T) p = Ok st' /\
  ((st' = (v, area, z3, T) /\ (forall x, In x (cells L r 2) -> inbox 2 p x = true -> union 2 dn x = true)) \/
   exists T', st' = (v + area * Z.abs (z3 - zc p 2), stair r T', zc p 2, T') /\ tree (p :: dn) T').
Proof.
  intros HL (SS & (mid & ET & W) & U) Wp Ap HA. unfold hv3d_step. rewrite !crd_zc.
  pose proof (split_spec (zc p 0) T) as SP. destruct (hv3d_split (Zar m) (zc p 0) T) as [bef aft]. destruct SP as (E & B & AA).
  pose proof (Wp 0%nat ltac:(lia)) as W0. pose proof (Wp 1%nat ltac:(lia)) as W1. pose proof (Ap 0%nat ltac:(lia)) as A0. pose proof (Ap 1%nat ltac:(lia)) as A1.
  destruct aft as [|q aft].
  { exfalso. rewrite app_nil_r in E. assert (In sB bef) by (rewrite <- E, ET; right; apply in_app_iff; right; left; auto). apply B in H. change (zc sB 0) with (- m) in H. lia. }
  assert (BNE : bef <> []).
  { intros ->. cbn in E. rewrite ET in E. injection E as <- _. change (zc sA 0) with (zc r 0) in AA. lia. }
  rewrite !crd_zc. cbn [ale Zar]. rewrite E in SS. destruct (SS_app_inv _ _ _ SS) as (S1 & S2 & S3).
  destruct (Z.leb_spec (zc q 1) (zc p 1)) as [HQ|HQ].
  - eexists. split; [reflexivity|]. left. split; [reflexivity|]. intros x Hx I. rewrite <- U by auto. rewrite E. unfold union.
    apply existsb_exists. exists q. split; [apply in_app_iff; right; left; auto|]. rewrite inbox2 in *. apply andb_true_iff in I. destruct I as [I1 I2].
    apply Z.leb_le in I1, I2. apply andb_true_iff. split; apply Z.leb_le; lia.
  - destruct (pops_ok (zc p 1) q aft (rev bef) area) as (a' & popped & rb' & E1 & E2 & E3 & E4 & E5 & E6).
    + rewrite rev_involutive. exact SS.
    + exists sA. split; [apply in_rev; rewrite rev_involutive; destruct bef as [|b0 bef]; [contradiction|]; rewrite ET in E; cbn in E; injection E as <- _; left; auto|].
      change (zc sA 1) with (- m). lia.
    + rewrite rev_involutive. rewrite HA, E. reflexivity.
    + rewrite E1. cbn [bind]. destruct rb' as [|e rb']; [contradiction|]. rewrite !crd_zc.
      eexists. split; [reflexivity|]. right.
      assert (EB : bef = rev (e :: rb') ++ rev popped) by (rewrite <- rev_app_distr, <- E2; symmetry; apply rev_involutive).
      assert (INB : forall x, In x (e :: rb') -> In x bef) by (intros x Hx; rewrite EB; apply in_app_iff; left; apply in_rev in Hx; auto).
      assert (INP : forall x, In x popped -> In x bef) by (intros x Hx; rewrite EB; apply in_app_iff; right; apply in_rev in Hx; auto).
      assert (SR : steps (rev (e :: rb'))) by (rewrite EB in S1; now destruct (SS_app_inv _ _ _ S1)).
      exists (rev (e :: rb') ++ p :: q :: aft). split.
      * f_equal. f_equal. f_equal. cbn [aadd aabs amul asub Zar]. rewrite E6. cbn [rev]. rewrite <- !app_assoc. cbn [app].
        rewrite (stair_app r (rev rb') e (q :: aft)), (stair_app r (rev rb') e (p :: q :: aft)). cbn [stair].
        pose proof (B e (INB e (or_introl eq_refl))). rewrite Z.abs_mul, (Z.abs_neq (zc p 0 - zc e 0)), (Z.abs_neq (zc p 1 - zc q 1)) by lia.
        destruct aft; ring.
      * split; [|split].
        -- apply SS_app_intro; auto.
           ++ constructor; auto. constructor; [lia|]. inversion S2 as [|? ? _ F2]; subst. eapply Forall_impl; [|exact F2]. cbn. intros y Hy. lia.
           ++ intros a b Ha Hb. apply in_rev in Ha. pose proof (B a (INB a Ha)). pose proof (E5 a Ha). destruct Hb as [<-|Hb]; [lia|].
              apply (S3 a b); auto.
        -- (* shape *)
           rewrite ET in E. assert (EH : exists rest0, rev (e :: rb') = sA :: rest0).
           { destruct (rev (e :: rb')) as [|h t] eqn:ER; [cbn in ER; destruct (rev rb'); discriminate|].
             rewrite EB, <- app_assoc in E. cbn in E. injection E as <- _. eauto. }
           destruct EH as (rest0 & EH). rewrite EH in *.
           rewrite EB in E. cbn [app] in E. injection E as E.
           rewrite <- app_assoc in E.
           destruct (last_split mid sB (rest0 ++ rev popped) (q :: aft)) as (d' & D1 & D2); [rewrite <- app_assoc; exact E|discriminate|].
           exists (rest0 ++ p :: d'). split; [cbn [app]; rewrite <- app_assoc; cbn [app]; rewrite D1; reflexivity|].
           intros x Hx. apply in_app_iff in Hx. destruct Hx as [Hx|[<-|Hx]]; auto; apply W; rewrite D2, !in_app_iff; auto.
        -- intros x Hx. rewrite union_app, union_cons. rewrite (union_cons 2 p dn). rewrite <- U by auto. rewrite E, EB, !union_app.
           assert (PD : union 2 (rev popped) x = true -> inbox 2 p x = true).
           { intros K. apply existsb_exists in K. destruct K as (y & Hy & K). apply in_rev in Hy. rewrite inbox2 in *. apply andb_true_iff in K.
             rewrite !Z.leb_le in K. pose proof (B y (INP y Hy)). pose proof (E4 y Hy). apply andb_true_iff. rewrite !Z.leb_le. lia. }
           destruct (union 2 (rev popped) x); [rewrite PD by auto; cbn; now rewrite !orb_true_r|].
           destruct (union 2 (rev (e :: rb')) x), (inbox 2 p x), (union 2 (q :: aft) x); reflexivity.
Qed.

(** The slices of the region at height z. *)
Definition slice3 (dn rest : list (list Z)) (z : Z) (x : list Z) : bool :=
  union 2 dn x || existsb (fun p => (zc p 2 <=? z) && inbox 2 p x) rest.
Lemma sweep_ok rest : forall dn T v z3, L <= zc r 0 -> tree dn T -> (forall p, In p rest -> within L r 3 p /\ above p /\ z3 <= zc p 2) -> z3 <= zc r 2 ->
  StronglySorted (fun a b => zc a 2 <= zc b 2) rest ->
  exists v' a' z' T', mfold (hv3d_step (Zar m)) (v, stair r T, z3, T) rest = Ok (v', a', z', T') /\
    v' + a' * Z.abs (z' - zc r 2) = v + zsum (map (fun z => meas L r 2 (slice3 dn rest z)) (zrange z3 (zc r 2))).
Proof.
  induction rest as [|p rest IH]; intros dn T v z3 HL HT HP HZ SS; cbn [mfold].
  - exists v, (stair r T), z3, T. split; [reflexivity|]. f_equal.
    rewrite (zsum_const _ (stair r T)); [rewrite zrange_length, Z2Nat.id by lia; rewrite Z.abs_neq by lia; ring|].
    intros z _. rewrite (tree_area dn T HL HT). apply meas_ext. intros x _. unfold slice3. cbn. apply orb_false_r.
  - destruct (HP p (or_introl eq_refl)) as (Wp & Ap & Zp). inversion SS as [|? ? SS' F]; subst. rewrite Forall_forall in F.
    assert (W2 : within L r 2 p) by (intros i Hi; apply Wp; lia). pose proof (Wp 2%nat ltac:(lia)) as P2.
    destruct (step_ok dn T v (stair r T) z3 p HL HT W2 Ap eq_refl) as (st' & -> & [(-> & D)|(T' & -> & HT')]); cbn [bind].
    + destruct (IH dn T v z3 HL HT) as (v' & a' & z' & T' & E1 & E2); auto; [intros q Hq; apply HP; right; auto|].
      exists v', a', z', T'. split; auto. rewrite E2. f_equal. apply zsum_ext. intros z _. apply meas_ext. intros x Hx. unfold slice3. cbn [existsb].
      destruct (inbox 2 p x) eqn:I; [rewrite (D x Hx I); reflexivity|]. now rewrite andb_false_r.
    + destruct (IH (p :: dn) T' (v + stair r T * Z.abs (z3 - zc p 2)) (zc p 2) HL HT') as (v' & a' & z' & T'' & E1 & E2); auto.
      { intros q Hq. destruct (HP q (or_intror Hq)) as (? & ? & ?). split; [auto|split; auto]. } { lia. }
      exists v', a', z', T''. split; [exact E1|]. rewrite E2. rewrite (zrange_split z3 (zc p 2) (zc r 2)) by lia.
      rewrite map_app, zsum_app, Z.add_assoc. f_equal.
      * f_equal. rewrite (zsum_const _ (stair r T)); [rewrite zrange_length, Z2Nat.id by lia; rewrite Z.abs_neq by lia; ring|].
        intros z Hz. apply in_zrange in Hz. rewrite (tree_area dn T HL HT). apply meas_ext. intros x _. unfold slice3.
        replace (existsb _ (p :: rest)) with false; [apply orb_false_r|]. symmetry. apply not_true_is_false. intros K. apply existsb_exists in K.
        destruct K as (q & Hq & K). apply andb_true_iff in K. destruct K as [K _]. apply Z.leb_le in K. destruct Hq as [<-|Hq]; [lia|]. specialize (F q Hq). lia.
      * apply zsum_ext. intros z Hz. apply in_zrange in Hz. apply meas_ext. intros x _. unfold slice3. rewrite union_cons. cbn [existsb].
        destruct (Z.leb_spec (zc p 2) z); [|lia]. cbn [andb]. destruct (inbox 2 p x), (union 2 dn x); reflexivity.
Qed.

Context (srt : sorter) (Hsrt : sort_contract srt).
Lemma union_three pts x z : length x = 2%nat -> union 3 pts (x ++ [z]) = existsb (fun p => (zc p 2 <=? z) && inbox 2 p x) pts.
Proof.
  intros H. unfold union. induction pts as [|p pts IH]; cbn [existsb]; auto. rewrite inbox_S by auto. rewrite IH, andb_comm. reflexivity.
Qed.
Lemma hv3d_ok pts : pts <> [] -> (forall p, In p pts -> (3 <= length p)%nat /\ within L r 3 p /\ above p) -> (3 <= length r)%nat ->
  hv3d_compute (Zar m) srt true pts r = Ok (meas L r 3 (union 3 pts)).
Proof.
  intros NE H HR. unfold hv3d_compute.
  assert (D : dims_at_least 3 (r :: pts) = true).
  { unfold dims_at_least. apply forallb_forall. intros x [<-|Hx]; apply Nat.leb_le; auto. now apply H. }
  rewrite D. cbn [negb].
  destruct (swo_std srt Hsrt (fun a b => alt (Zar m) (crd (Zar m) a 2) (crd (Zar m) b 2)) pts) as (s & -> & P & SS).
  { apply (key_swo (fun a => zc a 2)). }
  cbn [bind]. rewrite (meas_ext L r 3 (union 3 pts) (union 3 s)) by (intros; now apply union_perm).
  assert (HS : forall p, In p s -> within L r 3 p /\ above p) by (intros p Hp; apply H; eapply Permutation_in; [apply Permutation_sym|]; eauto).
  assert (SS2 : StronglySorted (fun a b => zc a 2 <= zc b 2) s).
  { eapply StronglySorted_ind with (P := fun l => StronglySorted (fun a b => zc a 2 <= zc b 2) l); [constructor| |exact SS].
    intros a l _ IH F. constructor; auto. eapply Forall_impl; [|exact F]. cbn. intros b E. rewrite !crd_zc in E. apply Z.ltb_ge in E. exact E. }
  destruct s as [|p0 rest]; [apply Permutation_sym, Permutation_nil in P; contradiction|].
  destruct (HS p0 (or_introl eq_refl)) as (W0 & A0).
  pose proof (W0 0%nat ltac:(lia)) as Wx. pose proof (W0 1%nat ltac:(lia)) as Wy. pose proof (W0 2%nat ltac:(lia)) as Wz.
  pose proof (A0 0%nat ltac:(lia)) as Ax. pose proof (A0 1%nat ltac:(lia)) as Ay.
  rewrite !crd_zc. cbn [aneg amaxv Zar].
  change [zc r 0; - m; zc r 2] with sA. change [- m; zc r 1; zc r 2] with sB.
  assert (ET : hv3d_insert (Zar m) (hv3d_insert (Zar m) (hv3d_insert (Zar m) [] sA) sB) p0 = [sA; p0; sB]).
  { unfold hv3d_insert at 3. cbn [hv3d_split app]. unfold hv3d_insert at 2. cbn [hv3d_split]. rewrite !crd_zc. cbn [alt Zar].
    change (zc sA 0) with (zc r 0). change (zc sB 0) with (- m). destruct (Z.ltb_spec (zc r 0) (- m)); [lia|]. cbn [app].
    unfold hv3d_insert. cbn [hv3d_split]. rewrite !crd_zc. cbn [alt Zar]. change (zc sA 0) with (zc r 0). change (zc sB 0) with (- m).
    destruct (Z.ltb_spec (zc r 0) (zc p0 0)); [lia|]. destruct (Z.ltb_spec (- m) (zc p0 0)); [reflexivity|lia]. }
  rewrite ET.
  assert (HT : tree [p0] [sA; p0; sB]).
  { split; [|split].
    - repeat constructor; change (zc sA 0) with (zc r 0); change (zc sB 0) with (- m); change (zc sA 1) with (- m); change (zc sB 1) with (zc r 1); lia.
    - exists [p0]. split; [reflexivity|]. intros e [<-|[]]. intros i Hi. apply W0. lia.
    - intros x Hx. apply cells2 in Hx. cbn [union existsb]. rewrite !inbox2. change (zc sA 0) with (zc r 0). change (zc sB 1) with (zc r 1).
      destruct (Z.leb_spec (zc r 0) (zc x 0)); [lia|]. destruct (Z.leb_spec (zc r 1) (zc x 1)); [lia|]. cbn [andb]. rewrite andb_false_r. reflexivity. }
  assert (EA : aabs (Zar m) (amul (Zar m) (asub (Zar m) (zc p0 0) (zc r 0)) (asub (Zar m) (zc p0 1) (zc r 1))) = stair r [sA; p0; sB]).
  { cbn [aabs amul asub Zar stair]. change (zc sA 0) with (zc r 0). change (zc sB 1) with (zc r 1). rewrite Z.abs_mul, !Z.abs_neq by lia. ring. }
  rewrite EA. cbn [azero Zar].
  inversion SS2 as [|? ? SS3 F]; subst. rewrite Forall_forall in F.
  destruct (sweep_ok rest [p0] [sA; p0; sB] 0 (zc p0 2)) as (v' & a' & z' & T' & E1 & E2); auto; [lia| |lia|].
  { intros p Hp. destruct (HS p (or_intror Hp)). auto. }
  rewrite E1. cbn [bind]. f_equal. cbn [aadd amul aabs asub Zar]. rewrite E2, Z.add_0_l.
  rewrite meas_slice, (zrange_split L (zc p0 2) (zc r 2)) by lia. rewrite map_app, zsum_app.
  rewrite (zsum_const _ 0 (zrange L (zc p0 2))).
  - rewrite Z.mul_0_r, Z.add_0_l. apply zsum_ext. intros z Hz. apply in_zrange in Hz. apply meas_ext. intros x Hx.
    rewrite union_three by (eapply cells_len; eauto). unfold slice3. cbn [existsb union]. destruct (Z.leb_spec (zc p0 2) z); [|lia]. now rewrite orb_false_r.
  - intros z Hz. apply in_zrange in Hz. apply meas_false. intros x Hx. rewrite union_three by (eapply cells_len; eauto).
    apply not_true_is_false. intros E. apply existsb_exists in E. destruct E as (q & Hq & E). apply andb_true_iff in E. destruct E as [E _]. apply Z.leb_le in E.
    destruct Hq as [<-|Hq]; [lia|]. specialize (F q Hq). lia.
Qed.
End Three.
