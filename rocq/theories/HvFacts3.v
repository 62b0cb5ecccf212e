(** hv2d and hv3d in exact arithmetic. *)
From Coq Require Import List Bool Arith ZArith Lia Permutation Sorting.Sorted.
From Verif Require Import Dbl Outcome StdSort BaseFacts Hypervolume SpecHypervolume HvFacts HvFacts2.
Import ListNotations.
Local Open Scope Z_scope.

Lemma key_swo {A} (f : A -> Z) l : strict_weak_on (fun a b => f a <? f b) l.
Proof.
  constructor.
  - intros. apply Z.ltb_irrefl.
  - intros a b c _ _ _ H1 H2. apply Z.ltb_lt in H1, H2. apply Z.ltb_lt. lia.
  - intros a b c _ _ _ H1 H2 H3 H4. apply Z.ltb_ge in H1, H2, H3, H4. rewrite !Z.ltb_ge. lia.
Qed.
Lemma SS_app_inv {A} (R : A -> A -> Prop) l l' : StronglySorted R (l ++ l') -> StronglySorted R l /\ StronglySorted R l' /\ forall a b, In a l -> In b l' -> R a b.
Proof.
  induction l as [|x l IH]; cbn; intros H.
  - split; [constructor|]. split; auto. intros a b [].
  - inversion H as [|? ? SS F]; subst. destruct (IH SS) as (A1 & A2 & A3). rewrite Forall_app in F. destruct F as [F1 F2]. split; [constructor; auto|]. split; auto.
    intros a b [<-|Ha] Hb; auto. rewrite Forall_forall in F2. auto.
Qed.
Lemma SS_app_intro {A} (R : A -> A -> Prop) l l' : StronglySorted R l -> StronglySorted R l' -> (forall a b, In a l -> In b l' -> R a b) -> StronglySorted R (l ++ l').
Proof.
  induction l as [|x l IH]; cbn; intros H1 H2 H3; auto. inversion H1 as [|? ? SS F]; subst. constructor.
  - apply IH; auto.
  - apply Forall_app. split; auto. apply Forall_forall. auto.
Qed.

Section Two.
Context (m : Z) (L : Z) (r : list Z).

Lemma inbox1 p x : inbox 1 p x = (zc p 0 <=? zc x 0).
Proof. cbn. now rewrite andb_true_r. Qed.
Lemma meas1_ge xm : L <= xm <= zc r 0 -> meas L r 1 (fun x => xm <=? zc x 0) = zc r 0 - xm.
Proof.
  intros H. rewrite (meas_cyl L r 0 _ (fun _ => true) xm H).
  - unfold meas. cbn. lia.
  - intros x z Hx Hz. destruct Hx as [<-|[]]. reflexivity.
Qed.

(** The width of the region at height y. *)
Definition width (xm y : Z) (rest : list (list Z)) (x : list Z) : bool :=
  (xm <=? zc x 0) || existsb (fun p => (zc p 1 <=? y) && (zc p 0 <=? zc x 0)) rest.
Lemma hv2d_sweep_ok rest : forall prev hv xm, L <= xm <= zc r 0 -> good L r 2 rest -> zc prev 1 <= zc r 1 ->
  StronglySorted (fun a b => zc a 1 <= zc b 1) (prev :: rest) ->
  hv2d_sweep (Zar m) r prev rest hv (zc r 0 - xm) = hv + zsum (map (fun y => meas L r 1 (width xm y rest)) (zrange (zc prev 1) (zc r 1))).
Proof.
  induction rest as [|p rest IH]; intros prev hv xm Hx G Hp SS; cbn [hv2d_sweep].
  - rewrite !crd_zc. cbn [aadd amul asub Zar]. f_equal.
    rewrite (zsum_const _ (zc r 0 - xm)); [rewrite zrange_length, Z2Nat.id by lia; reflexivity|].
    intros y _. rewrite <- (meas1_ge xm Hx). apply meas_ext. intros x _. unfold width. cbn. apply orb_false_r.
  - rewrite amax_max, !crd_zc. cbn [aadd amul asub Zar]. inversion SS as [|? ? SS' F]; subst. inversion F as [|? ? F1 F2]; subst.
    assert (Wp : within L r 2 p) by (apply G; left; auto).
    pose proof (Wp 0%nat ltac:(lia)) as W0. pose proof (Wp 1%nat ltac:(lia)) as W1.
    replace (Z.max (zc r 0 - xm) (zc r 0 - zc p 0)) with (zc r 0 - Z.min xm (zc p 0)) by lia.
    rewrite IH; [|lia|intros q Hq; apply G; right; auto|lia|auto].
    rewrite (zrange_split (zc prev 1) (zc p 1) (zc r 1)) by lia. rewrite map_app, zsum_app, Z.add_assoc. f_equal.
    + f_equal. rewrite (zsum_const _ (zc r 0 - xm)); [rewrite zrange_length, Z2Nat.id by lia; reflexivity|].
      intros y Hy. apply in_zrange in Hy. rewrite <- (meas1_ge xm Hx). apply meas_ext. intros x _. unfold width.
      replace (existsb _ (p :: rest)) with false; [apply orb_false_r|]. symmetry. apply not_true_is_false. intros E. apply existsb_exists in E.
      destruct E as (q & Hq & E). apply andb_true_iff in E. destruct E as [E _]. apply Z.leb_le in E.
      destruct Hq as [<-|Hq]; [lia|]. inversion SS' as [|? ? _ FQ]; subst. rewrite Forall_forall in FQ. specialize (FQ q Hq). lia.
    + apply zsum_ext. intros y Hy. apply in_zrange in Hy. apply meas_ext. intros x _. unfold width. cbn [existsb].
      destruct (Z.leb_spec (zc p 1) y); [|lia]. cbn [andb]. rewrite orb_assoc. f_equal.
      destruct (Z.leb_spec (Z.min xm (zc p 0)) (zc x 0)), (Z.leb_spec xm (zc x 0)), (Z.leb_spec (zc p 0) (zc x 0)); cbn; auto; lia.
Qed.

Lemma union_two pts x y : length x = 1%nat -> union 2 pts (x ++ [y]) = existsb (fun p => (zc p 1 <=? y) && (zc p 0 <=? zc x 0)) pts.
Proof.
  intros H. unfold union. induction pts as [|p pts IH]; cbn [existsb]; auto. rewrite inbox_S by auto. rewrite inbox1, IH, andb_comm. reflexivity.
Qed.
Context (srt : sorter) (Hsrt : sort_contract srt).
Lemma hv2d_sorted_ok p rest : good L r 2 (p :: rest) -> StronglySorted (fun a b => zc a 1 <= zc b 1) (p :: rest) ->
  hv2d_sweep (Zar m) r p rest 0 (zc r 0 - zc p 0) = meas L r 2 (union 2 (p :: rest)).
Proof.
  intros G SS. assert (Wp : within L r 2 p) by (apply G; left; auto).
  pose proof (Wp 0%nat ltac:(lia)) as W0. pose proof (Wp 1%nat ltac:(lia)) as W1.
  rewrite hv2d_sweep_ok; auto; [|intros q Hq; apply G; right; auto|lia]. rewrite Z.add_0_l, meas_slice.
  rewrite (zrange_split L (zc p 1) (zc r 1)) by lia. rewrite map_app, zsum_app.
  rewrite (zsum_const _ 0 (zrange L (zc p 1))).
  - rewrite Z.mul_0_r, Z.add_0_l. apply zsum_ext. intros y Hy. apply in_zrange in Hy. apply meas_ext. intros x Hx.
    rewrite union_two by (eapply cells_len; eauto). unfold width. cbn [existsb]. destruct (Z.leb_spec (zc p 1) y); [reflexivity|lia].
  - intros y Hy. apply in_zrange in Hy. apply meas_false. intros x Hx. rewrite union_two by (eapply cells_len; eauto).
    apply not_true_is_false. intros E. apply existsb_exists in E. destruct E as (q & Hq & E). apply andb_true_iff in E. destruct E as [E _]. apply Z.leb_le in E.
    destruct Hq as [<-|Hq]; [lia|]. inversion SS as [|? ? _ FQ]; subst. rewrite Forall_forall in FQ. specialize (FQ q Hq). lia.
Qed.
Lemma hv2d_body_ok pts : good L r 2 pts -> hv2d_body (Zar m) srt true pts r = Ok (meas L r 2 (union 2 pts)).
Proof.
  intros G. unfold hv2d_body.
  destruct (swo_std srt Hsrt (fun a b => alt (Zar m) (crd (Zar m) a 1) (crd (Zar m) b 1)) pts) as (s & -> & P & SS).
  { apply (key_swo (fun a => zc a 1)). }
  cbn [bind]. rewrite (meas_ext L r 2 (union 2 pts) (union 2 s)) by (intros; now apply union_perm).
  assert (GS : good L r 2 s) by (intros q Hq; apply G; eapply Permutation_in; [apply Permutation_sym|]; eauto).
  destruct s as [|p rest]; [now rewrite (meas_false _ _ 2 (union 2 [])) by reflexivity|]. f_equal. apply hv2d_sorted_ok; auto.
  eapply StronglySorted_ind with (P := fun l => StronglySorted (fun a b => zc a 1 <= zc b 1) l); [constructor| |exact SS].
  intros a l _ IH F. constructor; auto. eapply Forall_impl; [|exact F]. cbn. intros b E. rewrite !crd_zc in E. apply Z.ltb_ge in E. exact E.
Qed.
Lemma hv2d_ptr_ok pts : good L r 2 pts -> hv2d_compute_ptr (Zar m) srt true pts r = Ok (meas L r 2 (union 2 pts)).
Proof.
  intros G. unfold hv2d_compute_ptr. destruct pts as [|p [|q pts]]; [| |now apply hv2d_body_ok].
  - now rewrite (meas_false _ _ 2 (union 2 [])) by reflexivity.
  - rewrite (vol_ptr_eq m L r p 2) by (apply G; left; auto). f_equal. apply meas_ext. intros x _. cbn [union existsb]. now rewrite orb_false_r.
Qed.
Lemma hv2d_vec_ok pts : (forall p, In p pts -> length p = 2%nat) -> length r = 2%nat -> good L r 2 pts -> hv2d_compute (Zar m) srt true pts r = Ok (meas L r 2 (union 2 pts)).
Proof.
  intros HL HR G. unfold hv2d_compute. destruct pts as [|p [|q pts]].
  - now rewrite (meas_false _ _ 2 (union 2 [])) by reflexivity.
  - rewrite HR. pose proof (HL p (or_introl eq_refl)) as HP. rewrite HP. cbn [Nat.leb]. rewrite (vol_vec_eq m L r p 2) by (apply G; left; auto).
    f_equal. apply meas_ext. intros x _. cbn [union existsb]. now rewrite orb_false_r.
  - assert (D : dims_at_least 2 (r :: p :: q :: pts) = true).
    { unfold dims_at_least. apply forallb_forall. intros x [<-|Hx]; [now rewrite HR|]. rewrite HL by auto. reflexivity. }
    rewrite D. now apply hv2d_body_ok.
Qed.

(** ** hv3d *)
Definition steps (T : list (list Z)) : Prop := StronglySorted (fun a b => zc b 0 <= zc a 0 /\ zc a 1 <= zc b 1) T.
Fixpoint stair (T : list (list Z)) : Z :=
  match T with
  | a :: (b :: _) as T' => (zc r 0 - zc a 0) * (zc b 1 - zc a 1) + stair T'
  | _ => 0
  end.
Lemma stair_app l a t : stair (l ++ a :: t) = stair (l ++ [a]) + stair (a :: t).
Proof.
  induction l as [|x l IH]; [reflexivity|]. destruct l as [|y l].
  - cbn [app stair]. lia.
  - change ((x :: y :: l) ++ a :: t) with (x :: (y :: l) ++ a :: t). change ((x :: y :: l) ++ [a]) with (x :: (y :: l) ++ [a]).
    cbn [app] in *. cbn [stair] in *. lia.
Qed.
Lemma inbox2 p x : inbox 2 p x = (zc p 0 <=? zc x 0) && (zc p 1 <=? zc x 1).
Proof. cbn. now rewrite andb_true_r. Qed.
Lemma cells2 x : In x (cells L r 2) -> L <= zc x 0 < zc r 0 /\ L <= zc x 1 < zc r 1.
Proof. rewrite in_cells. intros [_ H]. split; apply H; lia. Qed.

Lemma stair_meas b l : zc b 1 = zc r 1 -> steps (l ++ [b]) ->
  (forall e, In e l -> L <= zc e 0 <= zc r 0 /\ (L <= zc e 1 \/ zc e 0 = zc r 0)) ->
  meas L r 2 (union 2 (l ++ [b])) = stair (l ++ [b]).
Proof.
  intros HB. induction l as [|a l IH]; intros SS HL.
  - cbn [app stair]. apply meas_false. intros x Hx. apply cells2 in Hx. cbn [union existsb]. rewrite inbox2, HB.
    destruct (Z.leb_spec (zc r 1) (zc x 1)); [lia|]. now rewrite andb_false_r.
  - cbn [app] in *. inversion SS as [|? ? SS' F]; subst. rewrite Forall_forall in F.
    assert (E : exists c t, l ++ [b] = c :: t) by (destruct l; cbn; eauto). destruct E as (c & t & E).
    assert (IHl : meas L r 2 (union 2 (l ++ [b])) = stair (l ++ [b])) by (apply IH; auto; intros; apply HL; right; auto).
    rewrite E in *. cbn [stair]. change (match t with [] => 0 | b0 :: _ => (zc r 0 - zc c 0) * (zc b0 1 - zc c 1) + stair t end) with (stair (c :: t)).
    rewrite <- IHl. destruct (HL a (or_introl eq_refl)) as [Ax Ay]. pose proof (F c (or_introl eq_refl)) as [Cx Cy].
    assert (CB : zc c 1 <= zc r 1).
    { rewrite <- HB. assert (IB : In b (c :: t)) by (rewrite <- E; apply in_app_iff; right; left; auto). destruct IB as [->|IB]; [lia|].
      inversion SS' as [|? ? _ FC]; subst. rewrite Forall_forall in FC. apply FC in IB. lia. }
    rewrite (meas_ext L r 2 (union 2 (a :: c :: t)) (fun x => inbox 2 a x || union 2 (c :: t) x)) by reflexivity.
    rewrite meas_or.
    assert (D : meas L r 2 (fun x => inbox 2 a x && negb (union 2 (c :: t) x)) = (zc r 0 - zc a 0) * (zc c 1 - zc a 1)).
    { transitivity (meas L r 2 (fun x => inbox 2 a x && negb (inbox 2 [zc a 0; zc c 1] x))).
      - apply meas_ext. intros x Hx. apply cells2 in Hx. rewrite !inbox2. change (zc [zc a 0; zc c 1] 0) with (zc a 0). change (zc [zc a 0; zc c 1] 1) with (zc c 1).
        destruct (Z.leb_spec (zc a 0) (zc x 0)); [|reflexivity]. cbn [andb]. f_equal. f_equal.
        destruct (Z.leb_spec (zc c 1) (zc x 1)) as [H1|H1].
        + cbn [union existsb]. rewrite inbox2. destruct (Z.leb_spec (zc c 0) (zc x 0)); [|lia]. destruct (Z.leb_spec (zc c 1) (zc x 1)); [reflexivity|lia].
        + apply not_true_is_false. intros K. apply existsb_exists in K. destruct K as (e & He & K). rewrite inbox2 in K.
          apply andb_true_iff in K. destruct K as [_ K]. apply Z.leb_le in K. destruct He as [<-|He]; [lia|].
          inversion SS' as [|? ? _ FC]; subst. rewrite Forall_forall in FC. apply FC in He. lia.
      - destruct Ay as [Ay|Ay].
        + rewrite meas_diff. rewrite (meas_ext L r 2 (fun x => inbox 2 a x && inbox 2 [zc a 0; zc c 1] x) (inbox 2 [zc a 0; zc c 1])).
          * rewrite !meas_box; [unfold prodz; cbn [seq fold_left]; change (zc [zc a 0; zc c 1] 0) with (zc a 0); change (zc [zc a 0; zc c 1] 1) with (zc c 1); lia| |].
            -- intros [|[|i]] Hi; [| |lia]; cbn [zc nth]; unfold zc in *; cbn in *; lia.
            -- intros [|[|i]] Hi; [| |lia]; lia.
          * intros x _. rewrite !inbox2. change (zc [zc a 0; zc c 1] 0) with (zc a 0). change (zc [zc a 0; zc c 1] 1) with (zc c 1).
            destruct (Z.leb_spec (zc a 0) (zc x 0)), (Z.leb_spec (zc a 1) (zc x 1)), (Z.leb_spec (zc c 1) (zc x 1)); cbn; auto; lia.
        + rewrite Ay, Z.sub_diag, Z.mul_0_l. apply meas_false. intros x Hx. apply cells2 in Hx. rewrite inbox2. destruct (Z.leb_spec (zc a 0) (zc x 0)); [lia|reflexivity]. }
    rewrite meas_diff in D. lia.
Qed.
End Two.
