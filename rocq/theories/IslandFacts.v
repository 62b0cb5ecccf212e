(** Facts on the island's futures. *)
From Coq Require Import List Bool Arith Lia.
From Verif Require Import Outcome BaseFacts Island SpecIsland.
Import ListNotations.

Lemma submitted_app a b : submitted (a ++ b) = submitted a + submitted b.
Proof. induction a as [|[] a IH]; cbn; lia. Qed.
Lemma finished_app a b : finished (a ++ b) = finished a + finished b.
Proof. induction a as [|[] a IH]; cbn; lia. Qed.
Lemma first_error_app a b : first_error (a ++ b) = fold_left after b (first_error a).
Proof. unfold first_error. now rewrite fold_left_app. Qed.
Lemma lowest_app a b : lowest (a ++ b) = match lowest a with Some e => Some e | None => lowest b end.
Proof. induction a as [|[e|] a IH]; cbn; auto. Qed.
Lemma lowest_nth l e : lowest l = Some e -> exists m, m < length l /\ nth_error l m = Some (Some e).
Proof. induction l as [|[x|] l IH]; cbn; [discriminate|intros [= ->]; exists 0; split; [lia|reflexivity]|]. intros H. destruct (IH H) as (m & L & E). exists (S m). split; [lia|exact E]. Qed.

Definition shape (fs : list fut) (k : nat) (rs : list (option exn)) (n : nat) : Prop := fs = repeat Invalid k ++ map Ready rs ++ repeat Pending n.
Lemma finish_pending e n : finish_first e (repeat Pending n) = match n with 0 => None | S m => Some (Ready e :: repeat Pending m) end.
Proof. destruct n; reflexivity. Qed.
Lemma finish_shape e k rs n fs : finish_first e (repeat Invalid k ++ map Ready rs ++ repeat Pending n) = Some fs -> exists m, n = S m /\ shape fs k (rs ++ [e]) m.
Proof.
  revert fs. induction k as [|k IH]; intros fs.
  - cbn [repeat app]. unfold shape. revert fs. induction rs as [|r rs IH]; intros fs.
    + cbn [map app]. rewrite finish_pending. destruct n; [discriminate|]. intros [= <-]. exists n. split; reflexivity.
    + cbn [map app finish_first]. destruct (finish_first e (map Ready rs ++ repeat Pending n)) as [fs'|]; [|discriminate]. cbn [option_map]. intros [= <-].
      destruct (IH _ eq_refl) as (m & -> & S). exists m. split; [reflexivity|]. cbn [repeat app] in *. now rewrite S.
  - cbn [repeat app finish_first]. destruct (finish_first e _) as [fs'|]; [|discriminate]. cbn [option_map]. intros [= <-]. destruct (IH _ eq_refl) as (m & -> & S). exists m. split; [reflexivity|]. unfold shape in *. cbn [repeat app]. now rewrite S.
Qed.
(** reading position i of such a vector *)
Lemma shape_nth k rs n i : k <= i -> nth_error (repeat Invalid k ++ map Ready rs ++ repeat Pending n) i =
  match nth_error rs (i - k) with Some r => Some (Ready r) | None => if i - k - length rs <? n then Some Pending else None end.
Proof.
  intros H. rewrite nth_error_app2 by (rewrite repeat_length; lia). rewrite repeat_length. destruct (nth_error rs (i - k)) as [r|] eqn:E.
  - assert (i - k < length rs) by (apply nth_error_Some; congruence). rewrite nth_error_app1 by (rewrite map_length; lia). now apply map_nth_error.
  - apply nth_error_None in E. rewrite nth_error_app2 by (rewrite map_length; lia). rewrite map_length. destruct (Nat.ltb_spec (i - k - length rs) n).
    + apply nth_error_repeat. lia.
    + apply nth_error_None. rewrite repeat_length. lia.
Qed.
Lemma upd_same {A} (l : list A) i a : nth_error l i = Some a -> upd l i a = l.
Proof. revert i. induction l as [|b l IH]; intros [|i] H; cbn in *; try discriminate; [congruence|]. now rewrite IH. Qed.
Lemma upd_shape k r rs n : upd (repeat Invalid k ++ map Ready (r :: rs) ++ repeat Pending n) k Invalid = repeat Invalid (S k) ++ map Ready rs ++ repeat Pending n.
Proof. induction k as [|k IH]; [reflexivity|]. cbn [repeat app upd]. f_equal. rewrite IH. reflexivity. Qed.

Definition inv (tr : list ievent) (s : istate) : Prop :=
  exists k rs n, shape (is_futs s) k rs n /\ finished tr + n = submitted tr /\
  match is_pos s with
  | KIdle => k = 0 /\ first_error tr = lowest rs
  | KStatus i err => k = 0 /\ first_error tr = lowest rs /\ i <= length rs /\ err = has_exc (lowest (firstn i rs))
  | KWait i fe => k = 0 /\ first_error tr = lowest rs /\ i <= length rs /\
      match fe with None => lowest (firstn i rs) = None | Some m => m < length rs /\ exists e, nth_error rs m = Some (Some e) /\ lowest rs = Some e end
  | KCheck i => k = i /\ first_error tr = lowest rs
  | KCheckRest i e => k <= i /\ i <= k + length rs /\ first_error tr = Some e
  | KUndef => False
  end.

Lemma firstn_snoc {A} (l : list A) i a : nth_error l i = Some a -> firstn (S i) l = firstn i l ++ [a].
Proof. revert i. induction l as [|b l IH]; intros [|i] H; cbn in *; try discriminate; [congruence|]. now rewrite <- IH. Qed.
Lemma inv_call tr s c ev s' : inv tr s -> begin_call s c = Some (ev, s') -> inv (tr ++ ev) s'.
Proof.
  intros (k & rs & n & SH & CT & P) H. unfold begin_call in H. destruct (is_pos s); try discriminate. destruct P as [-> FE].
  destruct c; injection H as <- <-; rewrite ?app_nil_r.
  - exists 0, rs, (S n). cbn [is_futs is_pos]. split; [|split; [rewrite finished_app, submitted_app; cbn; lia|]].
    + unfold shape in *. rewrite SH. cbn [repeat app]. rewrite <- app_assoc. f_equal. change (repeat Pending n ++ [Pending] = Pending :: repeat Pending n). symmetry. apply repeat_cons.
    + split; [reflexivity|]. rewrite first_error_app. exact FE.
  - exists 0, rs, n. cbn [is_futs is_pos]. repeat split; auto; lia.
  - exists 0, rs, n. cbn [is_futs is_pos]. repeat split; auto; lia.
  - exists 0, rs, n. cbn [is_futs is_pos]. repeat split; auto.
Qed.
Lemma inv_finish tr s e fs : inv tr s -> finish_first e (is_futs s) = Some fs -> inv (tr ++ [Finish e]) (mkis fs (is_pos s)).
Proof.
  intros (k & rs & n & SH & CT & P) H. rewrite SH in H. destruct (finish_shape _ _ _ _ _ H) as (m & -> & SH').
  exists k, (rs ++ [e]), m. cbn [is_futs is_pos]. split; [exact SH'|]. split; [rewrite finished_app, submitted_app; cbn; lia|].
  assert (FE : first_error tr = lowest rs -> first_error (tr ++ [Finish e]) = lowest (rs ++ [e])).
  { intros F. rewrite first_error_app, lowest_app, F. cbn. destruct (lowest rs); [reflexivity|]. now destruct e. }
  destruct (is_pos s) as [|i err|i fe|i|i x|].
  - destruct P as [-> F]. auto.
  - destruct P as (-> & F & L & E). repeat split; auto; [rewrite app_length; lia|]. rewrite firstn_app. replace (i - length rs) with 0 by lia. cbn. now rewrite app_nil_r.
  - destruct P as (-> & F & L & E). repeat split; auto; [rewrite app_length; lia|]. destruct fe as [q|].
    + destruct E as (Q & x & E1 & E2). split; [rewrite app_length; lia|]. exists x. rewrite nth_error_app1, lowest_app, E2 by lia. auto.
    + rewrite firstn_app. replace (i - length rs) with 0 by lia. cbn. now rewrite app_nil_r.
  - destruct P as [-> F]. auto.
  - destruct P as (A & B & F). repeat split; auto; [rewrite app_length; lia|]. rewrite first_error_app, F. reflexivity.
  - exact P.
Qed.
Lemma restore e : future_has_exception e = (has_exc e, Ready e).
Proof. destruct e; reflexivity. Qed.
Lemma after_plain tr ev : (forall e, ev <> CheckRet e) -> (forall e, ev <> Finish e) -> first_error (tr ++ [ev]) = first_error tr.
Proof. intros A B. rewrite first_error_app. cbn. destruct ev; auto; [exfalso; eapply B|exfalso; eapply A]; reflexivity. Qed.

(** What the returning steps say. *)
Definition good_ret (tr : list ievent) (ev : ievent) : Prop :=
  match ev with
  | StatusRet st => st = status_of (finished tr <? submitted tr) (has_exc (first_error tr))
  | WaitRet => finished tr = submitted tr
  | CheckRet r => finished tr = submitted tr /\ r = first_error tr
  | _ => True
  end.
Lemma inv_client tr s ev s' : inv tr s -> client_step s = Some (ev, s') -> inv (tr ++ ev) s' /\ Forall (good_ret tr) ev /\ (length ev <= 1) /\ (ev <> [] -> is_pos s' = KIdle).
Proof.
  intros (k & rs & n & SH & CT & P) H. unfold shape in SH. unfold client_step in H. rewrite SH in H. destruct (is_pos s) as [|i err|i fe|i|i x|]; try discriminate.
  - destruct P as (-> & FE & L & ER). rewrite shape_nth in H by lia. rewrite Nat.sub_0_r in H. destruct (nth_error rs i) as [r|] eqn:En.
    + assert (N : nth_error (is_futs s) i = Some (Ready r)) by (rewrite SH, shape_nth, Nat.sub_0_r, En by lia; reflexivity).
      assert (Li : i < length rs) by (apply nth_error_Some; congruence).
      assert (X : ev = [] /\ s' = mkis (is_futs s) (KStatus (S i) (has_exc (lowest (firstn (S i) rs))))).
      { rewrite (firstn_snoc _ _ _ En), lowest_app. rewrite <- SH in H. destruct err.
        - injection H as <- <-. split; [reflexivity|]. destruct (lowest (firstn i rs)); [reflexivity|discriminate].
        - rewrite restore in H. cbv beta iota in H. try rewrite <- SH in H. rewrite (upd_same _ _ _ N) in H. injection H as <- <-. split; [reflexivity|]. destruct (lowest (firstn i rs)); [discriminate|]. cbn. now destruct r. }
      destruct X as [-> ->]. rewrite app_nil_r. split; [|split; [constructor|split; [cbn; lia|congruence]]]. exists 0, rs, n. cbn [is_futs is_pos]. repeat split; auto.
    + apply nth_error_None in En. assert (i = length rs) by lia. subst i. rewrite Nat.sub_diag, firstn_all in *. rewrite <- SH in H. assert (B : (finished tr <? submitted tr) = (0 <? n)) by (destruct (Nat.ltb_spec 0 n); [apply Nat.ltb_lt|apply Nat.ltb_ge]; lia).
      assert (X : ev = [StatusRet (status_of (0 <? n) err)] /\ s' = mkis (is_futs s) KIdle) by (destruct (0 <? n), err; injection H as <- <-; split; reflexivity).
      destruct X as [-> ->]. split; [|split; [constructor; [|constructor]|split; [cbn; lia|reflexivity]]].
      * exists 0, rs, n. cbn [is_futs is_pos]. rewrite finished_app, submitted_app. cbn [finished submitted]. rewrite after_plain by discriminate. repeat split; auto; lia.
      * cbn [good_ret]. now rewrite B, FE, ER.
  - destruct P as (-> & FE & L & ER). rewrite shape_nth in H by lia. rewrite Nat.sub_0_r in H. destruct (nth_error rs i) as [r|] eqn:En.
    + assert (N : nth_error (is_futs s) i = Some (Ready r)) by (rewrite SH, shape_nth, Nat.sub_0_r, En by lia; reflexivity).
      assert (Li : i < length rs) by (apply nth_error_Some; congruence). rewrite <- SH in H. destruct fe as [q|].
      * injection H as <- <-. rewrite app_nil_r. split; [|split; [constructor|split; [cbn; lia|congruence]]]. exists 0, rs, n. cbn [is_futs is_pos]. repeat split; auto; apply ER.
      * rewrite restore in H. cbv beta iota in H. try rewrite <- SH in H. rewrite (upd_same _ _ _ N) in H. injection H as <- <-. rewrite app_nil_r. split; [|split; [constructor|split; [cbn; lia|congruence]]]. exists 0, rs, n. cbn [is_futs is_pos]. repeat split; auto.
        destruct r as [e|]; cbn [has_exc].
        -- split; [lia|]. exists e. split; [exact En|]. rewrite <- (firstn_skipn (S i) rs), (firstn_snoc _ _ _ En), !lowest_app, ER. reflexivity.
        -- rewrite (firstn_snoc _ _ _ En), lowest_app, ER. reflexivity.
    + apply nth_error_None in En. assert (i = length rs) by lia. subst i. rewrite Nat.sub_diag, firstn_all in *. destruct n as [|n]; [|discriminate]. cbn [Nat.ltb Nat.leb] in H. destruct fe as [q|].
      * destruct ER as (Q & e & E1 & E2). rewrite shape_nth in H by lia. rewrite Nat.sub_0_r, E1 in H. injection H as <- <-. split; [|split; [constructor; [|constructor]|split; [cbn; lia|reflexivity]]].
        -- exists 0, [Some e], 0. cbn [is_futs is_pos]. rewrite finished_app, submitted_app. cbn [finished submitted]. rewrite after_plain by discriminate. repeat split; try lia. rewrite FE. exact E2.
        -- cbn. lia.
      * injection H as <- <-. split; [|split; [constructor; [|constructor]|split; [cbn; lia|reflexivity]]].
        -- exists 0, [], 0. cbn [is_futs is_pos]. rewrite finished_app, submitted_app. cbn [finished submitted]. rewrite after_plain by discriminate. repeat split; try lia. rewrite FE. exact ER.
        -- cbn. lia.
  - destruct P as (-> & FE). rewrite shape_nth, Nat.sub_diag in H by lia. destruct rs as [|r rs]; cbn [nth_error] in H.
    + cbn [length Nat.sub] in H. destruct n as [|n]; [|discriminate]. cbn in H. injection H as <- <-. split; [|split; [constructor; [|constructor]|split; [cbn; lia|reflexivity]]].
      * exists 0, [], 0. cbn [is_futs is_pos]. rewrite finished_app, submitted_app, first_error_app. cbn. repeat split; auto; lia.
      * cbn in *. split; [lia|auto].
    + rewrite upd_shape in H. destruct r as [e|]; injection H as <- <-; rewrite app_nil_r; (split; [|split; [constructor|split; [cbn; lia|congruence]]]).
      * exists (S i), rs, n. cbn [is_futs is_pos]. cbn in FE. repeat split; auto; lia.
      * exists (S i), rs, n. cbn [is_futs is_pos]. cbn in FE. repeat split; auto.
  - destruct P as (L1 & L2 & FE). rewrite shape_nth in H by lia. destruct (nth_error rs (i - k)) as [r|] eqn:En.
    + assert (i - k < length rs) by (apply nth_error_Some; congruence). rewrite <- SH in H. injection H as <- <-. rewrite app_nil_r. split; [|split; [constructor|split; [cbn; lia|congruence]]]. exists k, rs, n. cbn [is_futs is_pos]. repeat split; auto; lia.
    + apply nth_error_None in En. replace (i - k - length rs) with 0 in H by lia. destruct n as [|n]; [|discriminate]. cbn in H. injection H as <- <-. split; [|split; [constructor; [|constructor]|split; [cbn; lia|reflexivity]]].
      * exists 0, [], 0. cbn [is_futs is_pos]. rewrite finished_app, submitted_app, first_error_app. cbn. repeat split; auto; lia.
      * cbn. split; [lia|auto].
Qed.
Lemma irun_inv tr s : irun tr s -> inv tr s.
Proof.
  induction 1 as [|tr s c ev s' _ IH E|tr s ev s' _ IH E|tr s e fs _ IH E].
  - exists 0, [], 0. repeat split.
  - eapply inv_call; eauto.
  - now apply (inv_client _ _ _ _ IH E).
  - eapply inv_finish; eauto.
Qed.
Lemma snoc_split {A} (a : list A) b t x : a ++ b = t ++ [x] -> (b = [] /\ a = t ++ [x]) \/ exists b', b = b' ++ [x] /\ t = a ++ b'.
Proof.
  destruct b as [|y b _] using rev_ind; intros H; [left; rewrite app_nil_r in H; auto|]. right. rewrite app_assoc in H. apply app_inj_tail in H. destruct H as [H ->]. exists b. auto.
Qed.
Lemma irun_ret tr ev s : irun (tr ++ [ev]) s -> good_ret tr ev.
Proof.
  intros H. remember (tr ++ [ev]) as t eqn:Et. revert tr ev Et. induction H as [|t s c ev s' H IH E|t s ev s' H IH E|t s e fs H IH E]; intros tr x Et.
  - destruct tr; discriminate.
  - symmetry in Et. apply eq_sym in Et. destruct (snoc_split _ _ _ _ Et) as [(-> & ->)|(b & -> & ->)]; [now apply IH|]. unfold begin_call in E. destruct (is_pos s); try discriminate.
    destruct c; injection E as E1 _; destruct b as [|? [|]]; try discriminate. injection E1 as <-. exact I.
  - destruct (snoc_split _ _ _ _ Et) as [(-> & ->)|(b & -> & ->)]; [now apply IH|]. destruct (inv_client _ _ _ _ (irun_inv _ _ H) E) as (_ & F & L & _).
    rewrite app_length in L. cbn in L. destruct b; [|cbn in L; lia]. rewrite app_nil_r. now inversion F.
  - apply app_inj_tail in Et. destruct Et as [-> <-]. exact I.
Qed.

(** The answers of status, wait and wait_check. *)
Lemma status_ret tr st s : irun (tr ++ [StatusRet st]) s -> st = status_of (finished tr <? submitted tr) (has_exc (first_error tr)).
Proof. exact (irun_ret tr (StatusRet st) s). Qed.
Lemma wait_ret tr s : irun (tr ++ [WaitRet]) s -> finished tr = submitted tr /\ first_error (tr ++ [WaitRet]) = first_error tr.
Proof. intros H. split; [exact (irun_ret tr WaitRet s H)|]. now apply after_plain. Qed.
Lemma check_ret tr r s : irun (tr ++ [CheckRet r]) s -> finished tr = submitted tr /\ r = first_error tr /\ first_error (tr ++ [CheckRet r]) = None.
Proof. intros H. destruct (irun_ret tr (CheckRet r) s H). rewrite first_error_app. auto. Qed.
Lemma irun_bounds tr s : irun tr s -> finished tr <= submitted tr /\ is_pos s <> KUndef.
Proof. intros H. destruct (irun_inv _ _ H) as (k & rs & n & _ & C & P). split; [lia|]. intros E. now rewrite E in P. Qed.

(** Progress of the calls. *)
Lemma call_step tr s : irun tr s -> is_pos s <> KIdle -> (exists i e, is_pos s = KStatus i e) \/ finished tr = submitted tr -> client_step s <> None.
Proof.
  intros H NI C. destruct (irun_inv _ _ H) as (k & rs & n & SH & CT & P). unfold client_step. rewrite SH. destruct (is_pos s) as [|i err|i fe|i|i x|]; try contradiction.
  - destruct (nth_error _ i) as [[|[]|]|]; try discriminate; destruct err; discriminate.
  - destruct C as [(a & b & C)|C]; [discriminate|]. assert (n = 0) by lia. subst n. destruct P as (-> & _). rewrite shape_nth by lia. destruct (nth_error rs _) as [r|].
    + destruct fe; [discriminate|]. rewrite restore. discriminate.
    + replace (_ <? 0) with false by (symmetry; apply Nat.ltb_ge; lia). destruct fe; [|discriminate]. destruct (nth_error _ _); discriminate.
  - destruct C as [(a & b & C)|C]; [discriminate|]. assert (n = 0) by lia. subst n. destruct P as (-> & _). rewrite shape_nth by lia. destruct (nth_error rs _) as [[]|]; try discriminate.
  - destruct C as [(a & b & C)|C]; [discriminate|]. assert (n = 0) by lia. subst n. destruct P as (L & _). rewrite shape_nth by lia. destruct (nth_error rs _); try discriminate.
Qed.
Definition left_steps (s : istate) : nat :=
  match is_pos s with KStatus i _ | KWait i _ | KCheck i | KCheckRest i _ => S (length (is_futs s)) - i | _ => 0 end.
Lemma step_measure s ev s' : client_step s = Some (ev, s') -> is_pos s' = KIdle \/ is_pos s' = KUndef \/ left_steps s' < left_steps s.
Proof.
  unfold client_step, left_steps. destruct (is_pos s) as [|i err|i fe|i|i x|]; try discriminate;
  (destruct (nth_error (is_futs s) i) as [[|r|]|] eqn:E; [| | |]).
  all: try (intros [= <- <-]; cbn; tauto). all: try discriminate.
  all: try (assert (i < length (is_futs s)) by (apply nth_error_Some; congruence)).
  - destruct err; [|rewrite restore]; intros [= <- <-]; cbn [is_pos is_futs]; rewrite ?upd_length; right; right; lia.
  - destruct fe; [|rewrite restore]; intros [= <- <-]; cbn [is_pos is_futs]; rewrite ?upd_length; right; right; lia.
  - destruct fe as [q|]; [|intros [= <- <-]; cbn; tauto]. destruct (nth_error _ q); intros [= <- <-]; cbn; tauto.
  - destruct r; intros [= <- <-]; cbn [is_pos is_futs]; rewrite ?upd_length; right; right; lia.
  - intros [= <- <-]; cbn [is_pos is_futs]; right; right; lia.
Qed.
Lemma returns tr s : irun tr s -> (exists i e, is_pos s = KStatus i e) \/ finished tr = submitted tr -> exists s', isteps s s' /\ is_pos s' = KIdle.
Proof.
  remember (left_steps s) as m eqn:Em. revert tr s Em. induction m as [m IH] using lt_wf_ind. intros tr s -> H C.
  assert (D : is_pos s = KIdle \/ is_pos s <> KIdle) by (destruct (is_pos s); (left; reflexivity) || (right; discriminate)).
  destruct D as [D|D]; [exists s; split; [constructor|exact D]|].
  destruct (client_step s) as [[ev s1]|] eqn:E; [|exfalso; exact (call_step tr s H D C E)].
  pose proof (ir_client _ _ _ _ H E) as H1. destruct (step_measure _ _ _ E) as [K|[K|K]].
  - exists s1. split; [econstructor; [exact E|constructor]|exact K].
  - destruct (irun_bounds _ _ H1). contradiction.
  - assert (C1 : (exists i e, is_pos s1 = KStatus i e) \/ finished (tr ++ ev) = submitted (tr ++ ev) \/ is_pos s1 = KIdle).
    { destruct (inv_client _ _ _ _ (irun_inv _ _ H) E) as (_ & _ & _ & R). destruct ev as [|x ev]; [|right; right; apply R; discriminate]. rewrite app_nil_r. destruct C as [(i & e & C)|C]; [|auto].
      left. unfold client_step in E. rewrite C in E. destruct (nth_error _ i) as [[|r|]|] eqn:N; try discriminate; [|].
      - destruct e; [|rewrite restore in E]; injection E as <-; eexists _, _; reflexivity.
      - injection E as <-. unfold left_steps in K. destruct (irun_bounds _ _ H1) as [_ B]. now cbn in B. }
    destruct C1 as [C1|[C1|C1]]; [| |exists s1; split; [econstructor; [exact E|constructor]|exact C1]].
    + destruct (IH _ K (tr ++ ev) s1 eq_refl H1 (or_introl C1)) as (s2 & A & B). exists s2. split; [econstructor; eassumption|exact B].
    + destruct (IH _ K (tr ++ ev) s1 eq_refl H1 (or_intror C1)) as (s2 & A & B). exists s2. split; [econstructor; eassumption|exact B].
Qed.
