(** Facts about the global engine. *)
From Coq Require Import List Bool Arith ZArith Lia Permutation.
From Verif Require Import GlobalRng SpecGlobalRng.
Import ListNotations.

Lemma put_split : forall A (l : list A) i x y, nth_error l i = Some x -> exists a b, l = a ++ x :: b /\ put l i y = a ++ y :: b /\ length a = i.
Proof.
  induction l as [|z l IH]; intros [|i] x y E; try discriminate E.
  - injection E as <-. exists [], l. auto.
  - destruct (IH i x y E) as (a & b & -> & Hp & <-). exists (z :: a), b. cbn. rewrite Hp. auto.
Qed.
Lemma put_same : forall A (l : list A) i x y, nth_error l i = Some x -> nth_error (put l i y) i = Some y.
Proof. induction l as [|z l IH]; intros [|i] x y E; try discriminate E; cbn; [reflexivity|eauto]. Qed.
Lemma put_other : forall A (l : list A) i j y, i <> j -> nth_error (put l i y) j = nth_error l j.
Proof. induction l as [|z l IH]; intros [|i] [|j] y E; cbn; try reflexivity; try (exfalso; lia); apply IH; lia. Qed.
Lemma put_len : forall A (l : list A) i y, length (put l i y) = length l.
Proof. induction l as [|z l IH]; intros [|i] y; cbn; auto. Qed.

Section S.
Context {G : Type} (eng_next : G -> Z * G) (eng_seed : Z -> G).
Notation rstate := (@rstate G).
Notation rpc := (@rpc G).
Notation rstep := (rstep eng_next eng_seed).
Notation rrun := (rrun eng_next eng_seed).
Notation effect := (effect eng_next eng_seed).
Notation sequential := (sequential eng_next eng_seed).

Definition critical (pc : rpc) : bool := match pc with Held _ | Computed _ _ _ | Written _ _ => true | _ => false end.
Definition part (i : nat) (pc : rpc) : list hevent :=
  match pc with
  | Idle => []
  | AtLock c | Held c | Computed c _ _ => [HCall i c]
  | Written c v | Unlocked c v => [HCall i c; HEffect i c v]
  end.
Definition cur (pc : rpc) : list rcall := match pc with Idle => [] | AtLock c | Held c | Computed c _ _ | Written c _ | Unlocked c _ => [c] end.
Definition pend (t : rpc * list rcall) : list (rcall * option Z) := match fst t with Written c v | Unlocked c v => [(c, v)] | _ => [] end.
Definition left (t : rpc * list rcall) : nat := length (snd t) + match fst t with AtLock _ | Held _ | Computed _ _ _ => 1 | _ => 0 end.
Definition whole (i : nat) (d : list (rcall * option Z)) : list hevent := flat_map (fun q => [HCall i (fst q); HEffect i (fst q) (snd q); HRet i (fst q) (snd q)]) d.
Fixpoint after (g : G) (l : list (rcall * option Z)) : G := match l with [] => g | (c, _) :: t => after (snd (effect c g)) t end.
Definition rets (seen : list revent) : list (rcall * option Z) := flat_map (fun e => match e with RRet _ c v => [(c, v)] | _ => [] end) seen.

Lemma visible_app : forall a b, visible (a ++ b) = visible a ++ visible b.
Proof. intros. unfold visible. apply flat_map_app. Qed.
Lemma effects_app : forall a b, effects (a ++ b) = effects a ++ effects b.
Proof. intros. unfold effects. apply flat_map_app. Qed.
Lemma of_thread_app : forall i a b, of_thread i (a ++ b) = of_thread i a ++ of_thread i b.
Proof. intros. unfold of_thread. apply filter_app. Qed.
Lemma rets_app : forall a b, rets (a ++ b) = rets a ++ rets b.
Proof. intros. unfold rets. apply flat_map_app. Qed.
Lemma after_app : forall a b g, after g (a ++ b) = after (after g a) b.
Proof. induction a as [|[c v] a IH]; intros; cbn; auto. Qed.
Lemma seq_app : forall a b g, sequential g a -> sequential (after g a) b -> sequential g (a ++ b).
Proof.
  induction a as [|[c v] a IH]; intros b g Ha Hb; cbn in *; auto. destruct c as [|s]; destruct Ha as [Hv Ha]; split; auto; apply IH; auto.
  unfold GlobalRng.effect in Hb. destruct (eng_next g); exact Hb.
Qed.

Record inv (g0 : G) (progs : list (list rcall)) (s : rstate) (h : list hevent) : Prop := mkinv {
  i_vis : visible h = seen s;
  i_seq : sequential g0 (effects h);
  i_eng : after g0 (effects h) = eng_st s;
  i_len : length (threads s) = length progs;
  i_thr : forall i pc todo, nth_error (threads s) i = Some (pc, todo) -> exists d, of_thread i h = whole i d ++ part i pc /\ nth i progs [] = map fst d ++ cur pc ++ todo;
  i_out : forall i, nth_error (threads s) i = None -> of_thread i h = [];
  i_own : forall i pc todo, nth_error (threads s) i = Some (pc, todo) -> (critical pc = true <-> owner s = Some i);
  i_ownr : forall i, owner s = Some i -> nth_error (threads s) i <> None;
  i_cmp : forall i c v g todo, nth_error (threads s) i = Some (Computed c v g, todo) -> effect c (eng_st s) = (v, g);
  i_prm : Permutation (effects h) (rets (seen s) ++ flat_map pend (threads s));
  i_cnt : length (effects h) + list_sum (map left (threads s)) = count_calls progs
}.

Lemma inv_start : forall g0 progs, inv g0 progs (rstart g0 progs) [].
Proof.
  intros g0 progs. unfold rstart. constructor; cbn [eng_st owner threads seen].
  - reflexivity.
  - exact I.
  - reflexivity.
  - apply map_length.
  - intros i pc todo E. rewrite nth_error_map in E. destruct (nth_error progs i) as [p|] eqn:Ep; [|discriminate E]. injection E as <- <-.
    exists []. split; [reflexivity|]. cbn. apply nth_error_nth with (d := []) in Ep. exact Ep.
  - reflexivity.
  - intros i pc todo E. rewrite nth_error_map in E. destruct (nth_error progs i); [|discriminate E]. injection E as <- <-. cbn. split; discriminate.
  - intros i E. discriminate E.
  - intros i c v g todo E. rewrite nth_error_map in E. destruct (nth_error progs i); discriminate E.
  - cbn. induction progs; cbn; auto.
  - cbn. unfold count_calls. induction progs as [|p t IH]; [reflexivity|]. cbn [map concat list_sum fold_right]. rewrite app_length, <- IH. unfold left at 1. cbn [fst snd]. unfold list_sum. lia.
Qed.

Lemma sum_put : forall (l : list (rpc * list rcall)) i x y, nth_error l i = Some x -> list_sum (map left (put l i y)) + left x = list_sum (map left l) + left y.
Proof.
  intros l i x y E. destruct (put_split _ l i x y E) as (a & b & -> & -> & _). rewrite !map_app, !list_sum_app. cbn. lia.
Qed.
Lemma pend_put : forall (l : list (rpc * list rcall)) i x y, nth_error l i = Some x -> Permutation (pend x ++ flat_map pend (put l i y)) (pend y ++ flat_map pend l).
Proof.
  intros l i x y E. destruct (put_split _ l i x y E) as (a & b & -> & -> & _). rewrite !flat_map_app. cbn.
  rewrite (Permutation_app_comm (flat_map pend a) (pend y ++ _)), (Permutation_app_comm (flat_map pend a) (pend x ++ _)).
  rewrite <- !app_assoc, !app_assoc. do 2 apply Permutation_app_tail. apply Permutation_app_comm.
Qed.
Lemma perm_ret : forall (E R F F' : list (rcall * option Z)) q, Permutation E (R ++ F) -> Permutation ([q] ++ F') F -> Permutation E ((R ++ [q]) ++ F').
Proof. intros E R F F' q H1 H2. rewrite H1, <- app_assoc. apply Permutation_app_head. symmetry. exact H2. Qed.
Lemma perm_eff : forall (E R F F' : list (rcall * option Z)) q, Permutation E (R ++ F) -> Permutation F' (q :: F) -> Permutation (E ++ [q]) (R ++ F').
Proof. intros E R F F' q H1 H2. rewrite H1, H2, <- app_assoc. apply Permutation_app_head. symmetry. apply Permutation_cons_append. Qed.

(** One step keeps the invariant; [hx] is what the step adds to the history *)
Definition adds (i : nat) (pc : rpc) (todo : list rcall) : list hevent :=
  match pc with
  | Idle => match todo with [] => [] | c :: _ => [HCall i c] end
  | Computed c v _ => [HEffect i c v]
  | Unlocked c v => [HRet i c v]
  | _ => []
  end.
Lemma of_adds_other : forall i j pc todo, i <> j -> of_thread j (adds i pc todo) = [].
Proof.
  intros i j pc todo N. assert (Ej : Nat.eqb j i = false) by (apply Nat.eqb_neq; lia).
  destruct pc; cbn; try reflexivity; [destruct todo; cbn; [reflexivity|]| |]; rewrite ?Ej; reflexivity.
Qed.
Lemma of_adds_same : forall i pc todo, of_thread i (adds i pc todo) = adds i pc todo.
Proof.
  intros i pc todo. destruct pc; cbn; try reflexivity; [destruct todo; cbn; [reflexivity|]| |]; rewrite ?Nat.eqb_refl; reflexivity.
Qed.

Lemma inv_step : forall g0 progs s h i s', inv g0 progs s h -> rstep s i = Some s' ->
  exists pc todo, nth_error (threads s) i = Some (pc, todo) /\ inv g0 progs s' (h ++ adds i pc todo).
Proof.
  intros g0 progs s h i s' I E. unfold GlobalRng.rstep in E. destruct (nth_error (threads s) i) as [[pc todo]|] eqn:Et; [|discriminate E].
  exists pc, todo. split; [reflexivity|]. destruct I as [Iv Is Ie Il It Io Iw Iwr Ic Ip In].
  assert (Hcnt := sum_put (threads s) i (pc, todo)). assert (Hpp := pend_put (threads s) i (pc, todo)).
  assert (Key : forall pc' todo' g o ev,
    s' = mkrs g o (put (threads s) i (pc', todo')) ev ->
    visible (h ++ adds i pc todo) = ev ->
    sequential g0 (effects (h ++ adds i pc todo)) ->
    after g0 (effects (h ++ adds i pc todo)) = g ->
    (forall d, nth i progs [] = map fst d ++ cur pc ++ todo -> exists d', whole i d ++ part i pc ++ adds i pc todo = whole i d' ++ part i pc' /\ nth i progs [] = map fst d' ++ cur pc' ++ todo') ->
    (critical pc' = true <-> o = Some i) ->
    (forall j, j <> i -> (owner s = Some j <-> o = Some j)) ->
    (forall c v g1, pc' = Computed c v g1 -> effect c g = (v, g1)) ->
    (g = eng_st s \/ owner s = Some i) ->
    Permutation (effects (h ++ adds i pc todo)) (rets ev ++ flat_map pend (put (threads s) i (pc', todo'))) ->
    length (effects (h ++ adds i pc todo)) + left (pc', todo') = length (effects h) + left (pc, todo) ->
    inv g0 progs s' (h ++ adds i pc todo)).
  { intros pc' todo' g o ev -> H1 H2 H3 H4 H5 H6 H7 H8 H9 H10. constructor; cbn [eng_st owner threads seen].
    - exact H1.
    - exact H2.
    - exact H3.
    - rewrite put_len. exact Il.
    - intros j pcj tj Ej. rewrite of_thread_app. destruct (Nat.eq_dec i j) as [<-|Nij].
      + rewrite (put_same _ _ _ _ _ Et) in Ej. injection Ej as <- <-. rewrite of_adds_same.
        destruct (It i pc todo Et) as (d & Hd & Hp). destruct (H4 d Hp) as (d' & Hd' & Hp'). exists d'. rewrite Hd, <- app_assoc. auto.
      + rewrite put_other in Ej by exact Nij. rewrite of_adds_other, app_nil_r by exact Nij. apply It with (1 := Ej).
    - intros j Ej. rewrite of_thread_app. destruct (Nat.eq_dec i j) as [<-|Nij].
      + rewrite (put_same _ _ _ _ _ Et) in Ej. discriminate Ej.
      + rewrite put_other in Ej by exact Nij. rewrite of_adds_other, app_nil_r by exact Nij. apply Io with (1 := Ej).
    - intros j pcj tj Ej. destruct (Nat.eq_dec i j) as [<-|Nij].
      + rewrite (put_same _ _ _ _ _ Et) in Ej. injection Ej as <- <-. exact H5.
      + rewrite put_other in Ej by exact Nij. rewrite (Iw j pcj tj Ej). apply H6. lia.
    - intros j Ej. destruct (Nat.eq_dec i j) as [<-|Nij].
      + rewrite (put_same _ _ _ _ _ Et). discriminate.
      + rewrite put_other by exact Nij. apply Iwr. apply H6; [lia|exact Ej].
    - intros j c v g1 tj Ej. destruct (Nat.eq_dec i j) as [<-|Nij].
      + rewrite (put_same _ _ _ _ _ Et) in Ej. injection Ej as E1 _. apply H7. exact E1.
      + rewrite put_other in Ej by exact Nij. destruct H8 as [->|Ho]; [eapply Ic; exact Ej|].
        exfalso. assert (Hj := proj1 (Iw _ _ _ Ej) eq_refl). rewrite Ho in Hj. injection Hj as ->. apply Nij. reflexivity.
    - exact H9.
    - specialize (Hcnt (pc', todo') Et). lia. }
  clear It Io Il. cbv zeta in E.
  assert (Own := Iw i pc todo Et).
  destruct pc as [|c|c|c v g'|c v|c v].
  - (* call *)
    destruct todo as [|c rest]; [discriminate E|]. injection E as <-. eapply Key; [reflexivity|..]; cbn [adds part cur] in *.
    + rewrite visible_app, Iv. reflexivity.
    + rewrite effects_app; cbn [effects flat_map app]; rewrite app_nil_r. exact Is.
    + rewrite effects_app; cbn [effects flat_map app]; rewrite app_nil_r. exact Ie.
    + intros d Hd. exists d. cbn. split; [reflexivity|exact Hd].
    + exact Own.
    + intros; reflexivity.
    + intros ? ? ? X; discriminate X.
    + left; reflexivity.
    + rewrite effects_app, rets_app. cbn [effects flat_map app rets]. rewrite !app_nil_r. rewrite Ip. apply Permutation_app_head. specialize (Hpp (AtLock c, rest) Et). symmetry. exact Hpp.
    + rewrite effects_app. cbn [effects flat_map app]. rewrite app_nil_r. unfold left. cbn. lia.
  - (* lock *)
    destruct (owner s) as [o|] eqn:Eo; [discriminate E|]. injection E as <-. eapply Key; [reflexivity|..]; cbn [adds part cur] in *; rewrite ?app_nil_r.
    + exact Iv.
    + exact Is.
    + exact Ie.
    + intros d Hd. exists d. split; [reflexivity|exact Hd].
    + cbn. split; reflexivity.
    + intros j Nj. split; [discriminate|]. intros X. injection X as X. exfalso. apply Nj. auto.
    + intros ? ? ? X; discriminate X.
    + left; reflexivity.
    + rewrite Ip. apply Permutation_app_head. specialize (Hpp (Held c, todo) Et). symmetry. exact Hpp.
    + unfold left. cbn. lia.
  - (* read *)
    destruct (effect c (eng_st s)) as [v g'] eqn:Ef. injection E as <-. eapply Key; [reflexivity|..]; cbn [adds part cur] in *; rewrite ?app_nil_r.
    + exact Iv.
    + exact Is.
    + exact Ie.
    + intros d Hd. exists d. split; [reflexivity|exact Hd].
    + exact Own.
    + intros; reflexivity.
    + intros ? ? ? X. injection X as <- <- <-. exact Ef.
    + left; reflexivity.
    + rewrite Ip. apply Permutation_app_head. specialize (Hpp (Computed c v g', todo) Et). symmetry. exact Hpp.
    + unfold left. cbn. lia.
  - (* write *)
    assert (Ef := Ic i c v g' todo Et). injection E as <-. eapply Key; [reflexivity|..]; cbn [adds part cur] in *.
    + rewrite visible_app, Iv. apply app_nil_r.
    + rewrite effects_app. apply seq_app; [exact Is|]. rewrite Ie. cbn. unfold GlobalRng.effect in Ef. destruct c as [|sd].
      * destruct (eng_next (eng_st s)) as [w g1]. injection Ef as <- _. auto.
      * injection Ef as <- _. auto.
    + rewrite effects_app, after_app, Ie. cbn. rewrite Ef. reflexivity.
    + intros d Hd. exists d. split; [reflexivity|exact Hd].
    + exact Own.
    + intros; reflexivity.
    + intros ? ? ? X; discriminate X.
    + right. apply Own. reflexivity.
    + rewrite effects_app. cbn [effects flat_map app]. eapply perm_eff; [exact Ip|]. specialize (Hpp (Written c v, todo) Et). exact Hpp.
    + rewrite effects_app, app_length. unfold left. cbn. lia.
  - (* unlock *)
    injection E as <-. eapply Key; [reflexivity|..]; cbn [adds part cur] in *; rewrite ?app_nil_r.
    + exact Iv.
    + exact Is.
    + exact Ie.
    + intros d Hd. exists d. split; [reflexivity|exact Hd].
    + cbn. split; discriminate.
    + intros j Nj. assert (Ho := proj1 Own eq_refl). split; [|discriminate]. rewrite Ho. intros X. injection X as X. exfalso. apply Nj. auto.
    + intros ? ? ? X; discriminate X.
    + left; reflexivity.
    + rewrite Ip. apply Permutation_app_head. specialize (Hpp (Unlocked c v, todo) Et). cbn in Hpp. apply Permutation_cons_inv in Hpp. symmetry. exact Hpp.
    + unfold left. cbn. lia.
  - (* return *)
    injection E as <-. eapply Key; [reflexivity|..]; cbn [adds part cur] in *.
    + rewrite visible_app, Iv. reflexivity.
    + rewrite effects_app; cbn [effects flat_map app]; rewrite app_nil_r. exact Is.
    + rewrite effects_app; cbn [effects flat_map app]; rewrite app_nil_r. exact Ie.
    + intros d Hd. exists (d ++ [(c, v)]). unfold whole. rewrite flat_map_app, map_app. cbn. rewrite !app_nil_r, <- !app_assoc. split; [reflexivity|exact Hd].
    + exact Own.
    + intros; reflexivity.
    + intros ? ? ? X; discriminate X.
    + left; reflexivity.
    + rewrite effects_app, rets_app. cbn [effects flat_map app rets]. rewrite app_nil_r. eapply perm_ret; [exact Ip|]. specialize (Hpp (Idle, todo) Et). exact Hpp.
    + rewrite effects_app. cbn [effects flat_map app]. rewrite app_nil_r. unfold left. cbn. lia.
Qed.

Lemma inv_run : forall g0 progs sched s h, inv g0 progs s h -> exists h', inv g0 progs (rrun s sched) h'.
Proof.
  intros g0 progs sched. induction sched as [|i t IH]; intros s h I; cbn; [eauto|].
  destruct (rstep s i) as [s'|] eqn:E; [|eauto]. destruct (inv_step _ _ _ _ _ _ I E) as (pc & todo & _ & I'). eauto.
Qed.
Lemma in_turn_of : forall i d pc todo, in_turn i (whole i d ++ part i pc) (map fst d ++ cur pc ++ todo).
Proof.
  intros i d pc todo. induction d as [|[c v] d IH]; cbn.
  - destruct pc; cbn; constructor.
  - constructor. exact IH.
Qed.

Lemma rng_linearizable : forall g0 progs sched, linearizable eng_next eng_seed g0 progs (seen (rrun (rstart g0 progs) sched)).
Proof.
  intros g0 progs sched. destruct (inv_run g0 progs sched _ _ (inv_start g0 progs)) as (h & [Iv Is Ie Il It Io _ _ _ _ _]).
  exists h. split; [exact Iv|]. split; [exact Is|]. intros i. destruct (nth_error (threads (rrun (rstart g0 progs) sched)) i) as [[pc todo]|] eqn:E.
  - destruct (It _ _ _ E) as (d & -> & ->). apply in_turn_of.
  - rewrite (Io _ E). constructor.
Qed.

Lemma seq_numbers : forall l g, sequential g l -> (forall q, In q l -> fst q = Next) -> map snd l = map Some (numbers eng_next g (length l)).
Proof.
  induction l as [|[c v] l IH]; intros g H A; cbn; [reflexivity|]. assert (c = Next) by (apply (A (c, v)); left; reflexivity). subst c.
  destruct H as [-> H]. f_equal. apply IH; [exact H|]. intros q Hq. apply A. right. exact Hq.
Qed.
Lemma done_pend : forall (l : list (rpc * list rcall)), (forall t, In t l -> t = (Idle, [])) -> flat_map pend l = [] /\ list_sum (map left l) = 0.
Proof.
  induction l as [|t l IH]; intros H; [auto|]. destruct IH as [I1 I2]; [intros u Hu; apply H; right; exact Hu|]. rewrite (H t) by (left; reflexivity).
  unfold list_sum in *. cbn. rewrite I1, I2. auto.
Qed.
Lemma rets_returned : forall ev, returned ev = flat_map (fun q => match snd q with Some v => [v] | None => [] end) (rets ev).
Proof. induction ev as [|[i c|i c [v|]] ev IH]; cbn; [reflexivity|exact IH|f_equal; exact IH|exact IH]. Qed.
Lemma of_all : forall h i c v, In (HEffect i c v) h -> In (HEffect i c v) (of_thread i h).
Proof. intros h i c v H. unfold of_thread. apply filter_In. split; [exact H|]. apply Nat.eqb_refl. Qed.
Lemma effect_in : forall h c v, In (c, v) (effects h) -> exists i, In (HEffect i c v) h.
Proof.
  intros h c v H. unfold effects in H. apply in_flat_map in H. destruct H as (e & He & Hq). destruct e as [i c'|i c' v'|i c' v']; cbn in Hq; try contradiction.
  destruct Hq as [Hq|[]]. injection Hq as -> ->. eauto.
Qed.
Lemma in_whole : forall i d pc c v, In (HEffect i c v) (whole i d ++ part i pc) -> In c (map fst d ++ cur pc).
Proof.
  intros i d pc c v H. apply in_app_iff in H. apply in_app_iff. destruct H as [H|H].
  - left. unfold whole in H. apply in_flat_map in H. destruct H as ([c' v'] & Hq & H). cbn in H. destruct H as [H|[H|[H|[]]]]; try discriminate H.
    injection H as -> ->. apply (in_map fst _ _ Hq).
  - right. destruct pc; cbn in H; repeat (try contradiction; destruct H as [H|H]; [try discriminate H; injection H as -> ->; left; reflexivity|]); contradiction.
Qed.
Lemma inv_next : forall g0 progs s h, inv g0 progs s h -> (forall p c, In p progs -> In c p -> c = Next) -> forall q, In q (effects h) -> fst q = Next.
Proof.
  intros g0 progs s h I A [c v] Hq. destruct (effect_in _ _ _ Hq) as [i Hi]. apply of_all in Hi. cbn.
  destruct (nth_error (threads s) i) as [[pc todo]|] eqn:E.
  - destruct (i_thr _ _ _ _ I _ _ _ E) as (d & Hd & Hp). rewrite Hd in Hi. apply in_whole in Hi.
    assert (Hc : In c (nth i progs [])) by (rewrite Hp, app_assoc; apply in_app_iff; left; exact Hi).
    destruct (nth_in_or_default i progs []) as [Hin|Hdef]; [eapply A; eauto|]. rewrite Hdef in Hc. destruct Hc.
  - rewrite (i_out _ _ _ _ I _ E) in Hi. destruct Hi.
Qed.

Lemma rng_shared : forall g0 progs sched, (forall p c, In p progs -> In c p -> c = Next) ->
  all_done (rrun (rstart g0 progs) sched) ->
  Permutation (returned (seen (rrun (rstart g0 progs) sched))) (numbers eng_next g0 (count_calls progs)).
Proof.
  intros g0 progs sched A D. destruct (inv_run g0 progs sched _ _ (inv_start g0 progs)) as (h & I).
  destruct (done_pend _ D) as [Dp Dl]. assert (P := i_prm _ _ _ _ I). assert (C := i_cnt _ _ _ _ I). rewrite Dp, app_nil_r in P. rewrite Dl in C.
  assert (N := seq_numbers _ _ (i_seq _ _ _ _ I) (inv_next _ _ _ _ I A)). rewrite rets_returned. rewrite <- (Permutation_flat_map _ P).
  replace (count_calls progs) with (length (effects h)) by lia.
  assert (X : flat_map (fun q : rcall * option Z => match snd q with Some v => [v] | None => [] end) (effects h) = numbers eng_next g0 (length (effects h))).
  { clear - N. set (n := numbers eng_next g0 (length (effects h))) in *. clearbody n. revert n N. induction (effects h) as [|[c v] l IH]; intros [|x n] N; try discriminate N; cbn; [reflexivity|].
    cbn in N. injection N as -> N. cbn. f_equal. apply IH. exact N. }
  rewrite X. reflexivity.
Qed.

(** A single thread *)
Fixpoint alone (g : G) (p : list rcall) : list revent :=
  match p with [] => [] | c :: t => let (v, g') := effect c g in RCall 0 c :: RRet 0 c v :: alone g' t end.
Lemma only_zero : forall h, (forall i, i <> 0 -> of_thread i h = []) -> of_thread 0 h = h.
Proof.
  induction h as [|e h IH]; intros A; [reflexivity|]. unfold of_thread in *. cbn [filter] in *.
  assert (A' : forall i, i <> 0 -> filter (fun e : hevent => match e with HCall j _ | HEffect j _ _ | HRet j _ _ => Nat.eqb i j end) h = []).
  { intros i Ni. specialize (A i Ni). destruct (match e with HCall j _ | HEffect j _ _ | HRet j _ _ => Nat.eqb i j end); [discriminate A|exact A]. }
  set (k := match e with HCall j _ | HEffect j _ _ | HRet j _ _ => j end). assert (Hk : forall i, match e with HCall j _ | HEffect j _ _ | HRet j _ _ => Nat.eqb i j end = Nat.eqb i k) by (intros; unfold k; destruct e; reflexivity).
  destruct (Nat.eq_dec k 0) as [K|K].
  - rewrite Hk, K. cbn. f_equal. apply IH. exact A'.
  - specialize (A k K). rewrite Hk, Nat.eqb_refl in A. discriminate A.
Qed.
Lemma alone_whole : forall d g, sequential g d -> visible (whole 0 d) = alone g (map fst d).
Proof.
  induction d as [|[c v] d IH]; intros g H; [reflexivity|]. cbn [map fst alone]. unfold whole. cbn [flat_map]. rewrite visible_app. cbn.
  destruct c as [|s]; destruct H as [-> H]; unfold GlobalRng.effect; cbn.
  - destruct (eng_next g) as [w g']. cbn in *. do 2 f_equal. apply IH. exact H.
  - do 2 f_equal. apply IH. exact H.
Qed.
Lemma effects_whole : forall i d, effects (whole i d) = d.
Proof. intros i d. induction d as [|[c v] d IH]; cbn; [reflexivity|]. f_equal. exact IH. Qed.
Lemma rng_alone : forall g0 p sched, all_done (rrun (rstart g0 [p]) sched) -> seen (rrun (rstart g0 [p]) sched) = alone g0 p.
Proof.
  intros g0 p sched D. destruct (inv_run g0 [p] sched _ _ (inv_start g0 [p])) as (h & I). set (s := rrun (rstart g0 [p]) sched) in *. clearbody s.
  assert (L := i_len _ _ _ _ I). destruct (threads s) as [|t [|? ?]] eqn:Et; try discriminate L. assert (Dt : t = (Idle, [])) by (apply D; rewrite Et; left; reflexivity). subst t.
  destruct (i_thr _ _ _ _ I 0 Idle []) as (d & Hd & Hp); [rewrite Et; reflexivity|]. cbn in Hd, Hp. rewrite !app_nil_r in *.
  rewrite only_zero in Hd.
  - subst h. rewrite <- (i_vis _ _ _ _ I), Hp. apply alone_whole. assert (X := i_seq _ _ _ _ I). rewrite effects_whole in X. exact X.
  - intros i Ni. apply (i_out _ _ _ _ I). rewrite Et. destruct i as [|[|i]]; [contradiction|reflexivity|reflexivity].
Qed.
Lemma returned_app : forall a b, returned (a ++ b) = returned a ++ returned b.
Proof. intros. unfold returned. apply flat_map_app. Qed.
Lemma alone_seeded : forall pre g s n, exists l, returned (alone g (pre ++ SetSeed s :: repeat Next n)) = l ++ numbers eng_next (eng_seed s) n /\ length l = length (filter (fun c => match c with Next => true | _ => false end) pre).
Proof.
  induction pre as [|c pre IH]; intros g s n.
  - exists []. cbn. split; [|reflexivity]. generalize (eng_seed s). induction n as [|n IHn]; intros g1; cbn; [reflexivity|].
    destruct (eng_next g1) as [v g2]. cbn. f_equal. apply IHn.
  - cbn [app alone filter]. destruct (effect c g) as [v g'] eqn:Ef. destruct (IH g' s n) as (l & Hl & Hn). destruct c as [|sd]; cbn in Ef.
    + destruct (eng_next g) as [w g2]. injection Ef as <- <-. eexists (_ :: l). cbn. split; [f_equal; exact Hl|f_equal; exact Hn].
    + injection Ef as <- <-. exists l. cbn. auto.
Qed.
Lemma rng_seeded : forall g0 pre s n sched, all_done (rrun (rstart g0 [pre ++ SetSeed s :: repeat Next n]) sched) ->
  exists l, returned (seen (rrun (rstart g0 [pre ++ SetSeed s :: repeat Next n]) sched)) = l ++ numbers eng_next (eng_seed s) n /\ length l = length (filter (fun c => match c with Next => true | _ => false end) pre).
Proof. intros g0 pre s n sched D. rewrite rng_alone by exact D. apply alone_seeded. Qed.

(** No deadlock *)
Lemma not_done : forall (l : list (rpc * list rcall)), (forall t, In t l -> t = (Idle, [])) \/ (exists i t, nth_error l i = Some t /\ t <> (Idle, [])).
Proof.
  induction l as [|[pc todo] l IH]; [left; intros t []|].
  assert (X : (pc, todo) = (Idle, []) \/ (pc, todo) <> (Idle, [])) by (destruct pc; [destruct todo; [left; reflexivity|]| | | | |]; right; discriminate).
  destruct X as [X|X].
  - destruct IH as [IH|(i & t & Hi & Ht)]; [left; intros t [<-|H]; auto|]. right. exists (S i), t. auto.
  - right. exists 0, (pc, todo). auto.
Qed.
Lemma rng_progress : forall g0 progs sched, all_done (rrun (rstart g0 progs) sched) \/ exists i s', rstep (rrun (rstart g0 progs) sched) i = Some s'.
Proof.
  intros g0 progs sched. destruct (inv_run g0 progs sched _ _ (inv_start g0 progs)) as (h & I). set (s := rrun (rstart g0 progs) sched) in *. clearbody s.
  destruct (not_done (threads s)) as [D|(i & [pc todo] & Hi & Ht)]; [left; exact D|]. right.
  destruct (owner s) as [o|] eqn:Eo.
  - exists o. unfold GlobalRng.rstep. assert (Hn := i_ownr _ _ _ _ I _ Eo). destruct (nth_error (threads s) o) as [[pco todoo]|] eqn:Et; [|contradiction].
    assert (Hc := proj2 (i_own _ _ _ _ I _ _ _ Et) Eo). destruct pco; try discriminate Hc; [destruct (effect c (eng_st s))| |]; eauto.
  - exists i. unfold GlobalRng.rstep. rewrite Hi, Eo. destruct pc; try (eexists; reflexivity).
    + destruct todo; [contradiction|eauto].
    + destruct (effect c (eng_st s)); eauto.
Qed.
Definition rank (t : rpc * list rcall) : nat := 6 * length (snd t) + match fst t with Idle => 0 | AtLock _ => 5 | Held _ => 4 | Computed _ _ _ => 3 | Written _ _ => 2 | Unlocked _ _ => 1 end.
Lemma rank_step : forall s i s', rstep s i = Some s' -> list_sum (map rank (threads s)) = S (list_sum (map rank (threads s'))).
Proof.
  intros s i s' E. unfold GlobalRng.rstep in E. destruct (nth_error (threads s) i) as [[pc todo]|] eqn:Et; [|discriminate E].
  assert (K : forall y, list_sum (map rank (put (threads s) i y)) + rank (pc, todo) = list_sum (map rank (threads s)) + rank y).
  { intros y. destruct (put_split _ _ i _ y Et) as (a & b & -> & -> & _). rewrite !map_app, !list_sum_app. cbn. lia. }
  cbv zeta in E. destruct pc as [|c|c|c v g'|c v|c v].
  - destruct todo as [|c rest]; [discriminate E|]. injection E as <-. cbn [threads]. specialize (K (AtLock c, rest)). unfold rank in K at 2 4. cbn [fst snd length] in K. lia.
  - destruct (owner s); [discriminate E|]. injection E as <-. cbn [threads]. specialize (K (Held c, todo)). unfold rank in K at 2 4. cbn [fst snd length] in K. lia.
  - destruct (effect c (eng_st s)) as [v g']. injection E as <-. cbn [threads]. specialize (K (Computed c v g', todo)). unfold rank in K at 2 4. cbn [fst snd length] in K. lia.
  - injection E as <-. cbn [threads]. specialize (K (Written c v, todo)). unfold rank in K at 2 4. cbn [fst snd length] in K. lia.
  - injection E as <-. cbn [threads]. specialize (K (Unlocked c v, todo)). unfold rank in K at 2 4. cbn [fst snd length] in K. lia.
  - injection E as <-. cbn [threads]. specialize (K (Idle, todo)). unfold rank in K at 2 4. cbn [fst snd length] in K. lia.
Qed.
Notation effective := (effective eng_next eng_seed).
Lemma effective_rank : forall sched s, effective s sched -> list_sum (map rank (threads s)) = length sched + list_sum (map rank (threads (rrun s sched))).
Proof.
  induction sched as [|i t IH]; intros s H; cbn; [reflexivity|]. destruct H as (s' & E & H). rewrite E, (rank_step _ _ _ E), (IH _ H). lia.
Qed.
Lemma rank_zero : forall s, all_done s -> list_sum (map rank (threads s)) = 0.
Proof. intros s. unfold all_done. induction (threads s) as [|t l IH]; intros D; [reflexivity|]. rewrite (D t) by (left; reflexivity). unfold list_sum in *. cbn. apply IH. intros u Hu. apply D. right. exact Hu. Qed.
Lemma rank_start : forall g0 progs, list_sum (map rank (threads (rstart g0 progs))) = 6 * count_calls progs.
Proof.
  intros g0 progs. unfold rstart, count_calls. cbn [threads]. induction progs as [|p t IH]; [reflexivity|]. unfold list_sum in *. cbn [map concat fold_right].
  rewrite IH, app_length. unfold rank. cbn [fst snd]. lia.
Qed.
Lemma rng_steps : forall g0 progs sched, effective (rstart g0 progs) sched -> length sched <= 6 * count_calls progs.
Proof. intros g0 progs sched H. apply effective_rank in H. rewrite rank_start in H. lia. Qed.
Lemma rng_ends : forall g0 progs sched, effective (rstart g0 progs) sched -> length sched = 6 * count_calls progs <-> all_done (rrun (rstart g0 progs) sched).
Proof.
  intros g0 progs sched H. assert (K := effective_rank _ _ H). rewrite rank_start in K. split; intros E.
  - assert (Z : list_sum (map rank (threads (rrun (rstart g0 progs) sched))) = 0) by lia. unfold all_done. revert Z. generalize (threads (rrun (rstart g0 progs) sched)) as l.
    clear. intros l Z. destruct (not_done l) as [D|(i & [pc todo] & Hi & Ht)]; [exact D|]. exfalso.
    assert (0 < rank (pc, todo)) by (unfold rank; destruct pc; cbn; [destruct todo; [contradiction|]| | | | |]; cbn; lia).
    destruct (put_split _ l i _ (Idle, []) Hi) as (a & b & -> & _). rewrite map_app, list_sum_app in Z. unfold list_sum in Z. cbn [map fold_right] in Z. lia.
  - rewrite (rank_zero _ E) in K. lia.
Qed.
End S.
