(** Facts on the numerical derivatives. *)
From Coq Require Import List Bool Arith ZArith QArith Qfield Lia Permutation Sorting.Sorted.
From Verif Require Import Dbl IntDbl Outcome StdSort BaseFacts Problem SpecProblem ProblemFacts HvFacts6 Gradients SpecGradients.
Import ListNotations.
Local Open Scope nat_scope.

Lemma moved_upd {A} (x : list A) j v : j < length x -> moved x j v (upd x j v).
Proof. intros H. split; [apply upd_length|]. split; [exact H|]. split; [now apply nth_error_upd_eq|]. intros k N. apply nth_error_upd_neq. congruence. Qed.
Lemma moved_unique {A} (x : list A) j v y : moved x j v y -> y = upd x j v.
Proof.
  intros (L & H & E & N). apply nth_error_ext. intros k. destruct (Nat.eq_dec k j) as [->|D]; [now rewrite E, nth_error_upd_eq|]. rewrite N by exact D. rewrite nth_error_upd_neq by congruence. reflexivity.
Qed.
Lemma upd_back {A} (x : list A) j v a : nth_error x j = Some a -> upd (upd x j v) j a = x.
Proof.
  intros E. assert (H : j < length x) by (apply nth_error_Some; congruence). apply nth_error_ext. intros k. destruct (Nat.eq_dec k j) as [->|D].
  - rewrite nth_error_upd_eq by (rewrite upd_length; exact H). congruence.
  - rewrite !nth_error_upd_neq by congruence. reflexivity.
Qed.
Lemma vget_some {A} (l : list A) i a : nth_error l i = Some a -> vget l i = Ok a.
Proof. intros E. unfold vget. now rewrite E. Qed.
Lemma vset_ok {A} (l : list A) i a : i < length l -> vset l i a = Ok (upd l i a).
Proof. intros H. unfold vset. destruct (Nat.ltb_spec i (length l)); [reflexivity|lia]. Qed.
Lemma mfold_app {S A} (g : S -> A -> outcome S) l1 : forall s l2, mfold g s (l1 ++ l2) = bind (mfold g s l1) (fun s' => mfold g s' l2).
Proof. induction l1 as [|a l1 IH]; intros s l2; cbn [app mfold]; [reflexivity|]. destruct (g s a); cbn [bind]; auto. Qed.
Lemma mmap_F2 {A B} (g : A -> outcome B) l : forall r, mmap g l = Ok r <-> Forall2 (fun a b => g a = Ok b) l r.
Proof.
  induction l as [|a l IH]; intros r; cbn [mmap].
  - split; intros H; [injection H as <-; constructor|inversion H; reflexivity].
  - split.
    + intros H. apply bind_ok in H. destruct H as (b & E & H). apply bind_ok in H. destruct H as (bs & E' & H). injection H as <-. constructor; [exact E|]. apply IH. exact E'.
    + intros H. inversion H as [|? b ? bs E H']; subst. rewrite E. cbn [bind]. rewrite (proj2 (IH bs) H'). reflexivity.
Qed.

Section G.
Context {A : Type} (o : ops A) (f : list A -> outcome (list A)) (x : list A) (dx : A).
Local Notation h := (step_size o dx).

Section Grad.
Context (probes : list (A -> A -> A)) (formula : A -> list A -> A).
Local Notation m := (length probes).
Definition points (j : nat) (xj : A) : list (list A) := map (fun pr => upd x j (pr xj (h xj))) probes.

Lemma set_all_repeat j : forall (vs : list A), j < length x -> set_all (repeat x (length vs)) j vs = Ok (map (upd x j) vs).
Proof. induction vs as [|v vs IH]; intros H; [reflexivity|]. cbn [length repeat set_all map]. rewrite (vset_ok x j v H). cbn [bind]. rewrite IH by exact H. reflexivity. Qed.
Lemma set_all_back j a : nth_error x j = Some a -> forall vs : list A, set_all (map (upd x j) vs) j (repeat a (length vs)) = Ok (repeat x (length vs)).
Proof.
  intros E vs. assert (H : j < length x) by (apply nth_error_Some; congruence). induction vs as [|v vs IH]; [reflexivity|]. cbn [length repeat set_all map].
  rewrite vset_ok by (rewrite upd_length; exact H). cbn [bind]. rewrite IH. cbn [bind]. now rewrite upd_back.
Qed.
(** the inner loop *)
Lemma mmap_vget (fs : list (list A)) nf i : Forall (fun v => length v = nf) fs -> i < nf -> exists vs, mmap (fun v => vget v i) fs = Ok vs /\ Forall2 (fun w v => nth_error w i = Some v) fs vs.
Proof.
  intros F Hi. induction F as [|w fs Lw F (vs & E & IH)]; [exists []; split; [reflexivity|constructor]|].
  destruct (nth_error w i) as [v|] eqn:Ew; [|apply nth_error_None in Ew; lia]. exists (v :: vs). split; [|constructor; auto]. cbn [mmap]. rewrite (vget_some _ _ _ Ew). cbn [bind]. rewrite E. reflexivity.
Qed.
Lemma idx_lt n j i nf : j < n -> i < nf -> j + i * n < nf * n.
Proof. intros. nia. Qed.
Lemma idx_inj n j i j' i' : j < n -> j' < n -> j + i * n = j' + i' * n -> j = j' /\ i = i'.
Proof.
  intros H1 H2 E. assert (i = i') by (destruct (lt_eq_lt_dec i i') as [[L|L]|L]; [nia|exact L|nia]). subst. lia.
Qed.
Lemma inner_loop n j hh (fs : list (list A)) nf : Forall (fun v => length v = nf) fs -> j < n -> forall k g, k <= nf -> length g = nf * n ->
  exists g', mfold (fun g i => bind (mmap (fun v => vget v i) fs) (fun vs => vset g (j + i * n) (formula hh vs))) g (seq 0 k) = Ok g' /\ length g' = length g /\
    (forall i, i < k -> exists vs, Forall2 (fun w v => nth_error w i = Some v) fs vs /\ nth_error g' (j + i * n) = Some (formula hh vs)) /\
    (forall q, (forall i, i < k -> q <> j + i * n) -> nth_error g' q = nth_error g q).
Proof.
  intros F Hj. induction k as [|k IH]; intros g Hk Lg.
  - exists g. split; [reflexivity|]. split; [reflexivity|]. split; [intros i Hi; lia|auto].
  - destruct (IH g) as (g' & E & L & H1 & H2); [lia|exact Lg|]. destruct (mmap_vget fs nf k F) as (vs & Ev & Fv); [lia|].
    pose proof (idx_lt n j k nf Hj ltac:(lia)) as Hlt. exists (upd g' (j + k * n) (formula hh vs)). rewrite seq_S, mfold_app, E. cbn [bind mfold Nat.add]. rewrite Ev. cbn [bind]. rewrite vset_ok by lia. cbn [bind].
    split; [reflexivity|]. split; [rewrite upd_length; exact L|]. split.
    + intros i Hi. destruct (Nat.eq_dec i k) as [->|D]; [exists vs; split; [exact Fv|apply nth_error_upd_eq; lia]|]. destruct (H1 i ltac:(lia)) as (vs' & F' & E'). exists vs'. split; [exact F'|].
      rewrite nth_error_upd_neq; [exact E'|]. intros C. destruct (idx_inj n j k j i Hj Hj C) as [_ C']. congruence.
    + intros q Hq. rewrite nth_error_upd_neq by (intros C; apply (Hq k); [lia|congruence]). apply H2. intros i Hi. apply Hq. lia.
Qed.
Definition entry (nf : nat) (g : list A) (j : nat) : Prop :=
  forall i xj, i < nf -> nth_error x j = Some xj -> exists ws vs, Forall2 (fun y w => f y = Ok w /\ length w = nf) (points j xj) ws /\
    Forall2 (fun w v => nth_error w i = Some v) ws vs /\ nth_error g (j + i * length x) = Some (formula (h xj) vs).
Definition bad_size (nf : nat) (fs : list (list A)) : bool := existsb (fun v => negb (Nat.eqb (length v) nf)) fs.
Lemma bad_size_false nf fs : bad_size nf fs = false <-> Forall (fun v => length v = nf) fs.
Proof.
  unfold bad_size. split.
  - intros H. apply Forall_forall. intros v Hv. destruct (Nat.eqb_spec (length v) nf) as [E|E]; [exact E|]. exfalso. rewrite (proj2 (existsb_exists _ fs)) in H; [discriminate|]. exists v. split; [exact Hv|]. destruct (Nat.eqb_spec (length v) nf); [congruence|reflexivity].
  - intros F. induction F as [|v fs E F IH]; [reflexivity|]. cbn [existsb]. rewrite E, Nat.eqb_refl, IH. reflexivity.
Qed.
Lemma step_eq nf g j xj : nth_error x j = Some xj -> length g = nf * length x ->
  exists fill, gradient_step o f x dx probes formula nf (g, repeat x m) j =
    bind (mmap f (points j xj)) (fun fs => if bad_size nf fs then Throw InvalidArgument else Ok (fill fs, repeat x m)) /\
    forall fs, mmap f (points j xj) = Ok fs -> bad_size nf fs = false -> length (fill fs) = nf * length x /\ entry nf (fill fs) j /\
      (forall j', j' < j -> entry nf g j' -> entry nf (fill fs) j').
Proof.
  intros E Lg. assert (Hj : j < length x) by (apply nth_error_Some; congruence).
  exists (fun fs => match mfold (fun g i => bind (mmap (fun v => vget v i) fs) (fun vs => vset g (j + i * length x) (formula (h xj) vs))) g (seq 0 nf) with Ok g' => g' | _ => g end).
  split.
  - unfold gradient_step. rewrite (vget_some _ _ _ E). cbn [bind]. rewrite <- (map_length (fun pr => pr xj (h xj)) probes) at 1. rewrite set_all_repeat by exact Hj. cbn [bind]. rewrite map_map. fold (points j xj).
    destruct (mmap f (points j xj)) as [fs| | |]; try reflexivity. cbn [bind]. fold (bad_size nf fs). destruct (bad_size nf fs) eqn:B; [reflexivity|]. apply bad_size_false in B.
    destruct (inner_loop (length x) j (h xj) fs nf B Hj nf g (le_n _) Lg) as (g' & Eg & _). rewrite Eg. cbn [bind].
    unfold points. rewrite <- (map_map (fun pr => pr xj (h xj)) (upd x j)). rewrite <- (map_length (fun pr => pr xj (h xj)) probes) at 1. rewrite (set_all_back j xj E). cbn [bind]. rewrite map_length. reflexivity.
  - intros fs EF B. apply bad_size_false in B. destruct (inner_loop (length x) j (h xj) fs nf B Hj nf g (le_n _) Lg) as (g' & Eg & L & H1 & H2). rewrite Eg. split; [lia|]. split.
    + intros i xj' Hi E'. assert (xj' = xj) by congruence. subst xj'. destruct (H1 i Hi) as (vs & Fv & N). exists fs, vs. split; [|auto].
      apply mmap_F2 in EF. clear - EF B. induction EF as [|y w ys ws E EF IH]; constructor; inversion B; subst; auto.
    + intros j' Hj' En i xj' Hi E'. destruct (En i xj' Hi E') as (ws & vs & K1 & K2 & K3). exists ws, vs. split; [exact K1|]. split; [exact K2|]. rewrite H2; [exact K3|].
      intros i' Hi' C. assert (Hjx : j' < length x) by lia. destruct (idx_inj (length x) j' i j i' Hjx Hj C). lia.
Qed.
Lemma loop_ok nf g0 : length g0 = nf * length x -> forall k, k <= length x ->
  (forall g xs, mfold (gradient_step o f x dx probes formula nf) (g0, repeat x m) (seq 0 k) = Ok (g, xs) ->
     xs = repeat x m /\ length g = nf * length x /\ forall j, j < k -> entry nf g j) /\
  ((forall j xj y, j < k -> nth_error x j = Some xj -> In y (points j xj) -> exists w, f y = Ok w /\ length w = nf) ->
     is_ok (mfold (gradient_step o f x dx probes formula nf) (g0, repeat x m) (seq 0 k)) = true) /\
  ((forall j xj y, j < k -> nth_error x j = Some xj -> In y (points j xj) -> exists w, f y = Ok w) ->
   (exists j xj y w, j < k /\ nth_error x j = Some xj /\ In y (points j xj) /\ f y = Ok w /\ length w <> nf) ->
     mfold (gradient_step o f x dx probes formula nf) (g0, repeat x m) (seq 0 k) = Throw InvalidArgument).
Proof.
  intros L0. induction k as [|k IH]; intros Hk.
  - split; [|split].
    + intros g xs H. injection H as <- <-. split; [reflexivity|]. split; [exact L0|]. intros; lia.
    + reflexivity.
    + intros _ (j & xj & y & w & Hj & _). lia.
  - destruct (IH ltac:(lia)) as (I1 & I2 & I3). rewrite seq_S, mfold_app. cbn [Nat.add].
    destruct (nth_error x k) as [xk|] eqn:Ek; [|apply nth_error_None in Ek; lia].
    assert (STEP : forall g xs, mfold (gradient_step o f x dx probes formula nf) (g0, repeat x m) (seq 0 k) = Ok (g, xs) -> xs = repeat x m /\ (forall j, j < k -> entry nf g j) /\
      exists fill, gradient_step o f x dx probes formula nf (g, xs) k = bind (mmap f (points k xk)) (fun fs => if bad_size nf fs then Throw InvalidArgument else Ok (fill fs, repeat x m)) /\
       forall fs, mmap f (points k xk) = Ok fs -> bad_size nf fs = false -> length (fill fs) = nf * length x /\ entry nf (fill fs) k /\ (forall j', j' < k -> entry nf g j' -> entry nf (fill fs) j')).
    { intros g xs E. destruct (I1 g xs E) as (-> & Lg & En). split; [reflexivity|]. split; [exact En|]. apply step_eq; assumption. }
    split; [|split].
    + intros g xs H. apply bind_ok in H. destruct H as ([g1 xs1] & E1 & H). cbn [mfold] in H. destruct (STEP g1 xs1 E1) as (-> & En & fill & ES & HS). rewrite ES in H.
      apply bind_ok in H. destruct H as ([g2 xs2] & H & H'). injection H' as -> ->. apply bind_ok in H. destruct H as (fs & EF & H). destruct (bad_size nf fs) eqn:B; [discriminate|]. injection H as <- <-.
      destruct (HS fs EF B) as (K1 & K2 & K3). split; [reflexivity|]. split; [exact K1|]. intros j Hj. destruct (Nat.eq_dec j k) as [->|D]; [exact K2|]. apply K3; [lia|]. apply En. lia.
    + intros H. assert (I := I2 (fun j xj y Hj => H j xj y ltac:(lia))). destruct (mfold _ (g0, repeat x m) (seq 0 k)) as [[g1 xs1]| | |] eqn:E1; try discriminate. cbn [bind mfold].
      destruct (STEP g1 xs1 eq_refl) as (-> & En & fill & ES & HS). rewrite ES.
      assert (X : exists fs, mmap f (points k xk) = Ok fs /\ Forall (fun v => length v = nf) fs).
      { assert (HP : forall y, In y (points k xk) -> exists w, f y = Ok w /\ length w = nf) by (intros y Hy; exact (H k xk y ltac:(lia) Ek Hy)). clear - HP. induction (points k xk) as [|y l IHl]; [exists []; split; [reflexivity|constructor]|].
        destruct (HP y (or_introl eq_refl)) as (w & E & L). destruct IHl as (ws & E' & F); [intros; apply HP; right; assumption|]. exists (w :: ws). cbn [mmap]. rewrite E. cbn [bind]. rewrite E'. split; [reflexivity|constructor; assumption]. }
      destruct X as (fs & EF & F). rewrite EF. cbn [bind]. rewrite (proj2 (bad_size_false nf fs) F). reflexivity.
    + intros H (j & xj & y & w & Hj & Ej & Hy & Ey & Lw).
      assert (X : exists fs, mmap f (points k xk) = Ok fs /\ forall y, In y (points k xk) -> exists w, In w fs /\ f y = Ok w).
      { assert (HP : forall y, In y (points k xk) -> exists w, f y = Ok w) by (intros y' Hy'; exact (H k xk y' ltac:(lia) Ek Hy')). clear - HP. induction (points k xk) as [|y l IHl]; [exists []; split; [reflexivity|intros y []]|].
        destruct (HP y (or_introl eq_refl)) as (w & E). destruct IHl as (ws & E' & F); [intros; apply HP; right; assumption|]. exists (w :: ws). cbn [mmap]. rewrite E. cbn [bind]. rewrite E'. split; [reflexivity|].
        intros z [<-|Hz]; [exists w; split; [left; reflexivity|exact E]|]. destruct (F z Hz) as (v & I & Ev). exists v. split; [right; exact I|exact Ev]. }
      destruct X as (fs & EF & F).
      destruct (existsb (fun j0 => match nth_error x j0 with Some xj0 => existsb (fun y0 => match f y0 with Ok w0 => negb (Nat.eqb (length w0) nf) | _ => false end) (points j0 xj0) | None => false end) (seq 0 k)) eqn:EX.
      * apply existsb_exists in EX. destruct EX as (j0 & Hj0 & EX). apply in_seq in Hj0. destruct (nth_error x j0) as [xj0|] eqn:E0; [|discriminate]. apply existsb_exists in EX. destruct EX as (y0 & Hy0 & EX). destruct (f y0) as [w0| | |] eqn:Ef0; try discriminate.
        rewrite I3; [reflexivity|intros j' xj' y' Hj'; apply H; lia|]. exists j0, xj0, y0, w0. split; [lia|]. split; [exact E0|]. split; [exact Hy0|]. split; [exact Ef0|]. intros C. rewrite C, Nat.eqb_refl in EX. discriminate.
      * assert (GOOD : forall j0 xj0 y0, j0 < k -> nth_error x j0 = Some xj0 -> In y0 (points j0 xj0) -> exists w, f y0 = Ok w /\ length w = nf).
        { intros j0 xj0 y0 Hj0 E0 Hy0. destruct (H j0 xj0 y0 ltac:(lia) E0 Hy0) as (w0 & Ef0). exists w0. split; [exact Ef0|].
          destruct (Nat.eqb_spec (length w0) nf) as [C|C]; [exact C|]. exfalso. rewrite (proj2 (existsb_exists _ _)) in EX; [discriminate|]. exists j0. split; [apply in_seq; lia|]. rewrite E0. apply existsb_exists. exists y0. split; [exact Hy0|]. rewrite Ef0. destruct (Nat.eqb_spec (length w0) nf); [congruence|reflexivity]. }
        assert (I := I2 GOOD). destruct (mfold _ (g0, repeat x m) (seq 0 k)) as [[g1 xs1]| | |] eqn:E1; try discriminate. cbn [bind mfold]. destruct (STEP g1 xs1 eq_refl) as (-> & En & fill & ES & HS). rewrite ES, EF. cbn [bind].
        destruct (Nat.eq_dec j k) as [->|D].
        -- assert (xj = xk) by congruence. subst xj. destruct (F y Hy) as (w' & Iw & Ew). assert (w' = w) by congruence. subst w'. destruct (bad_size nf fs) eqn:B; [reflexivity|]. apply bad_size_false in B. rewrite Forall_forall in B. elim Lw. apply B. exact Iw.
        -- destruct (GOOD j xj y ltac:(lia) Ej Hy) as (w' & E' & L'). congruence.
Qed.
Lemma with_entries G : estimate_with o f x dx probes formula = Ok G -> exists f0, f x = Ok f0 /\ length G = length f0 * length x /\ forall j, j < length x -> entry (length f0) G j.
Proof.
  intros H. unfold estimate_with in H. apply bind_ok in H. destruct H as (f0 & E & H). apply bind_ok in H. destruct H as ([g xs] & H & H'). injection H' as <-.
  destruct (loop_ok (length f0) _ (repeat_length (o_num o 0) _) (length x) (le_n _)) as (K & _). destruct (K g xs H) as (_ & L & En). exists f0. auto.
Qed.
Lemma with_succeeds f0 : f x = Ok f0 -> (forall j xj y, nth_error x j = Some xj -> In y (points j xj) -> exists w, f y = Ok w /\ length w = length f0) -> exists G, estimate_with o f x dx probes formula = Ok G.
Proof.
  intros E H. unfold estimate_with. rewrite E. cbn [bind]. destruct (loop_ok (length f0) _ (repeat_length (o_num o 0) _) (length x) (le_n _)) as (_ & K & _).
  assert (I := K (fun j xj y _ => H j xj y)). destruct (mfold _ _ _) as [s| | |]; try discriminate. exists (fst s). reflexivity.
Qed.
Lemma with_throws f0 : f x = Ok f0 -> (forall j xj y, nth_error x j = Some xj -> In y (points j xj) -> exists w, f y = Ok w) ->
  (exists j xj y w, nth_error x j = Some xj /\ In y (points j xj) /\ f y = Ok w /\ length w <> length f0) -> estimate_with o f x dx probes formula = Throw InvalidArgument.
Proof.
  intros E H (j & xj & y & w & Ej & Hy & Ey & L). unfold estimate_with. rewrite E. cbn [bind]. destruct (loop_ok (length f0) _ (repeat_length (o_num o 0) _) (length x) (le_n _)) as (_ & _ & K).
  rewrite K; [reflexivity|intros j' xj' y' _; apply H|]. exists j, xj, y, w. split; [apply nth_error_Some; congruence|]. auto.
Qed.
End Grad.

(** ** Sparsity *)
Lemma changed_spec j : forall fn f0 i a, In a (changed o i j fn f0) <-> snd a = j /\ exists u v, i <= fst a /\ nth_error fn (fst a - i) = Some u /\ nth_error f0 (fst a - i) = Some v /\ o_neq o u v = true.
Proof.
  induction fn as [|u fn IH]; intros [|v f0] i a.
  - split; [intros []|]. intros (_ & u & v & _ & E & _). destruct (fst a - i); discriminate.
  - split; [intros []|]. intros (_ & u & w & _ & E & _). destruct (fst a - i); discriminate.
  - split; [intros []|]. intros (_ & u' & v & _ & _ & E & _). destruct (fst a - i); discriminate.
  - cbn [changed].
    assert (K : In a (changed o (S i) j fn f0) <-> snd a = j /\ exists u' v', S i <= fst a /\ nth_error (u :: fn) (fst a - i) = Some u' /\ nth_error (v :: f0) (fst a - i) = Some v' /\ o_neq o u' v' = true).
    { rewrite IH. split; intros (H & u' & v' & H1 & H2 & H3 & H4); (split; [exact H|]); exists u', v'; (split; [exact H1|]); replace (fst a - i) with (S (fst a - S i)) in * by lia; auto. }
    destruct (o_neq o u v) eqn:D.
    + cbn [In]. rewrite K. split.
      * intros [<-|(H & u' & v' & H1 & H2)]; [cbn [fst snd]; split; [reflexivity|]; exists u, v; rewrite Nat.sub_diag; auto|]. split; [exact H|]. exists u', v'. split; [lia|exact H2].
      * intros (H & u' & v' & H1 & H2). destruct (Nat.eq_dec (fst a) i) as [E|E]; [left; destruct a; cbn in *; congruence|]. right. split; [exact H|]. exists u', v'. split; [lia|exact H2].
    + rewrite K. split; intros (H & u' & v' & H1 & H2 & H3 & H4); (split; [exact H|]); exists u', v'.
      * split; [lia|auto].
      * split; [|auto]. destruct (Nat.eq_dec (fst a) i) as [E|E]; [|lia]. rewrite E, Nat.sub_diag in H2, H3. cbn in H2, H3. congruence.
Qed.
Lemma changed_nodup j : forall fn f0 i, NoDup (changed o i j fn f0).
Proof.
  induction fn as [|u fn IH]; intros [|v f0] i; try constructor. cbn [changed]. destruct (o_neq o u v); [|apply IH]. constructor; [|apply IH]. rewrite changed_spec. cbn [fst]. intros (_ & ? & ? & H & _). lia.
Qed.
Definition sp_point (j : nat) (xj : A) : list A := upd x j (o_add o xj (h xj)).
Definition sp_entry (f0 : list A) (i j : nat) : Prop :=
  exists xj w u v, nth_error x j = Some xj /\ f (sp_point j xj) = Ok w /\ nth_error w i = Some u /\ nth_error f0 i = Some v /\ o_neq o u v = true.
Lemma sp_loop f0 : forall k, k <= length x ->
  (forall ret xs, mfold (sparsity_step o f x dx f0) ([], x) (seq 0 k) = Ok (ret, xs) ->
     xs = x /\ NoDup ret /\ (forall i j, In (i, j) ret <-> j < k /\ sp_entry f0 i j)) /\
  ((forall j xj, j < k -> nth_error x j = Some xj -> exists w, f (sp_point j xj) = Ok w /\ length w = length f0) -> is_ok (mfold (sparsity_step o f x dx f0) ([], x) (seq 0 k)) = true) /\
  ((forall j xj, j < k -> nth_error x j = Some xj -> exists w, f (sp_point j xj) = Ok w) -> (exists j xj w, j < k /\ nth_error x j = Some xj /\ f (sp_point j xj) = Ok w /\ length w <> length f0) ->
     mfold (sparsity_step o f x dx f0) ([], x) (seq 0 k) = Throw InvalidArgument).
Proof.
  induction k as [|k IH]; intros Hk.
  - split; [|split].
    + intros ret xs H. injection H as <- <-. split; [reflexivity|]. split; [constructor|]. intros i j. split; [intros []|lia].
    + reflexivity.
    + intros _ (j & xj & w & H & _). lia.
  - destruct (IH ltac:(lia)) as (I1 & I2 & I3). rewrite seq_S, mfold_app. cbn [Nat.add]. destruct (nth_error x k) as [xk|] eqn:Ek; [|apply nth_error_None in Ek; lia].
    assert (STEP : forall ret, sparsity_step o f x dx f0 (ret, x) k = bind (f (sp_point k xk)) (fun fn => if negb (Nat.eqb (length fn) (length f0)) then Throw InvalidArgument else Ok (ret ++ changed o 0 k fn f0, x))).
    { intros ret. unfold sparsity_step. rewrite (vget_some _ _ _ Ek). cbn [bind]. rewrite vset_ok by lia. cbn [bind]. fold (sp_point k xk). destruct (f (sp_point k xk)) as [fn| | |]; try reflexivity. cbn [bind]. destruct (negb _); [reflexivity|].
      rewrite vset_ok by (unfold sp_point; rewrite upd_length; lia). cbn [bind]. unfold sp_point. now rewrite upd_back. }
    split; [|split].
    + intros ret xs H. apply bind_ok in H. destruct H as ([r1 x1] & E1 & H). cbn [mfold] in H. destruct (I1 r1 x1 E1) as (-> & ND & HI). rewrite STEP in H.
      apply bind_ok in H. destruct H as ([r2 x2] & H & H'). injection H' as -> ->. apply bind_ok in H. destruct H as (fn & EF & H). destruct (Nat.eqb_spec (length fn) (length f0)) as [L|L]; [|discriminate]. cbn [negb] in H. injection H as <- <-.
      split; [reflexivity|]. split.
      * clear - ND HI. assert (D : forall a, In a r1 -> ~ In a (changed o 0 k fn f0)). { intros [i j] H C. apply HI in H. apply changed_spec in C. cbn in C. lia. }
        pose proof (changed_nodup k fn f0 0) as N2. revert ND D. clear HI. induction r1 as [|a r1 IH]; intros ND D; [exact N2|]. cbn [app]. inversion ND; subst. constructor; [|apply IH; [assumption|intros; apply D; right; assumption]].
        intros C. apply in_app_or in C. destruct C as [C|C]; [contradiction|]. apply (D a); [left; reflexivity|exact C].
      * intros i j. rewrite in_app_iff, HI, changed_spec. cbn [fst snd]. rewrite Nat.sub_0_r. split.
        -- intros [[H S]|(-> & u & v & _ & E2 & E3 & E4)]; [split; [lia|exact S]|]. split; [lia|]. exists xk, fn, u, v. auto.
        -- intros [H S]. destruct (Nat.eq_dec j k) as [->|D]; [right|left; split; [lia|exact S]]. destruct S as (xj & w & u & v & S1 & S2 & S3 & S4 & S5). assert (xj = xk) by congruence. subst xj. assert (w = fn) by congruence. subst w. split; [reflexivity|]. exists u, v. split; [lia|auto].
    + intros H. assert (I := I2 (fun j xj Hj => H j xj ltac:(lia))). destruct (mfold (sparsity_step o f x dx f0) ([], x) (seq 0 k)) as [[r1 x1]| | |] eqn:E1; try discriminate. destruct (I1 r1 x1 eq_refl) as (-> & _). cbn [bind mfold]. rewrite STEP.
      destruct (H k xk ltac:(lia) Ek) as (w & E & L). rewrite E. cbn [bind]. rewrite L, Nat.eqb_refl. reflexivity.
    + intros H (j & xj & w & Hj & Ej & Ew & Lw).
      destruct (existsb (fun j0 => match nth_error x j0 with Some xj0 => match f (sp_point j0 xj0) with Ok w0 => negb (Nat.eqb (length w0) (length f0)) | _ => false end | None => false end) (seq 0 k)) eqn:EX.
      * apply existsb_exists in EX. destruct EX as (j0 & Hj0 & EX). apply in_seq in Hj0. destruct (nth_error x j0) as [xj0|] eqn:E0; [|discriminate]. destruct (f (sp_point j0 xj0)) as [w0| | |] eqn:Ef0; try discriminate.
        rewrite I3; [reflexivity|intros j' xj' Hj'; apply H; lia|]. exists j0, xj0, w0. split; [lia|]. split; [exact E0|]. split; [exact Ef0|]. intros C. rewrite C, Nat.eqb_refl in EX. discriminate.
      * assert (GOOD : forall j0 xj0, j0 < k -> nth_error x j0 = Some xj0 -> exists w, f (sp_point j0 xj0) = Ok w /\ length w = length f0).
        { intros j0 xj0 Hj0 E0. destruct (H j0 xj0 ltac:(lia) E0) as (w0 & Ef0). exists w0. split; [exact Ef0|].
          destruct (Nat.eqb_spec (length w0) (length f0)) as [C|C]; [exact C|]. exfalso. rewrite (proj2 (existsb_exists _ _)) in EX; [discriminate|]. exists j0. split; [apply in_seq; lia|]. rewrite E0, Ef0. destruct (Nat.eqb_spec (length w0) (length f0)); [congruence|reflexivity]. }
        assert (I := I2 GOOD). destruct (mfold (sparsity_step o f x dx f0) ([], x) (seq 0 k)) as [[r1 x1]| | |] eqn:E1; try discriminate. destruct (I1 r1 x1 eq_refl) as (-> & _). cbn [bind mfold]. rewrite STEP.
        destruct (Nat.eq_dec j k) as [->|D]; [|destruct (GOOD j xj ltac:(lia) Ej) as (w' & E' & L'); congruence].
        assert (xj = xk) by congruence. subst xj. rewrite Ew. cbn [bind]. destruct (Nat.eqb_spec (length w) (length f0)); [congruence|reflexivity].
Qed.
Lemma pair_swo (l : sparsity) : strict_weak_on pair_lt l.
Proof.
  assert (F : forall a b, pair_lt a b = false <-> ~ lex a b) by (intros a b; rewrite <- pair_lt_spec; destruct (pair_lt a b); split; congruence).
  constructor.
  - intros a _. apply F, lex_irrefl.
  - intros a b c _ _ _. rewrite !pair_lt_spec. apply lex_trans.
  - intros a b c _ _ _. rewrite !F. unfold lex. lia.
Qed.
Lemma sorted_lex l : NoDup l -> sorted_by pair_lt l -> StronglySorted lex l.
Proof.
  intros ND S. induction S as [|a l S IH F]; constructor; inversion ND; subst; [auto|]. apply Forall_forall. intros b Hb. rewrite Forall_forall in F. specialize (F b Hb).
  assert (N : ~ lex b a) by (rewrite <- pair_lt_spec; congruence). assert (a <> b) by (intros ->; contradiction). destruct a as [a1 a2], b as [b1 b2]. unfold lex in *. cbn in *. destruct (Nat.eq_dec a1 b1) as [->|]; [|lia]. destruct (Nat.eq_dec a2 b2) as [->|]; [congruence|lia].
Qed.
Lemma sparsity_result srt : sort_contract srt -> forall S, estimate_sparsity o f x dx srt = Ok S -> exists f0, f x = Ok f0 /\ good_gradient_pattern (length f0) (length x) S /\
  (forall i j, In (i, j) S <-> sp_entry f0 i j).
Proof.
  intros C S H. unfold estimate_sparsity in H. apply bind_ok in H. destruct H as (f0 & E & H). apply bind_ok in H. destruct H as ([ret xs] & H & H'). exists f0. split; [exact E|].
  destruct (sp_loop f0 (length x) (le_n _)) as (K & _). destruct (K ret xs H) as (_ & ND & HI). destruct (std_sort_inv srt pair_lt ret S C H') as (_ & P & SS).
  assert (IN : forall i j, In (i, j) S <-> sp_entry f0 i j).
  { intros i j. split.
    - intros I. apply (Permutation_in _ (Permutation_sym P)) in I. apply HI in I. tauto.
    - intros I. apply (Permutation_in _ P). apply HI. split; [|exact I]. destruct I as (xj & _ & _ & _ & Ej & _). apply nth_error_Some. congruence. }
  split; [|exact IN]. split.
  - intros [i j] I. apply IN in I. destruct I as (xj & w & u & v & Ej & _ & _ & Ev & _). cbn [fst snd]. split; apply nth_error_Some; congruence.
  - apply sorted_lex; [exact (Permutation_NoDup P ND)|exact SS].
Qed.
Lemma sparsity_succeeds srt f0 : sort_contract srt -> f x = Ok f0 -> (forall j xj, nth_error x j = Some xj -> exists w, f (sp_point j xj) = Ok w /\ length w = length f0) -> exists S, estimate_sparsity o f x dx srt = Ok S.
Proof.
  intros C E H. unfold estimate_sparsity. rewrite E. cbn [bind]. destruct (sp_loop f0 (length x) (le_n _)) as (_ & K & _). assert (I := K (fun j xj _ => H j xj)). destruct (mfold _ _ _) as [s| | |]; try discriminate. cbn [bind].
  destruct (std_sort_ok srt pair_lt (fst s) C (pair_swo _)) as (r & E' & _). eauto.
Qed.
Lemma sparsity_throws srt f0 : f x = Ok f0 -> (forall j xj, nth_error x j = Some xj -> exists w, f (sp_point j xj) = Ok w) ->
  (exists j xj w, nth_error x j = Some xj /\ f (sp_point j xj) = Ok w /\ length w <> length f0) -> estimate_sparsity o f x dx srt = Throw InvalidArgument.
Proof.
  intros E H (j & xj & w & Ej & Ew & L). unfold estimate_sparsity. rewrite E. cbn [bind]. destruct (sp_loop f0 (length x) (le_n _)) as (_ & _ & K). rewrite K; [reflexivity|intros j' xj' _; apply H|]. exists j, xj, w. split; [apply nth_error_Some; congruence|auto].
Qed.
End G.
