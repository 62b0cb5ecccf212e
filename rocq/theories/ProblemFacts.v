From Coq Require Import List Bool Arith ZArith Lia Sorting.Sorted.
From Verif Require Import Dbl DblFacts Outcome BaseFacts Compare CompareFacts SpecOrder Constrained Problem SpecProblem.
Import ListNotations.

(** ** Bounds *)
Lemma isnan_false x : isnan x = false <-> x <> NaN.
Proof. destruct x; simpl; split; congruence. Qed.
Lemma dgt_false_dle l u : l <> NaN -> u <> NaN -> (dgt l u = false <-> dle l u = true).
Proof.
  intros Hl Hu. unfold dgt, dle. destruct l, u; simpl; try congruence; try (split; congruence); try tauto.
  rewrite orb_true_iff, Z.ltb_ge, Z.ltb_lt, Z.eqb_eq. lia.
Qed.
Lemma trunc_integral x : isfinite x = true -> (dneq x (dtrunc x) = false <-> integral x).
Proof.
  destruct x as [| |z|]; try discriminate. intros _. unfold dneq, deq, dtrunc, integral. rewrite negb_false_iff, Z.eqb_eq.
  assert (P : (one_z <> 0)%Z) by (unfold one_z; apply Z.pow_nonzero; lia).
  split.
  - intros H. exists (Z.quot z one_z). f_equal. exact H.
  - intros (k & H). inversion H; subst. rewrite Z.quot_mul by exact P. reflexivity.
Qed.

Lemma check_bound_pairs_spec : forall lb ub, length lb = length ub ->
  (check_bound_pairs lb ub = Ok tt /\ forall i l u, nth_error lb i = Some l -> nth_error ub i = Some u -> l <> NaN /\ u <> NaN /\ dle l u = true) \/
  (check_bound_pairs lb ub = Throw InvalidArgument /\ ~ forall i l u, nth_error lb i = Some l -> nth_error ub i = Some u -> l <> NaN /\ u <> NaN /\ dle l u = true).
Proof.
  induction lb as [|l lb IH]; intros [|u ub] L; try discriminate.
  - left. split; [reflexivity|]. intros [|i]; discriminate.
  - cbn [check_bound_pairs]. destruct (isnan l || isnan u) eqn:E1.
    + right. split; [reflexivity|]. intros H. destruct (H 0 l u eq_refl eq_refl) as (A & B & _).
      apply isnan_false in A. apply isnan_false in B. rewrite A, B in E1. discriminate.
    + apply orb_false_iff in E1. destruct E1 as [A B]. apply isnan_false in A. apply isnan_false in B.
      destruct (dgt l u) eqn:E2.
      * right. split; [reflexivity|]. intros H. destruct (H 0 l u eq_refl eq_refl) as (_ & _ & D).
        apply (dgt_false_dle l u A B) in D. congruence.
      * apply (dgt_false_dle l u A B) in E2. destruct (IH ub) as [[R H]|[R H]]; [simpl in L; lia| |]; rewrite R.
        -- left. split; [reflexivity|]. intros [|i] l' u' Hl Hu; [inversion Hl; inversion Hu; subst; auto|eauto].
        -- right. split; [reflexivity|]. intros G. apply H. intros i. exact (G (S i)).
Qed.

Lemma check_integral_spec : forall lb ub, length lb = length ub ->
  let P := forall i l u, nth_error lb i = Some l -> nth_error ub i = Some u -> (isfinite l = true -> integral l) /\ (isfinite u = true -> integral u) in
  (check_integral lb ub = Ok tt /\ P) \/ (check_integral lb ub = Throw InvalidArgument /\ ~ P).
Proof.
  induction lb as [|l lb IH]; intros [|u ub] L; try discriminate.
  - left. split; [reflexivity|]. intros [|i]; discriminate.
  - cbn [check_integral]. destruct (isfinite l && dneq l (dtrunc l)) eqn:E1.
    + right. split; [reflexivity|]. intros H. destruct (H 0 l u eq_refl eq_refl) as [A _].
      apply andb_true_iff in E1. destruct E1 as [F E1]. apply A in F as G. apply (trunc_integral l F) in G. congruence.
    + destruct (isfinite u && dneq u (dtrunc u)) eqn:E2.
      * right. split; [reflexivity|]. intros H. destruct (H 0 l u eq_refl eq_refl) as [_ A].
        apply andb_true_iff in E2. destruct E2 as [F E2]. apply A in F as G. apply (trunc_integral u F) in G. congruence.
      * destruct (IH ub) as [[R H]|[R H]]; [simpl in L; lia| |]; rewrite R.
        -- left. split; [reflexivity|]. intros [|i] l' u' Hl Hu; [|eapply H; [exact Hl|exact Hu]].
           inversion Hl; inversion Hu; subst. split; intros F.
           ++ rewrite F in E1. apply (trunc_integral l' F). exact E1.
           ++ rewrite F in E2. apply (trunc_integral u' F). exact E2.
        -- right. split; [reflexivity|]. intros G. apply H. intros i. exact (G (S i)).
Qed.

Lemma nth_error_skipn' {A} (l : list A) n i : nth_error (skipn n l) i = nth_error l (n + i).
Proof. revert n. induction l as [|x l IH]; intros [|n]; simpl; auto. destruct i; reflexivity. Qed.

Lemma check_problem_bounds_spec lb ub nix :
  (check_problem_bounds lb ub nix = Ok tt /\ good_bounds lb ub nix) \/
  (check_problem_bounds lb ub nix = Throw InvalidArgument /\ ~ good_bounds lb ub nix).
Proof.
  unfold check_problem_bounds, good_bounds.
  destruct (Nat.eqb_spec (length lb) 0) as [E|N0].
  { right. split; [reflexivity|]. intros (H & _). apply length_zero_iff_nil in E. contradiction. }
  destruct (Nat.eqb_spec (length lb) (length ub)) as [L|L]; cbn [negb].
  2: { right. split; [reflexivity|]. intros (_ & H & _). contradiction. }
  assert (NE : lb <> []) by (intros ->; apply N0; reflexivity).
  destruct (check_bound_pairs_spec lb ub L) as [[R H]|[R H]]; rewrite R; cbn [bind].
  2: { right. split; [reflexivity|]. intros (_ & _ & G & _). contradiction. }
  destruct (Nat.eqb_spec nix 0) as [Z0|Z0].
  { left. split; [reflexivity|]. split; [exact NE|]. split; [exact L|]. split; [exact H|]. split; [lia|].
    intros i l u Hi Hl. exfalso. assert (i < length lb) by (apply nth_error_Some; congruence). lia. }
  destruct (Nat.ltb_spec (length lb) nix) as [T|T].
  { right. split; [reflexivity|]. intros (_ & _ & _ & G & _). lia. }
  destruct (check_integral_spec (skipn (length lb - nix) lb) (skipn (length lb - nix) ub)) as [[R2 G]|[R2 G]].
  { rewrite !skipn_length. lia. }
  - left. split; [exact R2|]. split; [exact NE|]. split; [exact L|]. split; [exact H|]. split; [exact T|].
    intros i l u Hi Hl Hu. apply (G (i - (length lb - nix))); rewrite nth_error_skipn'; replace (length lb - nix + (i - (length lb - nix))) with i by lia; assumption.
  - right. split; [exact R2|]. intros (_ & _ & _ & _ & K). apply G. intros i l u Hl Hu. rewrite nth_error_skipn' in Hl, Hu.
    eapply K; [|exact Hl|exact Hu]. lia.
Qed.

(** ** Patterns *)
Lemma pair_lt_spec a b : pair_lt a b = true <-> lex a b.
Proof.
  unfold pair_lt, lex. rewrite orb_true_iff, andb_true_iff, negb_true_iff, !Nat.ltb_lt, Nat.ltb_ge. lia.
Qed.
Lemma lex_trans a b c : lex a b -> lex b c -> lex a c.
Proof. unfold lex. lia. Qed.
Lemma lex_irrefl a : ~ lex a a.
Proof. unfold lex. lia. Qed.

Lemma check_pattern_spec bad : forall l prev,
  let P := (forall a, In a l -> bad a = false) /\ StronglySorted lex l /\ match prev with None => True | Some b => forall a, In a l -> lex b a end in
  (check_pattern bad prev l = Ok tt /\ P) \/ (check_pattern bad prev l = Throw InvalidArgument /\ ~ P).
Proof.
  induction l as [|a l IH]; intros prev P.
  - left. split; [reflexivity|]. split; [intros a []|]. split; [constructor|]. destruct prev; [intros a []|exact I].
  - cbn [check_pattern]. destruct (bad a) eqn:B.
    + right. split; [reflexivity|]. intros (H & _). rewrite H in B by (left; reflexivity). discriminate.
    + assert (K : (check_pattern bad (Some a) l = Ok tt /\ (match prev with None => True | Some b => lex b a end -> P)) \/ (check_pattern bad (Some a) l = Throw InvalidArgument /\ ~ P)).
      { destruct (IH (Some a)) as [[R (H1 & H2 & H3)]|[R H]].
        - left. split; [exact R|]. intros Q. split; [intros x [<-|Hx]; auto|]. split; [constructor; [exact H2|apply Forall_forall, H3]|].
          destruct prev as [b|]; [|exact I]. intros x [<-|Hx]; [exact Q|]. eapply lex_trans; [exact Q|auto].
        - right. split; [exact R|]. intros (H1 & H2 & H3). apply H. inversion H2; subst. split; [intros; apply H1; right; assumption|].
          split; [assumption|]. intros x Hx. match goal with F : Forall _ l |- _ => rewrite Forall_forall in F; auto end. }
      destruct prev as [b|].
      * destruct (pair_lt b a) eqn:E; cbn [negb].
        -- apply pair_lt_spec in E. destruct K as [[R H]|[R H]]; [left|right]; (split; [exact R|]); auto.
        -- right. split; [reflexivity|]. intros (_ & _ & H). assert (lex b a) by (apply H; left; reflexivity).
           apply pair_lt_spec in H0. congruence.
      * destruct K as [[R H]|[R H]]; [left|right]; (split; [exact R|]); auto.
Qed.

Lemma check_gradient_spec nf nx s :
  (check_gradient_sparsity nf nx s = Ok tt /\ good_gradient_pattern nf nx s) \/
  (check_gradient_sparsity nf nx s = Throw InvalidArgument /\ ~ good_gradient_pattern nf nx s).
Proof.
  unfold check_gradient_sparsity, good_gradient_pattern.
  destruct (check_pattern_spec (fun a => Nat.leb nf (fst a) || Nat.leb nx (snd a)) s None) as [[R (H1 & H2 & _)]|[R H]]; [left|right]; (split; [exact R|]).
  - split; [|exact H2]. intros a Ha. apply H1 in Ha. apply orb_false_iff in Ha. destruct Ha as [A B]. apply Nat.leb_gt in A. apply Nat.leb_gt in B. lia.
  - intros (A & B). apply H. split; [|split; [exact B|exact I]]. intros a Ha. apply A in Ha. apply orb_false_iff. rewrite !Nat.leb_gt. lia.
Qed.
Lemma check_hessian_spec nx s :
  (check_hessian_sparsity nx s = Ok tt /\ good_hessian_pattern nx s) \/
  (check_hessian_sparsity nx s = Throw InvalidArgument /\ ~ good_hessian_pattern nx s).
Proof.
  unfold check_hessian_sparsity, good_hessian_pattern.
  destruct (check_pattern_spec (fun a => Nat.leb nx (fst a) || Nat.ltb (fst a) (snd a)) s None) as [[R (H1 & H2 & _)]|[R H]]; [left|right]; (split; [exact R|]).
  - split; [|exact H2]. intros a Ha. apply H1 in Ha. apply orb_false_iff in Ha. destruct Ha as [A B]. apply Nat.leb_gt in A. apply Nat.ltb_ge in B. lia.
  - intros (A & B). apply H. split; [|split; [exact B|exact I]]. intros a Ha. apply A in Ha. apply orb_false_iff. rewrite Nat.leb_gt, Nat.ltb_ge. lia.
Qed.
Lemma mfold_unit_spec {A} (f : A -> outcome unit) (P : A -> Prop) (l : list A) :
  (forall a, In a l -> (f a = Ok tt /\ P a) \/ (f a = Throw InvalidArgument /\ ~ P a)) ->
  (mfold (fun _ a => f a) tt l = Ok tt /\ forall a, In a l -> P a) \/
  (mfold (fun _ a => f a) tt l = Throw InvalidArgument /\ ~ forall a, In a l -> P a).
Proof.
  induction l as [|a l IH]; intros H.
  - left. split; [reflexivity|]. intros a [].
  - cbn [mfold]. destruct (H a (or_introl eq_refl)) as [[R Q]|[R Q]]; rewrite R; cbn [bind].
    + destruct IH as [[R' Q']|[R' Q']]; [intros; apply H; right; assumption| |].
      * left. split; [exact R'|]. intros x [<-|Hx]; auto.
      * right. split; [exact R'|]. intros G. apply Q'. intros x Hx. apply G. right; exact Hx.
    + right. split; [reflexivity|]. intros G. apply Q, G. left; reflexivity.
Qed.
Lemma check_hessians_spec nf nx l :
  (check_hessians_sparsity nf nx l = Ok tt /\ (length l = nf /\ forall s, In s l -> good_hessian_pattern nx s)) \/
  (check_hessians_sparsity nf nx l = Throw InvalidArgument /\ ~ (length l = nf /\ forall s, In s l -> good_hessian_pattern nx s)).
Proof.
  unfold check_hessians_sparsity. destruct (Nat.eqb_spec (length l) nf) as [E|E]; cbn [negb].
  - destruct (mfold_unit_spec (check_hessian_sparsity nx) (good_hessian_pattern nx) l) as [[R H]|[R H]].
    + intros a _. apply check_hessian_spec.
    + left. auto.
    + right. split; [exact R|]. tauto.
  - right. split; [reflexivity|]. tauto.
Qed.

(** Dense patterns. *)
Lemma in_dense_gradient nf nx a : In a (dense_gradient nf nx) <-> fst a < nf /\ snd a < nx.
Proof.
  unfold dense_gradient. rewrite in_flat_map. split.
  - intros (j & Hj & H). apply in_map_iff in H. destruct H as (i & <- & Hi). apply in_seq in Hj. apply in_seq in Hi. simpl. lia.
  - intros [H1 H2]. exists (fst a). split; [apply in_seq; lia|]. apply in_map_iff. exists (snd a). split; [destruct a; reflexivity|apply in_seq; lia].
Qed.
Lemma in_dense_hessian nx a : In a (dense_hessian nx) <-> fst a < nx /\ snd a <= fst a.
Proof.
  unfold dense_hessian. rewrite in_flat_map. split.
  - intros (j & Hj & H). apply in_map_iff in H. destruct H as (i & <- & Hi). apply in_seq in Hj. apply in_seq in Hi. simpl. lia.
  - intros [H1 H2]. exists (fst a). split; [apply in_seq; lia|]. apply in_map_iff. exists (snd a). split; [destruct a; reflexivity|apply in_seq; lia].
Qed.
Lemma row_sorted j n : forall s, StronglySorted lex (map (fun i => (j, i)) (seq s n)).
Proof.
  induction n as [|n IH]; intros s; cbn [seq map]; constructor; [apply IH|].
  apply Forall_forall. intros a Ha. apply in_map_iff in Ha. destruct Ha as (i & <- & Hi). apply in_seq in Hi. right. simpl. lia.
Qed.
Lemma sorted_app l1 l2 : StronglySorted lex l1 -> StronglySorted lex l2 -> (forall a b, In a l1 -> In b l2 -> lex a b) -> StronglySorted lex (l1 ++ l2).
Proof.
  induction l1 as [|x l1 IH]; intros S1 S2 H; [exact S2|]. inversion S1; subst. cbn [app]. constructor.
  - apply IH; auto. intros; apply H; [right|]; assumption.
  - apply Forall_app. split; [assumption|]. apply Forall_forall. intros b Hb. apply H; [left; reflexivity|exact Hb].
Qed.
Lemma rows_sorted (f : nat -> nat) n : forall s, StronglySorted lex (flat_map (fun j => map (fun i => (j, i)) (seq 0 (f j))) (seq s n)).
Proof.
  induction n as [|n IH]; intros s; cbn [seq flat_map]; [constructor|]. apply sorted_app; [apply row_sorted|apply IH|].
  intros a b Ha Hb. apply in_map_iff in Ha. destruct Ha as (i & <- & _). apply in_flat_map in Hb. destruct Hb as (k & Hk & Hb).
  apply in_map_iff in Hb. destruct Hb as (i' & <- & _). apply in_seq in Hk. left. simpl. lia.
Qed.
Lemma dense_gradient_good nf nx : good_gradient_pattern nf nx (dense_gradient nf nx).
Proof. split; [intros a; apply in_dense_gradient|]. apply (rows_sorted (fun _ => nx)). Qed.
Lemma dense_hessian_good nx : good_hessian_pattern nx (dense_hessian nx).
Proof. split; [intros a; apply in_dense_hessian|]. apply (rows_sorted S). Qed.
Lemma flat_map_len {A B} (f : A -> list B) n (l : list A) : (forall a, In a l -> length (f a) = n) -> length (flat_map f l) = length l * n.
Proof. induction l as [|a l IH]; intros H; cbn [flat_map length]; [reflexivity|]. rewrite app_length, H, IH by (auto with datatypes). lia. Qed.
Lemma dense_gradient_length nf nx : length (dense_gradient nf nx) = nf * nx.
Proof. unfold dense_gradient. rewrite (flat_map_len _ nx), seq_length; [reflexivity|]. intros a _. now rewrite map_length, seq_length. Qed.
Lemma dense_hessian_length nx : 2 * length (dense_hessian nx) = nx * (nx + 1).
Proof.
  unfold dense_hessian. induction nx as [|n IH]; [reflexivity|]. rewrite seq_S, flat_map_app, app_length. cbn [flat_map].
  rewrite app_nil_r, map_length, seq_length. cbn [Nat.add]. lia.
Qed.
Lemma sorted_NoDup s : StronglySorted lex s -> NoDup s.
Proof.
  induction 1 as [|a s H IH F]; constructor; [|exact IH]. intros X. rewrite Forall_forall in F. apply (lex_irrefl a). auto.
Qed.

(** ** Cached sizes *)
Local Open Scope Z_scope.
Lemma grad_dense_spec nx nf : 0 <= nx -> 0 < nf ->
  (grad_dense_dim nx nf = Ok (nx * nf) /\ nx * nf < 2 ^ 64) \/ (grad_dense_dim nx nf = Throw InvalidArgument /\ ~ nx * nf < 2 ^ 64).
Proof.
  intros Hx Hf. unfold grad_dense_dim, wrap64, u64max. destruct (Z.ltb_spec ((2 ^ 64 - 1) / nf) nx) as [H|H].
  - right. split; [reflexivity|]. intros G. pose proof (Z.div_le_lower_bound (2 ^ 64 - 1) nf nx Hf). lia.
  - left. assert (nx * nf <= 2 ^ 64 - 1).
    { pose proof (Z.mul_div_le (2 ^ 64 - 1) nf Hf). nia. }
    split; [|lia]. f_equal. apply Z.mod_small. nia.
Qed.
Lemma hess_dense_guard nx : 0 < nx ->
  (exists d, hess_dense_dim nx = Ok d /\ nx < 2 ^ 64 - 1 /\ nx / 2 * (nx + 1) < 2 ^ 64) \/
  (hess_dense_dim nx = Throw InvalidArgument /\ ~ (nx < 2 ^ 64 - 1 /\ nx / 2 * (nx + 1) < 2 ^ 64)).
Proof.
  intros Hx. unfold hess_dense_dim, u64max. destruct (Z.eqb_spec nx (2 ^ 64 - 1)) as [E|E]; cbn [orb].
  - right. split; [reflexivity|]. lia.
  - destruct (Z.ltb_spec ((2 ^ 64 - 1) / (nx + 1)) (nx / 2)) as [H|H].
    + right. split; [reflexivity|]. intros (_ & G). pose proof (Z.div_le_lower_bound (2 ^ 64 - 1) (nx + 1) (nx / 2)). lia.
    + left. eexists. split; [reflexivity|].
      assert (0 <= nx / 2) by (apply Z.div_pos; lia).
      assert (nx / 2 * (nx + 1) <= 2 ^ 64 - 1).
      { pose proof (Z.mul_div_le (2 ^ 64 - 1) (nx + 1)). nia. }
      split; [|lia]. destruct (Z_lt_le_dec nx (2 ^ 64 - 1)); [assumption|]. exfalso.
      assert (2 ^ 62 <= nx / 2) by (apply Z.div_le_lower_bound; lia). nia.
Qed.
(** The cached size is right exactly up to dimension 2^32. *)
Lemma hess_dense_exact nx d : 0 < nx -> hess_dense_dim nx = Ok d -> (2 * d = nx * (nx + 1) <-> nx <= 2 ^ 32).
Proof.
  intros Hx H. destruct (hess_dense_guard nx Hx) as [(d' & E & G1 & G2)|[E _]]; [|congruence].
  rewrite H in E. inversion E; subst d'. clear E.
  unfold hess_dense_dim in H. destruct ((nx =? u64max) || (u64max / (nx + 1) <? nx / 2)); [discriminate|].
  inversion H; subst d. clear H. unfold wrap64.
  assert (E2 : exists q, nx * (nx - 1) = 2 * q).
  { destruct (Z.Even_or_Odd nx) as [[k ->]|[k ->]]; [exists (k * (2 * k - 1)); ring|exists ((2 * k + 1) * k); ring]. }
  destruct E2 as (q & Eq).
  assert (B : nx / 2 * 2 >= nx - 1) by (pose proof (Z.div_mod nx 2); pose proof (Z.mod_pos_bound nx 2); lia).
  assert (UB : (nx - 1) * (nx + 1) < 2 ^ 65) by nia.
  split.
  - intros HH. destruct (Z_le_gt_dec nx (2 ^ 32)) as [|GT]; [assumption|]. exfalso.
    assert (W : (nx * (nx - 1)) mod 2 ^ 64 = nx * (nx - 1) - 2 ^ 64).
    { symmetry. apply Z.mod_unique with 1; [left; nia|ring]. }
    rewrite W in HH. rewrite Eq in HH. replace (2 * q - 2 ^ 64) with ((q - 2 ^ 63) * 2) in HH by ring. rewrite Z.div_mul in HH by lia.
    rewrite Z.mod_small in HH; [|split; nia]. nia.
  - intros LE. rewrite (Z.mod_small (nx * (nx - 1))) by (split; nia).
    rewrite Eq. rewrite (Z.mul_comm 2 q), Z.div_mul by lia. rewrite Z.mod_small by (split; nia). nia.
Qed.
Lemma hess_dense_wraps : hess_dense_dim (2 ^ 32 + 1) = Ok (2 ^ 32 + 1 + 2 ^ 31) /\ 2 * (2 ^ 32 + 1 + 2 ^ 31) <> (2 ^ 32 + 1) * (2 ^ 32 + 1 + 1).
Proof. split; vm_compute; [reflexivity|discriminate]. Qed.
