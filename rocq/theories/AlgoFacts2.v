From Coq Require Import List Bool Arith ZArith Lia.
From Verif Require Import Dbl DblFacts IntDbl Outcome BaseFacts StdSort Problem SpecProblem ProblemFacts ProblemFacts2 ProblemFacts3 Rng Generic SpecGeneric GenericFacts2 GenericFacts3 SpecGenetic RmFacts
  GeneticOps GeneticFacts Population SpecPopulation PopulationFacts PopulationFacts3 Algo SpecAlgo AlgoFacts.
Import ListNotations.

Lemma prob_obj_bounds p : prob_obj p -> good_bounds (p_lb p) (p_ub p) (p_nix p).
Proof.
  induction 1 as [u p E|p t p' O IH E].
  - destruct (construct_iff u) as (C & _ & B). assert (GU : good_udp u) by (apply C; eauto). pose proof (B p E) as (_ & El & Eu & _ & _ & _ & En & _).
    rewrite El, Eu, En. apply GU.
  - destruct (set_c_tol_spec p t) as [(X & L & _)|(X & _)]; rewrite X in E; inversion E; subst. exact IH.
Qed.
Lemma prob_obj_ord p : prob_obj p -> forall i l u, nth_error (p_lb p) i = Some l -> nth_error (p_ub p) i = Some u -> dle l u = true.
Proof. intros PO i l u A B. destruct (prob_obj_bounds p PO) as (_ & _ & H & _). now apply (H i l u). Qed.
Lemma prob_obj_lens p : prob_obj p -> length (p_lb p) = get_nx p /\ length (p_ub p) = get_nx p.
Proof. intros PO. destruct (prob_obj_bounds p PO) as (_ & H & _). split; [reflexivity|]. unfold get_nx. congruence. Qed.

Lemma min_elt_lt {A} (cmp : A -> A -> bool) l : forall b bi i, bi < i -> min_elt_from cmp b bi i l < i + length l.
Proof. induction l as [|x l IH]; intros b bi i H; cbn [min_elt_from length]; [lia|]. destruct (cmp x b); [specialize (IH x i (S i))|specialize (IH b bi (S i))]; lia. Qed.
Lemma max_elt_lt {A} (cmp : A -> A -> bool) l : forall b bi i, bi < i -> max_elt_from cmp b bi i l < i + length l.
Proof. induction l as [|x l IH]; intros b bi i H; cbn [max_elt_from length]; [lia|]. destruct (cmp b x); [specialize (IH x i (S i))|specialize (IH b bi (S i))]; lia. Qed.
Lemma best_idx_lt {P} srt (s : pop P) : p_nobj (po_prob s) = 1 -> get_nc (po_prob s) = 0 -> stored s -> po_id s <> [] -> exists b, best_idx srt s = Ok b /\ b < length (po_id s).
Proof.
  intros NO NC (L1 & L2 & _) NE. unfold best_idx, best_idx_tol. rewrite NO, NC. destruct (po_id s) as [|i0 ids] eqn:EI; [congruence|]. cbn [length Nat.eqb Nat.ltb Nat.leb] in *.
  destruct (po_f s) as [|f fs]; [cbn in L2; lia|]. cbn [min_element]. eexists. split; [reflexivity|]. pose proof (min_elt_lt vec_lt fs f 0 1 ltac:(lia)). cbn [length] in *. lia.
Qed.
Lemma worst_idx_lt {P} srt (s : pop P) : p_nobj (po_prob s) = 1 -> get_nc (po_prob s) = 0 -> stored s -> po_id s <> [] -> exists b, worst_idx srt s = Ok b /\ b < length (po_id s).
Proof.
  intros NO NC (L1 & L2 & _) NE. unfold worst_idx, worst_idx_tol. rewrite NO, NC. destruct (po_id s) as [|i0 ids] eqn:EI; [congruence|]. cbn [length Nat.eqb Nat.ltb Nat.leb] in *.
  destruct (po_f s) as [|f fs]; [cbn in L2; lia|]. cbn [max_element]. eexists. split; [reflexivity|]. pose proof (max_elt_lt vec_lt fs f 0 1 ltac:(lia)). cbn [length] in *. lia.
Qed.

Lemma vget_in_range {A} (l : list A) i : i < length l -> exists x, vget l i = Ok x /\ nth_error l i = Some x.
Proof. intros H. destruct (nth_ex l i H) as (x & E). exists x. split; [|exact E]. unfold vget. now rewrite E. Qed.
Lemma vset_in_range {A} (l : list A) i x : i < length l -> vset l i x = Ok (upd l i x).
Proof. intros H. unfold vset. destruct (Nat.ltb_spec i (length l)); [reflexivity|lia]. Qed.

(** ** Draws *)
Section D.
Context {G : Type} (r : rng G) (RC : rng_contract r).
Lemma draw_int_ok a b E : (a <= b)%Z -> always (draw_int r a b) (fun k => (a <= k <= b)%Z) E.
Proof.
  intros H g. unfold draw_int, rdraw. destruct (Z.leb_spec a b); [|lia]. pose proof (int_in r RC a b g H) as K. destruct (g_int r a b g). exact K.
Qed.
Lemma draw01_any E : always (draw01 r) (fun _ => True) E.
Proof. eapply always_weak; [apply draw01_ok; exact RC|trivial|intros e []]. Qed.
(** What force_bounds_random does to a vector *)
Definition bounded_from (lb ub x y : list dbl) : Prop :=
  length y = length x /\
  forall i l u v, nth_error lb i = Some l -> nth_error ub i = Some u -> nth_error x i = Some v ->
    exists w, nth_error y i = Some w /\ (v <> NaN -> within l u w) /\ (within l u v -> w = v) /\ (v = NaN -> w = NaN).
Lemma fbr_ok p x (E : exn -> Prop) : prob_obj p -> length x = get_nx p -> (~ drawable p -> E InvalidArgument) ->
  always (force_bounds_random r x (p_lb p) (p_ub p)) (bounded_from (p_lb p) (p_ub p) x) E.
Proof.
  intros PO L H g. destruct (prob_obj_lens p PO) as [L1 L2].
  destruct (fbr_spec r RC x (p_lb p) (p_ub p) g ltac:(lia) ltac:(lia) (prob_obj_ord p PO)) as [(y & E1 & E2 & E3)|(E1 & i & l & u & v & A & B & C & _ & _ & D)]; rewrite E1.
  - split; assumption.
  - apply H. intros DR. apply D. now apply (DR i).
Qed.
Lemma bounded_in_box_or_nan lb ub x y : length x = length lb -> length x = length ub -> bounded_from lb ub x y -> in_box_or_nan lb ub y.
Proof.
  intros L1 L2 (L & H). split; [lia|]. split; [lia|]. intros i l u w A B C.
  destruct (nth_ex x i) as (v & Ev); [rewrite <- L; apply nth_error_Some; congruence|]. destruct (H i l u v A B Ev) as (w' & C' & K1 & _ & K3). assert (w' = w) by congruence. subst w'.
  destruct v; auto; right; apply K1; discriminate.
Qed.
Lemma bounded_in_box lb ub x y : length x = length lb -> length x = length ub -> Forall (fun v => v <> NaN) x -> bounded_from lb ub x y -> in_box lb ub y.
Proof.
  intros L1 L2 NN (L & H). split; [lia|]. split; [lia|]. intros i l u w A B C.
  destruct (nth_ex x i) as (v & Ev); [rewrite <- L; apply nth_error_Some; congruence|]. destruct (H i l u v A B Ev) as (w' & C' & K1 & _ & _). assert (w' = w) by congruence. subst w'.
  apply K1. rewrite Forall_forall in NN. apply NN. eapply nth_error_In; eauto.
Qed.
End D.

(** ** Sizes of doubles: at most 2^k units *)
Local Open Scope Z_scope.
Definition bnd (k : Z) (x : dbl) : Prop := exists z, x = Fin z /\ Z.abs z <= 2 ^ k.
Lemma bnd_rnd n d k : 0 < d -> 0 <= k <= 2097 -> Z.abs n <= 2 ^ k * d -> bnd k (rnd n d).
Proof.
  intros Hd Hk H. pose proof (rnd_nat_pow2_le (Z.abs n) k d ltac:(lia) ltac:(lia) Hd H) as B.
  pose proof (rnd_nat_nonneg (Z.abs n) d ltac:(lia) Hd) as B0.
  assert (OV : 2 ^ k < ovf_z).
  { eapply Z.le_lt_trans; [apply (Z.pow_le_mono_r 2 k 2097); lia|]. unfold ovf_z. apply Z.pow_lt_mono_r; lia. }
  unfold rnd. destruct (Z.leb_spec ovf_z (rnd_nat (Z.abs n) d)); [lia|]. eexists. split; [reflexivity|].
  rewrite Z.abs_mul. pose proof (Z.abs_nonneg (Z.sgn n)). assert (Z.abs (Z.sgn n) <= 1) by (destruct n; cbn; lia). nia.
Qed.
Lemma bnd_weak k k' x : k <= k' -> bnd k x -> bnd k' x.
Proof.
  intros H (z & -> & B). exists z. split; [reflexivity|]. destruct (Z.lt_ge_cases k 0) as [N|N].
  - rewrite (Z.pow_neg_r 2 k N) in B. pose proof (Z.pow_nonneg 2 k' ltac:(lia)). lia.
  - pose proof (Z.pow_le_mono_r 2 k k' ltac:(lia) H). lia.
Qed.
Lemma bnd_add k x y : 0 <= k <= 2096 -> bnd k x -> bnd k y -> bnd (k + 1) (dadd x y).
Proof.
  intros Hk (a & -> & A) (b & -> & B). cbn [dadd]. apply bnd_rnd; [lia|lia|]. rewrite Z.pow_add_r by lia. lia.
Qed.
Lemma bnd_neg k x : bnd k x -> bnd k (dneg x).
Proof. intros (a & -> & A). exists (- a). split; [reflexivity|]. lia. Qed.
Lemma bnd_sub k x y : 0 <= k <= 2096 -> bnd k x -> bnd k y -> bnd (k + 1) (dsub x y).
Proof. intros Hk A B. unfold dsub. apply bnd_add; auto. now apply bnd_neg. Qed.
Lemma bnd_mul_unit k x y : 0 <= k <= 2097 -> bnd 1074 x -> bnd k y -> bnd k (dmul x y).
Proof.
  intros Hk (a & -> & A) (b & -> & B). cbn [dmul]. apply bnd_rnd; [apply one_z_pos|lia|]. rewrite Z.abs_mul. unfold one_z. nia.
Qed.
Lemma bnd_mul_unit_r k x y : 0 <= k <= 2097 -> bnd k x -> bnd 1074 y -> bnd k (dmul x y).
Proof.
  intros Hk (a & -> & A) (b & -> & B). cbn [dmul]. apply bnd_rnd; [apply one_z_pos|lia|]. rewrite Z.abs_mul. unfold one_z. nia.
Qed.
Lemma bnd_not_nan k x : bnd k x -> x <> NaN.
Proof. intros (z & -> & _). discriminate. Qed.
Lemma bnd_within k l u v : bnd k l -> bnd k u -> within l u v -> bnd k v.
Proof.
  intros (a & -> & A) (b & -> & B) [H1 H2]. destruct v as [| |z|]; try discriminate. apply dle_fin in H1. apply dle_fin in H2. exists z. split; [reflexivity|]. lia.
Qed.
Lemma bnd_unit x : dle dzero x = true -> dle x done = true -> bnd 1074 x.
Proof. intros H1 H2. apply (bnd_within 1074 dzero done); [exists 0; split; [reflexivity|rewrite Z.abs_0; apply Z.pow_nonneg; lia]| |split; assumption]. exists one_z. split; [reflexivity|]. unfold one_z. rewrite Z.abs_eq; [lia|apply Z.pow_nonneg; lia]. Qed.
Close Scope Z_scope.

(** ** Differences *)
Lemma dge_sub a b : dge (dsub a b) dzero = true -> dle b a = true.
Proof.
  unfold dge. intros H. destruct a as [| |x|], b as [| |y|]; try discriminate H; try reflexivity.
  apply dle_fin. destruct (Z.lt_ge_cases x y) as [C|C]; [|exact C]. exfalso. change (dsub (Fin x) (Fin y)) with (rnd (x + - y) 1) in H. unfold rnd in H. cbv zeta in H.
  pose proof (rnd_nat_ge1 (Z.abs (x + - y)) 1 ltac:(lia) ltac:(lia)) as K. rewrite (Z.sgn_neg (x + - y)) in H by lia. cbn [Z.ltb Z.compare] in H.
  match type of H with context [if ?c then _ else _] => destruct c end; [discriminate H|]. apply dle_fin in H. lia.
Qed.
Lemma dsub_ge a b z : a = Fin z -> dle b a = true -> dge (dsub a b) dzero = true.
Proof.
  intros -> H. destruct b as [| |y|]; try discriminate H; [reflexivity|]. apply dle_fin in H. pose proof (dsub_nonneg y z H) as N. apply nonneg_cases in N.
  unfold dge. destruct N as [->|(w & -> & W)]; [reflexivity|]. apply dle_fin. exact W.
Qed.
Lemma replaced_trans {P} (R : list dbl -> list dbl -> list dbl -> list dbl -> Prop) (s1 s2 s3 : pop P) : length (po_x s1) = length (po_f s1) ->
  (forall x1 f1 x2 f2 x3 f3, R x1 f1 x2 f2 -> R x2 f2 x3 f3 -> R x1 f1 x3 f3) -> replaced R s1 s2 -> replaced R s2 s3 -> replaced R s1 s3.
Proof.
  intros L T (A1 & A2 & A3 & A4 & A5) (B1 & B2 & B3 & B4 & B5). split; [congruence|]. split; [congruence|]. split; [congruence|]. split; [congruence|].
  intros i x f x3 f3 H1 H2 H3 H4. assert (i < length (po_x s3)) by (apply nth_error_Some; congruence).
  destruct (nth_ex (po_x s2) i ltac:(lia)) as (x2 & E1). destruct (nth_ex (po_f s2) i ltac:(lia)) as (f2 & E2).
  destruct (A5 i x f x2 f2 H1 H2 E1 E2) as [[X1 X2]|C1], (B5 i x2 f2 x3 f3 E1 E2 H3 H4) as [[X3 X4]|C2]; subst; auto. right. eapply T; eauto.
Qed.
Lemma better_trans p Box x1 f1 x2 f2 x3 f3 : better_point p Box x1 f1 x2 f2 -> better_point p Box x2 f2 x3 f3 -> better_point p Box x1 f1 x3 f3.
Proof. intros (A1 & A2 & A3) (B1 & B2 & B3). split; [exact B1|]. split; [exact B2|]. eapply dle_trans; eauto. Qed.
Lemma evals_trans {P} m n (s1 s2 s3 : pop P) : evals m s1 s2 -> evals n s2 s3 -> evals (m + n) s1 s3.
Proof. unfold evals. intros A B. rewrite B, <- wrap64_add, A, wrap64_add. f_equal. lia. Qed.
Lemma obj_vget f : length f = 1 -> vget f 0 = Ok (obj f).
Proof. destruct f as [|a [|]]; try discriminate. reflexivity. Qed.
Lemma forall_upd {A} (Q : A -> Prop) l i v : Forall Q l -> Q v -> Forall Q (upd l i v).
Proof. intros F H. apply Forall_forall. intros y Hy. apply upd_in in Hy. destruct Hy as [->|Hy]; [exact H|]. rewrite Forall_forall in F. auto. Qed.
Lemma urr_ok {G} (r : rng G) (RC : rng_contract r) l u : dle l u = true -> always (uniform_real_from_range r l u) (within l u) (fun e => e = InvalidArgument /\ ~ ok_real l u).
Proof.
  intros H g. destruct (uniform_real_spec r RC l u true g H) as [(v & E & W & _)|(E & N)]; unfold uniform_real_from_range; rewrite E; auto.
Qed.
