(** The Lennard-Jones cluster. *)
From Coq Require Import List ZArith Lia Reals Lra Bool.
Import ListNotations.
From Verif Require Import Outcome BaseFacts Problem TestArith TestProblems SpecTest TestFacts TestFacts2.

(** every read is within the decision vector, for any arithmetic *)
Lemma vget_in {A} (x : list A) i : (i < length x)%nat -> exists v, vget x i = Ok v.
Proof. intros H. unfold vget. destruct (nth_error x i) eqn:E; [eauto |]. apply nth_error_None in E. lia. Qed.
Lemma lj_coord_in {A} (o : arith A) x N a k : length x = (3 * N - 6)%nat -> (3 <= N)%nat -> (a < N)%nat -> (k < 3)%nat -> exists v, lj_coord o x a k = Ok v.
Proof.
  intros L N3 H K. unfold lj_coord. destruct a as [| [| [| a]]]; [eauto | | | apply vget_in; lia].
  - destruct (Nat.ltb k 2); [eauto | apply vget_in; lia].
  - destruct (Nat.eqb k 0); [eauto | apply vget_in; lia].
Qed.
Lemma mfold_ok {S B} (f : S -> B -> outcome S) (P : B -> Prop) : (forall s b, P b -> exists s', f s b = Ok s') -> forall l s, (forall b, In b l -> P b) -> exists s', mfold f s l = Ok s'.
Proof.
  intros H. induction l as [| b l IH]; intros s I; cbn [mfold]; [eauto |]. destruct (H s b (I b (or_introl eq_refl))) as [s' ->]. cbn [bind]. apply IH. intros; apply I; now right.
Qed.
Lemma lj_pairs_in N i j : In (i, j) (lj_pairs N) <-> (i < j < N)%nat.
Proof.
  unfold lj_pairs. rewrite in_flat_map. split.
  - intros [a [A B]]. apply in_seq in A. apply in_map_iff in B. destruct B as [b [E B]]. inversion E; subst. apply in_seq in B. lia.
  - intros H. exists i. split; [apply in_seq; lia |]. apply in_map. apply in_seq. lia.
Qed.
Lemma lj_dist_in {A} (o : arith A) x N i j : length x = (3 * N - 6)%nat -> (3 <= N)%nat -> (i < N)%nat -> (j < N)%nat -> exists v, lj_dist o x i j = Ok v.
Proof.
  intros L N3 I J. unfold lj_dist.
  destruct (lj_coord_in o x N i 0 L N3 I) as [a0 ->]; [lia |]. destruct (lj_coord_in o x N j 0 L N3 J) as [b0 ->]; [lia |].
  destruct (lj_coord_in o x N i 1 L N3 I) as [a1 ->]; [lia |]. destruct (lj_coord_in o x N j 1 L N3 J) as [b1 ->]; [lia |].
  destruct (lj_coord_in o x N i 2 L N3 I) as [a2 ->]; [lia |]. destruct (lj_coord_in o x N j 2 L N3 J) as [b2 ->]; [lia |].
  cbn [bind]. eauto.
Qed.
Lemma lj_ctor_spec atoms : (0 <= atoms)%Z ->
  (lj_ctor atoms = Ok atoms <-> (3 <= atoms /\ 3 * atoms - 6 < 2 ^ 32)%Z) /\
  (lj_ctor atoms = Throw InvalidArgument <-> (atoms < 3)%Z) /\ (lj_ctor atoms = Throw OverflowError <-> (3 <= atoms /\ 2 ^ 32 <= 3 * atoms - 6)%Z).
Proof.
  intros H. unfold lj_ctor. destruct (Z.ltb_spec atoms 3); [split; [| split]; split; intros; try discriminate; try lia; reflexivity |].
  assert (D : ((2 ^ 32 - 1) / 3 = 1431655765)%Z) by reflexivity. rewrite D. destruct (Z.ltb_spec 1431655765 (atoms - 2)); (split; [| split]); split; intros; try discriminate; try lia; reflexivity.
Qed.
Lemma lj_dim_exact atoms : (0 <= atoms)%Z -> lj_ctor atoms = Ok atoms -> lj_dim atoms = (3 * atoms - 6)%Z.
Proof.
  intros P H. apply lj_ctor_spec in H; [| exact P]. unfold lj_dim. rewrite Zminus_mod_idemp_l. apply Z.mod_small. lia.
Qed.
Lemma lj_defined {A} (o : arith A) atoms x : lj_ctor (Z.of_nat atoms) = Ok (Z.of_nat atoms) -> Z.of_nat (length x) = lj_dim (Z.of_nat atoms) -> exists v, lj_fitness o atoms x = Ok [v].
Proof.
  intros C L. rewrite lj_dim_exact in L; [| lia | exact C]. apply lj_ctor_spec in C; [| lia].
  unfold lj_fitness. destruct (mfold_ok (lj_pair o x) (fun ij => (fst ij < snd ij < atoms)%nat)) with (l := lj_pairs atoms) (s := ar_lit o 0 1) as [s E].
  - intros s [i j] H. cbn [fst snd] in H. unfold lj_pair. cbn [fst snd]. destruct (lj_dist_in o x atoms i j) as [v ->]; [lia .. |]. cbn [bind]. destruct (ar_eqb o v _); eauto.
  - intros [i j] H. now apply lj_pairs_in in H.
  - rewrite E. cbn [bind]. eauto.
Qed.

Local Open Scope R_scope.
(** values *)
Lemma coordinates_nth x a k : length x <> 0%nat -> (k < 3)%nat ->
  nth (3 * a + k) (coordinates x) 0 = match a with O => 0 | S O => if Nat.ltb k 2 then 0 else nth 0 x 0 | S (S O) => if Nat.eqb k 0 then 0 else nth k x 0 | _ => nth (3 * (a - 2) + k) x 0 end.
Proof.
  intros L K. destruct x as [| x0 x]; [now elim L |]. unfold coordinates. cbn [firstn skipn repeat app].
  destruct k as [| [| [| k]]]; [ | | | lia]; (destruct a as [| [| [| a]]]; [reflexivity .. |]).
  all: replace (3 * (S (S (S a)) - 2))%nat with (3 * a + 3)%nat by lia; replace (3 * S (S (S a)))%nat with (3 * a + 9)%nat by lia.
  - replace (3 * a + 9 + 0)%nat with (7 + (3 * a + 2))%nat by lia. replace (3 * a + 3 + 0)%nat with (S (3 * a + 2)) by lia. reflexivity.
  - replace (3 * a + 9 + 1)%nat with (7 + (3 * a + 3))%nat by lia. replace (3 * a + 3 + 1)%nat with (S (3 * a + 3)) by lia. reflexivity.
  - replace (3 * a + 9 + 2)%nat with (7 + (3 * a + 4))%nat by lia. replace (3 * a + 3 + 2)%nat with (S (3 * a + 4)) by lia. reflexivity.
Qed.
Lemma lj_coord_R x N a k : length x = (3 * N - 6)%nat -> (3 <= N)%nat -> (a < N)%nat -> (k < 3)%nat -> lj_coord Rar x a k = Ok (nth (3 * a + k) (coordinates x) 0).
Proof.
  intros L N3 H K. rewrite coordinates_nth by lia. unfold lj_coord. destruct a as [| [| [| a]]]; rewrite ?lit1; [reflexivity | | | apply vget_nth; lia].
  - destruct (Nat.ltb k 2); [reflexivity | apply vget_nth; lia].
  - destruct (Nat.eqb k 0); [reflexivity | apply vget_nth; lia].
Qed.
Lemma rpow_2 a : rpow a 2 = a ^ 2.
Proof. change 2 with (IZR (Z.of_nat 2)) at 1. now rewrite rpow_nat. Qed.
Lemma rpow_m3 a : 0 < a -> rpow a (-3) = / a ^ 3.
Proof. intros H. unfold rpow. destruct (Rlt_dec 0 a); [| contradiction]. replace (-3) with (- INR 3) by (cbn; lra). rewrite Rpower_Ropp, Rpower_pow; auto. Qed.
Lemma square_distance_nonneg x i j : 0 <= square_distance x i j.
Proof. unfold square_distance. cbv zeta. pose proof (pow2_ge_0 (nth (3 * i + 0) (coordinates x) 0 - nth (3 * j + 0) (coordinates x) 0)). pose proof (pow2_ge_0 (nth (3 * i + 1) (coordinates x) 0 - nth (3 * j + 1) (coordinates x) 0)). pose proof (pow2_ge_0 (nth (3 * i + 2) (coordinates x) 0 - nth (3 * j + 2) (coordinates x) 0)). lra. Qed.
Lemma lj_dist_R x N i j : length x = (3 * N - 6)%nat -> (3 <= N)%nat -> (i < N)%nat -> (j < N)%nat -> lj_dist Rar x i j = Ok (square_distance x i j).
Proof.
  intros L N3 I J. unfold lj_dist. rewrite !(lj_coord_R x N) by (assumption || lia). cbn [bind]. rewrite !lit1. cbn [ar_pow ar_sub ar_add Rar]. rewrite !rpow_2. reflexivity.
Qed.
Definition pair_energy (x : list R) (ij : nat * nat) : R := let r2 := square_distance x (fst ij) (snd ij) in / r2 ^ 6 - / r2 ^ 3.
Lemma lj_pair_R x N f i j : length x = (3 * N - 6)%nat -> (3 <= N)%nat -> (i < N)%nat -> (j < N)%nat ->
  lj_pair Rar x f (i, j) = Ok (if Req_EM_T (square_distance x i j) 0 then ar_huge Rar else f + pair_energy x (i, j)).
Proof.
  intros L N3 I J. unfold lj_pair. cbn [fst snd]. rewrite (lj_dist_R x N) by assumption. cbn [bind]. rewrite !lit1. cbn [ar_eqb Rar]. destruct (Req_EM_T _ 0) as [E | E]; [reflexivity |].
  f_equal. cbn [ar_add ar_sub ar_pow Rar]. f_equal. unfold pair_energy. cbn [fst snd]. cbv zeta. pose proof (square_distance_nonneg x i j).
  rewrite rpow_2, rpow_m3 by lra. f_equal. field. exact E.
Qed.
Lemma sum_shift l : forall f, fold_left Rplus l f = f + fold_right Rplus 0 l.
Proof. induction l as [| a l IH]; intros f; cbn [fold_left fold_right]; [ring | rewrite IH; ring]. Qed.
Lemma filter_seq i : forall m, filter (fun ij => Nat.ltb (fst ij) (snd ij)) (map (pair i) (seq 0 m)) = map (pair i) (seq (i + 1) (m - (i + 1))).
Proof.
  induction m as [| m IH]; [reflexivity |]. rewrite seq_S, map_app, filter_app, IH. cbn [map filter fst snd plus].
  destruct (Nat.ltb_spec i m).
  - replace (S m - (i + 1))%nat with (S (m - (i + 1))) by lia. rewrite seq_S, map_app. cbn [map]. replace (i + 1 + (m - (i + 1)))%nat with m by lia. reflexivity.
  - replace (S m - (i + 1))%nat with 0%nat by lia. replace (m - (i + 1))%nat with 0%nat by lia. reflexivity.
Qed.
Lemma filter_flat {B C} (p : C -> bool) (f : B -> list C) l : filter p (flat_map f l) = flat_map (fun b => filter p (f b)) l.
Proof. induction l as [| b l IH]; cbn; [reflexivity |]. now rewrite filter_app, IH. Qed.
Lemma list_prod_flat {B C} (l : list B) (k : list C) : list_prod l k = flat_map (fun b => map (pair b) k) l.
Proof. induction l as [| b l IH]; cbn; [reflexivity |]. now rewrite IH. Qed.
Lemma flat_map_ext_in' {B C} (f g : B -> list C) l : (forall b, In b l -> f b = g b) -> flat_map f l = flat_map g l.
Proof. induction l as [| b l IH]; intros H; cbn; [reflexivity |]. rewrite H by now left. rewrite IH; [reflexivity |]. intros; apply H; now right. Qed.
Lemma lj_pairs_eq N : (1 <= N)%nat -> lj_pairs N = atom_pairs N.
Proof.
  intros H. unfold lj_pairs, atom_pairs. rewrite list_prod_flat, filter_flat. rewrite (flat_map_ext_in' (fun b => filter _ _) (fun i => map (pair i) (seq (i + 1) (N - (i + 1))))) by (intros; apply filter_seq).
  destruct N as [| m]; [lia |]. rewrite (seq_S m 0), flat_map_app. cbn [flat_map plus]. replace (S m - 1)%nat with m by lia. replace (S m - (m + 1))%nat with 0%nat by lia. cbn [seq map app]. rewrite app_nil_r. reflexivity.
Qed.
Lemma atom_pairs_in N i j : (1 <= N)%nat -> In (i, j) (atom_pairs N) <-> (i < j < N)%nat.
Proof. intros H. rewrite <- lj_pairs_eq by exact H. apply lj_pairs_in. Qed.
Lemma lj_value atoms x : lj_ctor (Z.of_nat atoms) = Ok (Z.of_nat atoms) -> Z.of_nat (length x) = lj_dim (Z.of_nat atoms) -> all_apart atoms x ->
  lj_fitness Rar atoms x = Ok [lennard_jones_energy atoms x].
Proof.
  intros C L AP. rewrite lj_dim_exact in L; [| lia | exact C]. apply lj_ctor_spec in C; [| lia]. unfold lj_fitness.
  assert (E : forall l f, (forall ij, In ij l -> (fst ij < snd ij < atoms)%nat) -> mfold (lj_pair Rar x) f l = Ok (f + fold_right Rplus 0 (map (pair_energy x) l))).
  { induction l as [| [i j] l IH]; intros f H; cbn [mfold map fold_right]; [f_equal; ring |]. assert (IJ := H (i, j) (or_introl eq_refl)). cbn [fst snd] in IJ.
    rewrite (lj_pair_R x atoms) by lia. cbn [bind]. destruct (Req_EM_T _ 0) as [Z | _]; [now apply AP in Z |]. rewrite IH by (intros; apply H; now right). f_equal. ring. }
  rewrite E by (intros [i j] H; now apply lj_pairs_in in H). cbn [bind]. rewrite !lit1. rewrite lj_pairs_eq by lia. cbn [ar_mul Rar]. f_equal. f_equal. rewrite Rplus_0_l. reflexivity.
Qed.
(** a pair contributes at least -1 *)
Lemma pair_low x ij : square_distance x (fst ij) (snd ij) <> 0 -> - / 4 <= pair_energy x ij.
Proof.
  intros H. unfold pair_energy. cbv zeta. set (r := square_distance _ _ _) in *. replace (/ r ^ 6 - / r ^ 3) with (/ r ^ 3 * / r ^ 3 - / r ^ 3) by (field; exact H).
  set (s := / r ^ 3). pose proof (Rle_0_sqr (s - / 2)) as Q. unfold Rsqr in Q. lra.
Qed.
Lemma huge_pos : 0 <= ar_huge Rar.
Proof. cbn [ar_huge Rar]. apply Rmult_le_pos; [apply IZR_le; lia | apply pow_le; lra]. Qed.
Lemma lj_low atoms x : lj_ctor (Z.of_nat atoms) = Ok (Z.of_nat atoms) -> Z.of_nat (length x) = lj_dim (Z.of_nat atoms) ->
  exists v, lj_fitness Rar atoms x = Ok [v] /\ - INR (length (atom_pairs atoms)) <= v.
Proof.
  intros C L. rewrite lj_dim_exact in L; [| lia | exact C]. apply lj_ctor_spec in C; [| lia]. unfold lj_fitness.
  assert (E : forall l f, (forall ij, In ij l -> (fst ij < snd ij < atoms)%nat) -> exists f', mfold (lj_pair Rar x) f l = Ok f' /\ (f - INR (length l) / 4 <= f' \/ - INR (length l) / 4 <= f')).
  { induction l as [| [i j] l IH]; intros f H; cbn [mfold]; [exists f; split; [reflexivity | left; cbn; lra] |]. assert (IJ := H (i, j) (or_introl eq_refl)). cbn [fst snd] in IJ.
    rewrite (lj_pair_R x atoms) by lia. cbn [bind]. cbn [length]. rewrite S_INR. destruct (Req_EM_T _ 0) as [Z | Z].
    - destruct (IH (ar_huge Rar)) as [f' [-> B]]; [intros; apply H; now right |]. exists f'. split; [reflexivity |]. pose proof huge_pos. pose proof (pos_INR (length l)). right. lra.
    - destruct (IH (f + pair_energy x (i, j))) as [f' [-> B]]; [intros; apply H; now right |]. exists f'. split; [reflexivity |]. pose proof (pair_low x (i, j) Z). destruct B; [left | right]; lra. }
  destruct (E (lj_pairs atoms) (ar_lit Rar 0 1)) as [f' [-> B]]; [intros [i j] H; now apply lj_pairs_in in H |]. cbn [bind]. eexists. split; [reflexivity |]. rewrite !lit1 in *. cbn [ar_mul Rar].
  rewrite <- lj_pairs_eq by lia. destruct B; lra.
Qed.
(** coinciding atoms *)
Lemma lj_huge atoms x i j : lj_ctor (Z.of_nat atoms) = Ok (Z.of_nat atoms) -> Z.of_nat (length x) = lj_dim (Z.of_nat atoms) -> (i < j < atoms)%nat -> square_distance x i j = 0 ->
  exists v, lj_fitness Rar atoms x = Ok [v] /\ 4 * ar_huge Rar - INR (length (atom_pairs atoms)) <= v.
Proof.
  intros C L IJ0 Z0. rewrite lj_dim_exact in L; [| lia | exact C]. apply lj_ctor_spec in C; [| lia]. unfold lj_fitness.
  assert (E : forall l f, (forall ij, In ij l -> (fst ij < snd ij < atoms)%nat) ->
    exists f', mfold (lj_pair Rar x) f l = Ok f' /\ (f - INR (length l) / 4 <= f' \/ ar_huge Rar - INR (length l) / 4 <= f') /\ (In (i, j) l -> ar_huge Rar - INR (length l) / 4 <= f')).
  { induction l as [| [a b] l IH]; intros f H; cbn [mfold]; [exists f; split; [reflexivity | split; [left; cbn; lra | intros []]] |]. assert (IJ := H (a, b) (or_introl eq_refl)). cbn [fst snd] in IJ.
    rewrite (lj_pair_R x atoms) by lia. cbn [bind]. cbn [length]. rewrite S_INR. destruct (Req_EM_T _ 0) as [Z | Z].
    - destruct (IH (ar_huge Rar)) as [f' [-> [B _]]]; [intros; apply H; now right |]. exists f'. split; [reflexivity |]. assert (ar_huge Rar - (INR (length l) + 1) / 4 <= f') by (destruct B; lra). auto.
    - destruct (IH (f + pair_energy x (a, b))) as [f' [-> [B B']]]; [intros; apply H; now right |]. exists f'. split; [reflexivity |]. pose proof (pair_low x (a, b) Z). split; [destruct B; [left | right]; lra |].
      intros [Q | Q]; [inversion Q; subst; contradiction |]. specialize (B' Q). lra. }
  destruct (E (lj_pairs atoms) (ar_lit Rar 0 1)) as [f' [-> [_ B]]]; [intros [a b] H; now apply lj_pairs_in in H |]. cbn [bind]. eexists. split; [reflexivity |]. rewrite !lit1 in *. 
  rewrite <- lj_pairs_eq by lia. assert (I : In (i, j) (lj_pairs atoms)) by now apply lj_pairs_in. specialize (B I). change (ar_mul Rar 4 f') with (4 * f'). lra.
Qed.
Lemma lj_example : lj_ctor 3 = Ok 3%Z /\ lj_dim 3 = 3%Z /\ all_apart 3 [1; 1; 0] /\ lennard_jones_energy 3 [1; 1; 0] = - 7 / 16.
Proof.
  split; [reflexivity |]. split; [reflexivity |]. split.
  - intros i j H. destruct i as [| [| [| i]]]; destruct j as [| [| [| j]]]; try lia; unfold square_distance, coordinates; cbn; lra.
  - unfold lennard_jones_energy, square_distance, coordinates. cbn. field.
Qed.
