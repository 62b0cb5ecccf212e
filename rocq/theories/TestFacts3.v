(** The gradient of luksan_vlcek1. *)
From Coq Require Import List ZArith Lia Reals Lra Bool.
Import ListNotations.
From Verif Require Import Outcome BaseFacts Problem TestArith TestProblems SpecTest TestFacts TestFacts2.
Local Open Scope R_scope.

Definition lukC (i : nat) (x : list R) : R :=
  let a := nth i x 0 in let b := nth (i + 1) x 0 in let c := nth (i + 2) x 0 in
  3 * (b * b * b) + 2 * c - 5 + sin (b - c) * sin (b + c) + 4 * b - a * exp (a - b) - 3.
(** Component m of the fitness *)
Definition lukF (dim m : nat) (x : list R) : R := match m with 0 => rsum (fun i => rosT i x) (seq 0 (dim - 1)) | S m' => lukC m' x end.
Lemma luksan_con_ok x i : (i + 2 < length x)%nat -> luksan_con Rar x i = Ok (lukC i x).
Proof.
  intros L. unfold luksan_con. rewrite !vget_nth by lia. cbn [bind]. rewrite !lit1. cbn [ar_add ar_sub ar_mul ar_pow ar_sin ar_exp Rar].
  change (IZR 3) with (IZR (Z.of_nat 3)) at 2. rewrite rpow_nat. unfold lukC. cbv zeta. f_equal. ring.
Qed.
Lemma luksan_value x : (3 <= length x)%nat -> exists f, luksan_fitness Rar x = Ok f /\ length f = (length x - 1)%nat /\
  forall m, (m < length x - 1)%nat -> nth m f 0 = lukF (length x) m x.
Proof.
  intros L. unfold luksan_fitness. rewrite (sum_loop_ok (fun i => rosT i x)).
  2: { intros i I. apply in_seq in I. unfold luksan_term. rewrite !vget_nth by lia. cbn [bind]. rewrite !lit1. reflexivity. }
  cbn [bind]. rewrite vset_ok by (rewrite repeat_length; lia). cbn [bind]. set (f1 := upd _ _ _).
  assert (L1 : length f1 = (length x - 1)%nat) by (unfold f1; rewrite upd_length, repeat_length; lia).
  destruct (loop_inv (fun f i => bind (Ok (lukC i x)) (fun c => vset f (i + 1) c))
     (fun i f => length f = (length x - 1)%nat /\ nth 0 f 0 = nth 0 f1 0 /\ forall k, (k < i)%nat -> nth (k + 1) f 0 = lukC k x) (length x - 2) 0 f1) as (f & EF & LF & F0 & FK).
  { split; [exact L1 |]. split; [reflexivity |]. intros k K. lia. }
  { intros i f I (Lf & H0 & HK). cbn [bind]. rewrite vset_ok by lia. eexists. split; [reflexivity |]. split; [now rewrite upd_length |].
    split; [rewrite upd_nth by lia; destruct (Nat.eqb_spec 0 (i + 1)); [lia | exact H0] |].
    intros k K. rewrite upd_nth by lia. destruct (Nat.eqb_spec (k + 1) (i + 1)) as [E | N]; [now replace k with i by lia |]. apply HK. lia. }
  exists f. split.
  { rewrite <- EF. apply mfold_ext_in. intros i s I. apply in_seq in I. rewrite luksan_con_ok by lia. reflexivity. }
  split; [exact LF |]. intros m M. destruct m as [|m]; cbn [lukF].
  - rewrite F0. unfold f1. rewrite upd_nth by (rewrite repeat_length; lia). reflexivity.
  - rewrite <- FK by lia. now rewrite Nat.add_1_r.
Qed.
Lemma luksan_component m x : (3 <= length x)%nat -> (m < length x - 1)%nat -> component (luksan_fitness Rar) m x = lukF (length x) m x.
Proof. intros L M. destruct (luksan_value x L) as (f & E & _ & V). unfold component. rewrite E. now apply V. Qed.

(** The derivatives of a constraint *)
Definition lukA (i : nat) (x : list R) : R := let a := nth i x 0 in let b := nth (i + 1) x 0 in - (1 + a) * exp (a - b).
Definition lukB (i : nat) (x : list R) : R :=
  let a := nth i x 0 in let b := nth (i + 1) x 0 in let c := nth (i + 2) x 0 in
  9 * b * b + cos (b - c) * sin (b + c) + sin (b - c) * cos (b + c) + 4 + a * exp (a - b).
Definition lukK (i : nat) (x : list R) : R :=
  let b := nth (i + 1) x 0 in let c := nth (i + 2) x 0 in 2 - cos (b - c) * sin (b + c) + sin (b - c) * cos (b + c).
Lemma lukC_partial i x j : (j < length x)%nat -> partial (lukC i) x j (delta i j * lukA i x + delta (i + 1) j * lukB i x + delta (i + 2) j * lukK i x).
Proof. intros J. eapply pd_eq; [unfold lukC; cbv zeta; pd |]. cbv beta. unfold lukA, lukB, lukK. cbv zeta. ring. Qed.

Definition lukO (k : nat) (x : list R) : R := 400 * nth k x 0 * (nth k x 0 * nth k x 0 - nth (k + 1) x 0) + 2 * (nth k x 0 - 1).
Definition lukP (k : nat) (x : list R) : R := if Nat.leb 1 k then -200 * (nth (k - 1) x 0 * nth (k - 1) x 0 - nth k x 0) else 0.
Definition lukV (r i : nat) (x : list R) : R := match r with 0 => lukA i x | 1 => lukB i x | _ => lukK i x end.
Lemma luksan_gradient_ok x : (3 <= length x)%nat -> let dim := length x in
  exists g, luksan_gradient Rar x = Ok g /\ length g = (dim + 3 * (dim - 2))%nat /\
    (forall k, (k < dim)%nat -> nth k g 0 = (if Nat.ltb k (dim - 1) then lukO k x else 0) + lukP k x) /\
    (forall q r, (q < dim - 2)%nat -> (r < 3)%nat -> nth (dim + 3 * q + r) g 0 = lukV r q x).
Proof.
  intros L dim. unfold luksan_gradient. fold dim.
  destruct (loop_inv (fun g i => bind (Ok (nth i x 0)) (fun a => bind (Ok (nth (i + 1) x 0)) (fun b => bind (vget g i) (fun old =>
             bind (vset g i (old + (400 * a * (a * a - b) + 2 * (a - 1)))) (fun g1 => vset g1 (i + 1) (-200 * (a * a - b)))))))
    (fun i g => length g = (dim + 3 * (dim - 2))%nat /\ (forall k, (k < i)%nat -> nth k g 0 = lukO k x + lukP k x) /\ nth i g 0 = lukP i x)
    (dim - 1) 0 (repeat 0 (dim + 3 * (dim - 2)))) as (g & EG & LG & GK & GI).
  { split; [apply repeat_length |]. split; [intros k K; lia |]. cbn [lukP Nat.leb]. apply nth_repeat. }
  { intros i g I (Lg & HK & HI). cbn [bind]. rewrite vget_nth by lia. cbn [bind]. rewrite vset_ok by lia. cbn [bind].
    rewrite vset_ok by (rewrite upd_length; lia). eexists. split; [reflexivity |]. split; [now rewrite !upd_length |]. split.
    - intros k K. rewrite !upd_nth by (rewrite ?upd_length; lia). destruct (Nat.eqb_spec k (i + 1)); [lia |].
      destruct (Nat.eqb_spec k i) as [-> | N]; [| apply HK; lia]. rewrite HI. unfold lukO. ring.
    - rewrite !upd_nth by (rewrite ?upd_length; lia). destruct (Nat.eqb_spec (S i) (i + 1)); [| lia]. unfold lukP. destruct (Nat.leb_spec 1 (S i)); [| lia].
      replace (S i - 1)%nat with i by lia. now rewrite Nat.add_1_r. }
  match goal with |- exists g', bind (mfold ?ff ?gg _) _ = _ /\ _ => assert (EM : mfold ff gg (seq 0 (dim - 1)) = Ok g) end.
  { rewrite !lit1, <- EG. apply mfold_ext_in. intros i s I. apply in_seq in I. unfold dim in I. rewrite !vget_nth by lia. reflexivity. }
  rewrite EM. cbn [bind]. cbn [Nat.add] in GI.
  destruct (loop_inv (fun g i => bind (vset g (dim + 3 * i) (lukA i x)) (fun g1 => bind (vset g1 (dim + 1 + 3 * i) (lukB i x)) (fun g2 => vset g2 (dim + 2 + 3 * i) (lukK i x))))
    (fun i h => length h = length g /\ (forall k, (k < dim)%nat -> nth k h 0 = nth k g 0) /\ (forall q r, (q < i)%nat -> (r < 3)%nat -> nth (dim + 3 * q + r) h 0 = lukV r q x))
    (dim - 2) 0 g) as (h & EH & LH & HG & HV).
  { split; [reflexivity |]. split; [reflexivity |]. intros q r Q. lia. }
  { intros i h I (Lh & HK & HV). rewrite vset_ok by lia. cbn [bind]. rewrite vset_ok by (rewrite upd_length; lia). cbn [bind]. rewrite vset_ok by (rewrite !upd_length; lia).
    eexists. split; [reflexivity |]. split; [now rewrite !upd_length |]. split.
    - intros k K. rewrite !upd_nth by (rewrite ?upd_length; lia).
      destruct (Nat.eqb_spec k (dim + 2 + 3 * i)); [lia |]. destruct (Nat.eqb_spec k (dim + 1 + 3 * i)); [lia |]. destruct (Nat.eqb_spec k (dim + 3 * i)); [lia |]. now apply HK.
    - intros q r Q R3. rewrite !upd_nth by (rewrite ?upd_length; lia).
      destruct (Nat.eqb_spec (dim + 3 * q + r) (dim + 2 + 3 * i)); [replace r with 2%nat by lia; now replace q with i by lia |].
      destruct (Nat.eqb_spec (dim + 3 * q + r) (dim + 1 + 3 * i)); [replace r with 1%nat by lia; now replace q with i by lia |].
      destruct (Nat.eqb_spec (dim + 3 * q + r) (dim + 3 * i)); [replace r with 0%nat by lia; now replace q with i by lia |]. apply HV; lia. }
  exists h. split.
  { rewrite <- EH. apply mfold_ext_in. intros i s I. apply in_seq in I. unfold dim in I. rewrite !vget_nth by lia. cbn [bind]. rewrite !lit1. reflexivity. }
  split; [now rewrite LH |]. split; [| exact HV]. intros k K. rewrite HG by exact K.
  destruct (Nat.ltb_spec k (dim - 1)); [now apply GK |]. replace k with (dim - 1)%nat by lia. rewrite GI. ring.
Qed.

(** The pattern *)
Lemma triples_nth {A} (t : nat -> nat -> A) m : forall s k v, nth_error (flat_map (fun i => [t 0%nat i; t 1%nat i; t 2%nat i]) (seq s m)) k = Some v ->
  exists q r, (q < m)%nat /\ (r < 3)%nat /\ k = (3 * q + r)%nat /\ v = t r (s + q)%nat.
Proof.
  induction m as [|m IH]; intros s k v H; cbn [seq flat_map] in H; [destruct k; discriminate H |]. cbn [app] in H.
  destruct k as [|[|[|k]]]; cbn [nth_error] in H.
  - injection H as <-. exists 0%nat, 0%nat. do 3 (split; [lia |]). f_equal. lia.
  - injection H as <-. exists 0%nat, 1%nat. do 3 (split; [lia |]). f_equal. lia.
  - injection H as <-. exists 0%nat, 2%nat. do 3 (split; [lia |]). f_equal. lia.
  - apply IH in H. destruct H as (q & r & Q & R3 & -> & ->). exists (S q), r. do 3 (split; [lia |]). f_equal. lia.
Qed.
Lemma triples_length {A} (t : nat -> nat -> A) m s : length (flat_map (fun i => [t 0%nat i; t 1%nat i; t 2%nat i]) (seq s m)) = (3 * m)%nat.
Proof. revert s. induction m as [|m IH]; intros s; cbn [seq flat_map]; [reflexivity |]. rewrite app_length, IH. cbn [length]. lia. Qed.
Lemma luksan_gs_alt dim : luksan_gs dim = map (fun i => (0%nat, i)) (seq 0 dim) ++ flat_map (fun i => [((i + 1)%nat, (i + 0)%nat); ((i + 1)%nat, (i + 1)%nat); ((i + 1)%nat, (i + 2)%nat)]) (seq 0 (dim - 2)).
Proof. unfold luksan_gs. f_equal. apply flat_map_ext. intros i. now rewrite Nat.add_0_r. Qed.
Lemma luksan_gs_length dim : length (luksan_gs dim) = (dim + 3 * (dim - 2))%nat.
Proof.
  rewrite luksan_gs_alt, app_length, map_length, seq_length. f_equal. apply (triples_length (fun r i => ((i + 1)%nat, (i + r)%nat))).
Qed.
Lemma luksan_gs_nth dim k i j : nth_error (luksan_gs dim) k = Some (i, j) ->
  (i = 0 /\ j = k /\ k < dim)%nat \/ exists q r, (q < dim - 2 /\ r < 3 /\ k = dim + 3 * q + r /\ i = q + 1 /\ j = q + r)%nat.
Proof.
  rewrite luksan_gs_alt. intros H. destruct (Nat.lt_ge_cases k dim) as [K | K].
  - left. rewrite nth_error_app1 in H by now rewrite map_length, seq_length. apply (dense1_nth dim). now rewrite dense1.
  - right. rewrite nth_error_app2 in H by now rewrite map_length, seq_length. rewrite map_length, seq_length in H.
    apply (triples_nth (fun r i => ((i + 1)%nat, (i + r)%nat))) in H. destruct H as (q & r & Q & R3 & E & V). cbv beta in V. injection V as -> ->. exists q, r. repeat split; lia.
Qed.
Lemma luksan_gs_in dim i j : (j < dim)%nat -> (i < dim - 1)%nat -> (i = 0 \/ i = j + 1 \/ i = j \/ i + 1 = j)%nat -> In (i, j) (luksan_gs dim).
Proof.
  intros J I H. unfold luksan_gs. apply in_or_app. destruct (Nat.eq_dec i 0) as [-> | N].
  - left. apply in_map_iff. exists j. split; [reflexivity | apply in_seq; lia].
  - right. apply in_flat_map. exists (i - 1)%nat. split; [apply in_seq; lia |]. cbn [In].
    destruct H as [H | [H | [H | H]]]; [lia | left | right; left | right; right; left]; f_equal; lia.
Qed.
Lemma luksan_right dim : (3 <= dim)%nat -> gradient_right dim (dim - 1) (luksan_fitness Rar) (luksan_gradient Rar) (luksan_gs dim).
Proof.
  intros D x L. split.
  { destruct (luksan_value x) as (f & E & Lf & _); [lia |]. exists f. split; [exact E | lia]. }
  destruct (luksan_gradient_ok x) as (g & E & LG & G0 & GV); [lia |]. rewrite L in *. exists g. split; [exact E |]. split; [now rewrite luksan_gs_length |].
  assert (PF : forall i j d, (i < dim - 1)%nat -> (j < dim)%nat -> partial (lukF dim i) x j d -> partial (component (luksan_fitness Rar) i) x j d).
  { intros i j d I J H. eapply pd_ext; [lia | | exact H]. intros y Y. rewrite luksan_component by lia. now rewrite Y, L. }
  split.
  - intros k i j H. apply luksan_gs_nth in H. destruct H as [(-> & -> & K) | (q & r & Q & R3 & -> & -> & ->)].
    + split; [lia |]. apply PF; [lia .. |]. eapply pd_eq; [apply (rosenbrock_partial dim); [exact L | exact K] |]. rewrite G0 by exact K. reflexivity.
    + split; [lia |]. apply PF; [lia .. |]. rewrite Nat.add_1_r. cbn [lukF]. eapply pd_eq; [apply lukC_partial; lia |]. rewrite GV by lia. unfold delta.
      destruct r as [|[|[|r]]]; [| | | lia]; cbn [lukV];
        repeat match goal with |- context [Nat.eqb ?u ?v] => destruct (Nat.eqb_spec u v); try lia end; ring.
  - intros i j I J N. assert (NI : ~ (i = 0 \/ i = j + 1 \/ i = j \/ i + 1 = j)%nat) by (intros C; apply N; now apply luksan_gs_in).
    apply PF; [exact I | exact J |]. destruct i as [|i]; [lia |]. cbn [lukF]. eapply pd_eq; [apply lukC_partial; lia |]. unfold delta.
    destruct (Nat.eqb_spec i j), (Nat.eqb_spec (i + 1) j), (Nat.eqb_spec (i + 2) j); try lia; ring.
Qed.
