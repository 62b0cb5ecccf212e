From Coq Require Import List Bool Arith ZArith Lia Permutation.
From Verif Require Import Dbl Outcome StdSort BaseFacts Compare CompareFacts Constrained SpecConstrained ConstrainedFacts Problem Rng Generic GeneticOps Population Algo AlgSga AlgDe AlgNsga2 AlgGaco AlgoFacts2.
Import ListNotations.

(** ** Computations that end normally *)
Definition okp {A} (o : outcome A) (Q : A -> Prop) : Prop := exists a, o = Ok a /\ Q a.
Lemma okp_ret {A} (a : A) (Q : A -> Prop) : Q a -> okp (Ok a) Q.
Proof. intros H. exists a. auto. Qed.
Lemma okp_bind {A B} (m : outcome A) (f : A -> outcome B) (Q1 : A -> Prop) (Q : B -> Prop) : okp m Q1 -> (forall a, Q1 a -> okp (f a) Q) -> okp (bind m f) Q.
Proof. intros (a & -> & H) K. exact (K a H). Qed.
Lemma okp_weak {A} (o : outcome A) (Q Q' : A -> Prop) : okp o Q -> (forall a, Q a -> Q' a) -> okp o Q'.
Proof. intros (a & E & H) K. exists a. auto. Qed.
Lemma okp_vget {A} (l : list A) i (Q : A -> Prop) : i < length l -> (forall a, nth_error l i = Some a -> Q a) -> okp (vget l i) Q.
Proof. intros H K. destruct (vget_in_range l i H) as (a & E & N). exists a. auto. Qed.
Lemma okp_vset {A} (l : list A) i x (Q : list A -> Prop) : i < length l -> Q (upd l i x) -> okp (vset l i x) Q.
Proof. intros H K. exists (upd l i x). split; [now apply vset_in_range|exact K]. Qed.
Lemma okp_seq {S} (f : S -> nat -> outcome S) (I : nat -> S -> Prop) n : forall b s, I b s ->
  (forall i s, b <= i < b + n -> I i s -> okp (f s i) (I (Datatypes.S i))) -> okp (mfold f s (seq b n)) (I (b + n)).
Proof.
  induction n as [|n IH]; intros b s H K; cbn [seq mfold].
  - rewrite Nat.add_0_r. now apply okp_ret.
  - eapply okp_bind; [apply (K b s); [lia|exact H]|]. intros s' H'. replace (b + Datatypes.S n) with (Datatypes.S b + n) by lia. apply IH; [exact H'|]. intros i t Hi. apply K. lia.
Qed.
Lemma okp_mmap {A B} (f : A -> outcome B) (R : A -> B -> Prop) l : (forall a, In a l -> okp (f a) (R a)) -> okp (mmap f l) (Forall2 R l).
Proof.
  induction l as [|a l IH]; intros K; cbn [mmap].
  - apply okp_ret. constructor.
  - eapply okp_bind; [apply K; now left|]. intros b Hb. eapply okp_bind; [apply IH; intros; apply K; now right|]. intros bs Hbs. apply okp_ret. now constructor.
Qed.
Lemma okp_eq {A} (o : outcome A) a Q : okp o Q -> o = Ok a -> Q a.
Proof. intros (b & -> & H) E. injection E as <-. exact H. Qed.
Lemma F2_len {A B} (R : A -> B -> Prop) l l' : Forall2 R l l' -> length l = length l'.
Proof. induction 1; cbn; congruence. Qed.
Lemma F2_nth {A B} (R : A -> B -> Prop) l l' : Forall2 R l l' -> forall i b, nth_error l' i = Some b -> exists a, nth_error l i = Some a /\ R a b.
Proof. induction 1; intros [|i] c H1; cbn in *; try discriminate; [injection H1 as <-; eauto|eauto]. Qed.
Lemma F2_seq {B} (R : nat -> B -> Prop) n l : Forall2 R (seq 0 n) l -> forall i b, nth_error l i = Some b -> i < n /\ R i b.
Proof.
  intros H i b N. destruct (F2_nth _ _ _ H i b N) as (a & Na & K). assert (i < n) by (rewrite <- (seq_length n 0); apply nth_error_Some; congruence).
  split; [assumption|]. rewrite (nth_error_nth' _ 0) in Na by (rewrite seq_length; assumption). injection Na as <-. rewrite seq_nth in K by assumption. exact K.
Qed.

(** ** Rows *)
Lemma upd_app1 {A} (l1 l2 : list A) i x : i < length l1 -> upd (l1 ++ l2) i x = upd l1 i x ++ l2.
Proof. revert i. induction l1 as [|y l1 IH]; intros [|i] H; cbn in *; try lia; [reflexivity|]. rewrite IH by lia. reflexivity. Qed.
Lemma upd_app2 {A} (l1 l2 : list A) i x : upd (l1 ++ l2) (length l1 + i) x = l1 ++ upd l2 i x.
Proof. induction l1 as [|y l1 IH]; cbn; [reflexivity|]. now rewrite IH. Qed.
Lemma skipn_cons {A} (l : list A) : forall i, i < length l -> exists w, skipn i l = w :: skipn (S i) l.
Proof. induction l as [|y l IH]; intros [|i] H; cbn [length] in H; try lia; [exists y; reflexivity|]. destruct (IH i ltac:(lia)) as (w & E). exists w. exact E. Qed.
Lemma put_from_ok l : forall pre mid post, length mid = length l -> put_from l (length pre) (pre ++ mid ++ post) = Ok (pre ++ l ++ post).
Proof.
  intros pre mid post E. unfold put_from.
  enough (H : okp (mfold (fun row i => bind (vget l i) (fun v => vset row (length pre + i) v)) (pre ++ mid ++ post) (seq 0 (length l)))
    (fun row => row = pre ++ (firstn (0 + length l) l ++ skipn (0 + length l) mid) ++ post)).
  { destruct H as (a & -> & ->). cbn [Nat.add]. rewrite firstn_all, skipn_all2 by lia. now rewrite app_nil_r. }
  apply (okp_seq _ (fun i row => row = pre ++ (firstn i l ++ skipn i mid) ++ post)).
  - reflexivity.
  - intros i row Hi ->. apply okp_bind with (Q1 := fun v => nth_error l i = Some v).
    + apply okp_vget; [lia|auto].
    + intros v Hv. apply okp_vset.
      * rewrite !app_length, firstn_length, skipn_length. lia.
      * rewrite upd_app2. f_equal. rewrite <- app_assoc.
        assert (E1 : i = length (firstn i l) + 0) by (rewrite firstn_length; lia). rewrite E1 at 3. rewrite upd_app2.
        assert (E2 : exists w, skipn i mid = w :: skipn (S i) mid).
        { apply skipn_cons. lia. }
        destruct E2 as (w & ->). cbn [upd app]. rewrite <- !app_assoc.
        assert (E3 : firstn (S i) l = firstn i l ++ [v]).
        { clear - Hv. revert i Hv. induction l as [|y l IH]; intros [|i] Hv; cbn in *; try discriminate; [now injection Hv as ->|]. now rewrite <- (IH i Hv). }
        rewrite E3, <- app_assoc. reflexivity.
Qed.
Lemma write_row_ok row pen x f : length row = 1 + length x + length f -> write_row row pen x f = Ok (pen :: x ++ f).
Proof.
  intros E. destruct row as [|y row]; [discriminate|]. cbn [length] in E. unfold write_row. cbn [vset Nat.ltb Nat.leb length bind upd].
  assert (S1 : row = firstn (length x) row ++ firstn (length f) (skipn (length x) row) ++ []).
  { rewrite app_nil_r. rewrite (firstn_all2 (n := length f)) by (rewrite skipn_length; lia). now rewrite firstn_skipn. }
  set (m1 := firstn (length x) row) in S1. set (m2 := firstn (length f) (skipn (length x) row)) in S1.
  assert (L1 : length m1 = length x) by (unfold m1; rewrite firstn_length; lia). assert (L2 : length m2 = length f) by (unfold m2; rewrite firstn_length, skipn_length; lia). clearbody m1 m2.
  unfold vset. cbn [length Nat.ltb Nat.leb bind upd]. subst row. rewrite app_nil_r in *.
  pose proof (put_from_ok x [pen] m1 m2 L1) as H1. cbn [app length] in H1. rewrite H1. cbn [bind].
  pose proof (put_from_ok f (pen :: x) m2 [] L2) as H2. cbn [app length] in H2. rewrite !app_nil_r in H2. exact H2.
Qed.
Lemma map_nth_self {A} (d : A) l : map (fun k => nth k l d) (seq 0 (length l)) = l.
Proof. induction l as [|y l IH]; cbn [length seq map nth]; [reflexivity|]. f_equal. rewrite <- seq_shift, map_map. exact IH. Qed.
Lemma row_x_ok pen x f : row_x (length x) (pen :: x ++ f) = Ok x.
Proof.
  unfold row_x. rewrite (mmap_pure _ (fun k => nth k x NaN)).
  - f_equal. apply map_nth_self.
  - intros k Hk. apply in_seq in Hk. cbn [Nat.add]. unfold vget. cbn [nth_error]. rewrite nth_error_app1 by lia. rewrite (nth_error_nth' x NaN) by lia. reflexivity.
Qed.
Lemma row_f_ok pen x f : row_f (length x) (length f) (pen :: x ++ f) = Ok f.
Proof.
  unfold row_f. rewrite (mmap_pure _ (fun k => nth k f NaN)).
  - f_equal. apply map_nth_self.
  - intros k Hk. apply in_seq in Hk. cbn [Nat.add]. unfold vget. cbn [nth_error]. rewrite nth_error_app2 by lia. replace (length x + k - length x) with k by lia. rewrite (nth_error_nth' f NaN) by lia. reflexivity.
Qed.

(** A row of the archive with a point that satisfies Pt *)
Definition good_row (nx nf : nat) (Pt : list dbl -> list dbl -> Prop) (row : list dbl) : Prop :=
  exists p x f, row = p :: x ++ f /\ length x = nx /\ length f = nf /\ Pt x f.
Definition good_arch (ker nx nf : nat) (Pt : list dbl -> list dbl -> Prop) (arch : list (list dbl)) : Prop :=
  length arch = ker /\ forall row, In row arch -> good_row nx nf Pt row.
Definition arch_shape (ker nx nf : nat) (arch : list (list dbl)) : Prop := length arch = ker /\ forall row, In row arch -> length row = 1 + nx + nf.
Lemma good_row_len nx nf Pt row : good_row nx nf Pt row -> length row = 1 + nx + nf.
Proof. intros (p & x & f & -> & <- & <- & _). cbn. rewrite app_length. reflexivity. Qed.
Lemma good_arch_shape ker nx nf Pt arch : good_arch ker nx nf Pt arch -> arch_shape ker nx nf arch.
Proof. intros (L & H). split; [exact L|]. intros row Hr. eapply good_row_len, H, Hr. Qed.
Lemma upd_In {A} (l : list A) i x y : In y (upd l i x) -> y = x \/ In y l.
Proof. revert i. induction l as [|z l IH]; intros [|i] H; cbn in *; try tauto; [destruct H; [left; congruence|tauto]|]. destruct H as [H|H]; [tauto|]. destruct (IH i H); tauto. Qed.

Section G.
Context (srt : sorter) (SC : sort_contract srt) (a : gaco_params) (KER : 2 <= ga_ker a) (nx nf : nat) (NF : 1 <= nf) (Pt : list dbl -> list dbl -> Prop).
Notation ker := (ga_ker a).

Lemma first_ok X F pens sl arch : length X = length F -> ker <= length X -> length pens = length X -> Permutation (seq 0 (length pens)) sl ->
  (forall i x f, nth_error X i = Some x -> nth_error F i = Some f -> length x = nx /\ length f = nf /\ Pt x f) -> arch_shape ker nx nf arch ->
  okp (first_archive a X F pens sl arch) (fun arch' => length arch' = ker /\
    forall i, i < ker -> exists j p x f, nth_error sl i = Some j /\ nth_error pens j = Some p /\ nth_error X j = Some x /\ nth_error F j = Some f /\ nth_error arch' i = Some (p :: x ++ f)).
Proof.
  intros LX LK LP PM HX (LA & SA). unfold first_archive.
  apply (okp_weak _ (fun arch' => length arch' = ker /\ (forall row, In row arch' -> length row = 1 + nx + nf) /\
    forall i, i < 0 + ker -> exists j p x f, nth_error sl i = Some j /\ nth_error pens j = Some p /\ nth_error X j = Some x /\ nth_error F j = Some f /\ nth_error arch' i = Some (p :: x ++ f))).
  - apply (okp_seq _ (fun n arch' => length arch' = ker /\ (forall row, In row arch' -> length row = 1 + nx + nf) /\
      forall i, i < n -> exists j p x f, nth_error sl i = Some j /\ nth_error pens j = Some p /\ nth_error X j = Some x /\ nth_error F j = Some f /\ nth_error arch' i = Some (p :: x ++ f))).
    + split; [exact LA|]. split; [exact SA|]. intros i Hi. lia.
    + intros i arch' Hi (L1 & S1 & H1). pose proof (Permutation_length PM) as PL. rewrite seq_length in PL.
      apply okp_bind with (Q1 := fun j => nth_error sl i = Some j); [apply okp_vget; [lia|auto]|]. intros j Hj.
      assert (j < length X). { apply nth_error_In in Hj. apply (Permutation_in _ (Permutation_sym PM)) in Hj. apply in_seq in Hj. lia. }
      apply okp_bind with (Q1 := fun p => nth_error pens j = Some p); [apply okp_vget; [lia|auto]|]. intros p Hp.
      apply okp_bind with (Q1 := fun x => nth_error X j = Some x); [apply okp_vget; [lia|auto]|]. intros x Hx.
      apply okp_bind with (Q1 := fun f => nth_error F j = Some f); [apply okp_vget; [lia|auto]|]. intros f Hf.
      apply okp_bind with (Q1 := fun row => nth_error arch' i = Some row); [apply okp_vget; [lia|auto]|]. intros row Hr.
      destruct (HX j x f Hx Hf) as (Lx & Lf & _). rewrite write_row_ok by (rewrite (S1 row (nth_error_In _ _ Hr)); lia). cbn [bind].
      apply okp_vset; [lia|]. split; [now rewrite upd_length|]. split.
      * intros row' Hr'. apply upd_In in Hr'. destruct Hr' as [->|Hr']; [cbn; rewrite app_length; lia|auto].
      * intros i' Hi'. destruct (Nat.eq_dec i' i) as [->|NE].
        -- exists j, p, x, f. rewrite nth_error_upd_eq by lia. auto.
        -- destruct (H1 i' ltac:(lia)) as (j' & p' & x' & f' & A1 & A2 & A3 & A4 & A5). exists j', p', x', f'. rewrite nth_error_upd_neq by congruence. auto.
  - intros arch' (L & _ & H). split; [exact L|exact H].
Qed.

Lemma distinct_ok pens sp : length pens = 2 * ker -> Permutation (seq 0 (length pens)) sp ->
  okp (distinct a pens sp) (fun nl => 1 <= length nl <= 2 * ker /\ (forall i, In i nl -> i < 2 * ker) /\ nth_error nl 0 = Some 0).
Proof.
  clear - KER. intros LP PM. pose proof (Permutation_length PM) as PL. rewrite seq_length in PL. unfold distinct.
  assert (IN : forall i s, nth_error sp i = Some s -> s < length pens). { intros i s H. apply nth_error_In in H. apply (Permutation_in _ (Permutation_sym PM)) in H. apply in_seq in H. lia. }
  apply okp_bind with (Q1 := fun _ => True); [apply okp_vget; [lia|auto]|]. intros s0 _.
  eapply okp_bind.
  - apply (okp_seq _ (fun j st => fst st <= j /\ 1 <= length (snd st) <= j /\ (forall i, In i (snd st) -> i < j) /\ nth_error (snd st) 0 = Some 0)).
    + cbn [fst snd length nth_error]. split; [destruct (Nat.ltb s0 ker); lia|]. split; [lia|]. split; [intros i [<-|[]]; lia|reflexivity].
    + intros j st Hj (A1 & A2 & A3 & A4).
      apply okp_bind with (Q1 := fun s => s < length pens); [apply okp_vget; [lia|intros s; apply IN]|]. intros sj Hsj.
      apply okp_bind with (Q1 := fun s => s < length pens); [apply okp_vget; [lia|intros s; apply IN]|]. intros sc Hsc.
      apply okp_bind with (Q1 := fun _ => True); [apply okp_vget; [lia|auto]|]. intros pj _.
      apply okp_bind with (Q1 := fun _ => True); [apply okp_vget; [lia|auto]|]. intros pc _.
      apply okp_ret. destruct (dlt _ _); cbn [fst snd].
      * split; [lia|]. split; [lia|]. split; [intros i Hi; pose proof (A3 i Hi); lia|exact A4].
      * rewrite app_length. cbn [length]. split; [lia|]. split; [lia|]. split.
        -- intros i Hi. apply in_app_or in Hi. destruct Hi as [Hi|[<-|[]]]; [pose proof (A3 i Hi); lia|lia].
        -- rewrite nth_error_app1 by lia. exact A4.
  - intros st (_ & A2 & A3 & A4). apply okp_ret. split; [lia|]. split; [intros i Hi; pose proof (A3 i Hi); lia|exact A4].
Qed.

Definition next_mark (k : ants) : Z :=
  let m := if ((an_evalstop k =? 1) || (2 <? an_evalstop k))%Z then u32 (an_mark k + 1) else an_mark k in if (Z.of_nat (ga_ngm a) <? m)%Z then 1%Z else m.
Lemma update_ok X F pens sl k arch : length X = length F -> ker <= length X -> length pens = length X -> Permutation (seq 0 (length pens)) sl ->
  (forall i x f, nth_error X i = Some x -> nth_error F i = Some f -> length x = nx /\ length f = nf /\ Pt x f) -> good_arch ker nx nf Pt arch ->
  okp (update_archive srt a X F pens sl k arch) (fun ka => good_arch ker nx nf Pt (snd ka) /\
    an_oracle (fst ka) = an_oracle k /\ an_q (fst ka) = an_q k /\ an_counter (fst ka) = an_counter k /\ an_arch (fst ka) = an_arch k /\ an_evalstop (fst ka) = an_evalstop k /\ an_mark (fst ka) = next_mark k).
Proof.
  intros LX LK LP PM HX (LA & GA). pose proof (Permutation_length PM) as PL. rewrite seq_length in PL. unfold update_archive.
  apply okp_bind with (Q1 := fun x => nth_error X 0 = Some x); [apply okp_vget; [lia|auto]|]. intros x0 H0.
  apply okp_bind with (Q1 := fun x => nth_error F 0 = Some x); [apply okp_vget; [lia|auto]|]. intros f0 H1.
  destruct (HX 0 x0 f0 H0 H1) as (-> & -> & _).
  apply okp_bind with (Q1 := fun r => good_row nx nf Pt r); [apply okp_vget; [lia|]; intros row Hr; apply GA, (nth_error_In _ _ Hr)|]. intros r0 (p0 & x1 & f1 & -> & <- & <- & _).
  rewrite row_f_ok. cbn [bind].
  apply okp_bind with (Q1 := fun _ => True); [apply okp_vget; [lia|auto]|]. intros best _.
  apply okp_bind with (Q1 := fun r => good_row (length x1) (length f1) Pt r); [apply okp_vget; [lia|]; intros row Hr; apply GA, (nth_error_In _ _ Hr)|]. intros r1 (p1 & x2 & f2 & -> & _).
  apply okp_bind with (Q1 := fun _ => True); [apply okp_vget; [cbn; lia|auto]|]. intros worst _.
  eapply okp_bind with (Q1 := fun ka => good_arch ker (length x1) (length f1) Pt (snd ka) /\ an_oracle (fst ka) = an_oracle k /\ an_q (fst ka) = an_q k /\ an_counter (fst ka) = an_counter k /\ an_arch (fst ka) = an_arch k /\ an_evalstop (fst ka) = an_evalstop k).
  - destruct (dlt best worst); [|apply okp_ret; split; [exact (conj LA GA)|now repeat split]].
    eapply okp_bind.
    { apply (okp_mmap _ (fun i c => length (fst (fst (fst c))) = length x1 /\ length (snd (fst (fst c))) = length f1 /\ Pt (fst (fst (fst c))) (snd (fst (fst c))))).
      intros i Hi. apply in_seq in Hi.
      apply okp_bind with (Q1 := fun j => j < length X). { apply okp_vget; [lia|]. intros j Hj. apply nth_error_In in Hj. apply (Permutation_in _ (Permutation_sym PM)) in Hj. apply in_seq in Hj. lia. }
      intros j Hj. apply okp_bind with (Q1 := fun x => nth_error X j = Some x); [apply okp_vget; [lia|auto]|]. intros x Hx.
      apply okp_bind with (Q1 := fun f => nth_error F j = Some f); [apply okp_vget; [lia|auto]|]. intros f Hf.
      apply okp_bind with (Q1 := fun _ => True); [apply okp_vget; [lia|auto]|]. intros p _.
      apply okp_bind with (Q1 := fun row => In row arch); [apply okp_vget; [lia|intros row Hr; exact (nth_error_In _ _ Hr)]|]. intros row Hr.
      apply okp_bind with (Q1 := fun _ => True); [apply okp_vget; [rewrite (good_row_len _ _ _ _ (GA row Hr)); lia|auto]|]. intros q _.
      apply okp_ret. cbn [fst snd]. apply (HX j x f Hx Hf). }
    intros XFP HF. pose proof (F2_len _ _ _ HF) as LF. rewrite seq_length in LF. set (tp := map (fun c => snd (fst c)) XFP ++ map snd XFP).
    assert (LT : length tp = 2 * ker) by (unfold tp; rewrite app_length, !map_length; lia).
    destruct (std_sort_ok srt (fun i j => less_than_f (dnth tp i) (dnth tp j)) (seq 0 (length tp)) SC (ltf_key_swo (dnth tp) _)) as (sp & -> & PS & _). cbn [bind]. fold tp.
    pose proof (Permutation_length PS) as PSL. rewrite seq_length in PSL.
    eapply okp_bind; [apply distinct_ok; [exact LT|exact PS]|]. intros nl (N1 & N2 & _).
    eapply okp_bind.
    { apply (okp_seq _ (fun _ tmp => good_arch ker (length x1) (length f1) Pt tmp)); [exact (conj LA GA)|].
      intros ii tmp Hii (LTm & GT). unfold merge_row.
      apply okp_bind with (Q1 := fun n => n < 2 * ker); [apply okp_vget; [lia|intros n Hn; apply N2, (nth_error_In _ _ Hn)]|]. intros n Hn.
      apply okp_bind with (Q1 := fun s => s < 2 * ker). { apply okp_vget; [lia|]. intros s Hs. apply nth_error_In in Hs. apply (Permutation_in _ (Permutation_sym PS)) in Hs. apply in_seq in Hs. lia. }
      intros s Hs. apply okp_bind with (Q1 := fun row => In row tmp); [apply okp_vget; [lia|intros row Hr; exact (nth_error_In _ _ Hr)]|]. intros row Hr.
      apply okp_bind with (Q1 := fun row' => good_row (length x1) (length f1) Pt row').
      - destruct (Nat.ltb_spec s ker).
        + apply okp_bind with (Q1 := fun c => length (fst (fst (fst c))) = length x1 /\ length (snd (fst (fst c))) = length f1 /\ Pt (fst (fst (fst c))) (snd (fst (fst c)))).
          { apply okp_vget; [lia|]. intros c Hc. apply (proj2 (F2_seq _ _ _ HF s c Hc)). }
          intros c (C1 & C2 & C3). rewrite write_row_ok by (rewrite (good_row_len _ _ _ _ (GT row Hr)); lia). apply okp_ret. eexists _, _, _. split; [reflexivity|]. auto.
        + apply okp_bind with (Q1 := fun old => good_row (length x1) (length f1) Pt old); [apply okp_vget; [lia|intros o Ho; apply GA, (nth_error_In _ _ Ho)]|].
          intros old (p & x & f & -> & EX & EF & HP). cbn [vget nth_error bind]. rewrite <- EX, <- EF, row_x_ok. cbn [bind]. rewrite row_f_ok. cbn [bind].
          rewrite write_row_ok by (rewrite (good_row_len _ _ _ _ (GT row Hr)); lia). apply okp_ret. eexists _, _, _. split; [reflexivity|]. auto.
      - intros row' HR. apply okp_vset; [lia|]. split; [now rewrite upd_length|]. intros y Hy. apply upd_In in Hy. destruct Hy as [->|Hy]; auto. }
    intros arch' HA. apply okp_ret. split; [exact HA|now repeat split].
  - intros ka (HA & E1 & E2 & E3 & E4 & E5). apply okp_ret. split; [exact HA|]. cbn. auto 10.
Qed.
End G.
