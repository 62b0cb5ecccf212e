From Coq Require Import List Bool Arith ZArith Lia Permutation.
From Verif Require Import Dbl Outcome BaseFacts Problem SpecProblem ProblemFacts ProblemFacts2 Bfe.
Import ListNotations.

(** ** Slices *)
Lemma nth_error_slice {A} (l : list A) s n j : nth_error (slice l s n) j = if Nat.ltb j n then nth_error l (s + j) else None.
Proof.
  unfold slice. destruct (Nat.ltb_spec j n) as [H|H].
  - rewrite <- nth_error_skipn'. generalize (skipn s l). intros m. revert n j H. induction m as [|x m IH]; intros [|n] [|j] H; simpl; try lia; auto. apply IH; lia.
  - apply nth_error_None. rewrite firstn_length. lia.
Qed.
Lemma slice_length {A} (l : list A) s n : s + n <= length l -> length (slice l s n) = n.
Proof. intros H. unfold slice. rewrite firstn_length, skipn_length. lia. Qed.
Lemma write_at_length {A} (l : list A) s v : s + length v <= length l -> length (write_at l s v) = length l.
Proof. intros H. unfold write_at. rewrite !app_length, firstn_length, skipn_length. lia. Qed.
Lemma nth_error_write_at {A} (l : list A) s v j : s + length v <= length l ->
  nth_error (write_at l s v) j = if Nat.leb s j && Nat.ltb j (s + length v) then nth_error v (j - s) else nth_error l j.
Proof.
  intros H. unfold write_at. assert (F : length (firstn s l) = s) by (rewrite firstn_length; lia).
  destruct (Nat.leb_spec s j) as [A1|A1]; cbn [andb].
  - rewrite nth_error_app2 by lia. rewrite F. destruct (Nat.ltb_spec j (s + length v)) as [B|B].
    + rewrite nth_error_app1 by lia. reflexivity.
    + rewrite nth_error_app2 by lia. rewrite nth_error_skipn'. f_equal. lia.
  - rewrite nth_error_app1 by lia. clear -A1. revert s j A1. induction l as [|x l IH]; intros [|s] [|j] H; simpl; try lia; auto. apply IH; lia.
Qed.
Lemma slice_write_same {A} (l : list A) s v : s + length v <= length l -> slice (write_at l s v) s (length v) = v.
Proof.
  intros H. apply list_ext_error. intros j. rewrite nth_error_slice. destruct (Nat.ltb_spec j (length v)) as [B|B].
  - rewrite nth_error_write_at by exact H. destruct (Nat.leb_spec s (s + j)); [|lia]. destruct (Nat.ltb_spec (s + j) (s + length v)); [|lia].
    cbn [andb]. f_equal. lia.
  - symmetry. apply nth_error_None. exact B.
Qed.
Lemma slice_write_other {A} (l : list A) b i k v : length v = k -> b * k + k <= length l -> i <> b -> slice (write_at l (b * k) v) (i * k) k = slice l (i * k) k.
Proof.
  intros L H N. apply list_ext_error. intros j. rewrite !nth_error_slice. destruct (Nat.ltb_spec j k) as [B|B]; [|reflexivity].
  rewrite nth_error_write_at by lia. destruct (Nat.leb_spec (b * k) (i * k + j)) as [C|C]; [|reflexivity].
  destruct (Nat.ltb_spec (i * k + j) (b * k + length v)) as [D|D]; [|reflexivity]. exfalso. apply N. nia.
Qed.
Lemma firstn_add {A} (l : list A) a b : firstn (a + b) l = firstn a l ++ firstn b (skipn a l).
Proof. revert a. induction l as [|x l IH]; intros [|a]; cbn; auto; [now rewrite firstn_nil|now rewrite IH]. Qed.
Lemma skipn_add {A} (l : list A) a b : skipn a (skipn b l) = skipn (b + a) l.
Proof. revert b. induction l as [|x l IH]; intros [|b]; cbn; auto. now rewrite skipn_nil. Qed.
Lemma concat_slices {A} (l : list A) k : forall n s, concat (map (fun i => slice l (i * k) k) (seq s n)) = firstn (n * k) (skipn (s * k) l).
Proof.
  induction n as [|n IH]; intros s; cbn [seq map concat]; [reflexivity|]. rewrite IH. cbn [Nat.mul]. rewrite firstn_add, skipn_add.
  unfold slice. do 3 f_equal. lia.
Qed.

(** ** thread_bfe *)
Definition remaining (ranges : list (nat * nat)) : list nat := flat_map (fun r => seq (fst r) (snd r - fst r)) ranges.
Definition dv_at (p : problem) (dvs : list dbl) (i : nat) : list dbl := slice dvs (i * get_nx p) (get_nx p).

Record tinv (p : problem) (dvs : list dbl) (n : nat) (s : tstate) : Prop := {
  ti_len : length (t_out s) = n * get_nf p;
  ti_rng : forall b e, In (b, e) (t_ranges s) -> b <= e;
  ti_done : exists dn, Permutation (seq 0 n) (dn ++ remaining (t_ranges s)) /\
     forall i, In i dn -> eval1 p (dv_at p dvs i) = Ok (slice (t_out s) (i * get_nf p) (get_nf p));
  ti_exn : forall o, t_exn s = Some o -> exists i ex, i < n /\ o = Throw ex /\ eval1 p (dv_at p dvs i) = Throw ex }.

Lemma eval1_len p x f : eval1 p x = Ok f -> length f = get_nf p.
Proof.
  unfold eval1. destruct (fitness p 0 x) as [r c] eqn:E. cbn. intros ->. apply fitness_spec in E. destruct E as [E _].
  destruct (proj1 (E f) eq_refl) as (_ & _ & L). exact L.
Qed.

Lemma remaining_app r1 r2 : remaining (r1 ++ r2) = remaining r1 ++ remaining r2.
Proof. apply flat_map_app. Qed.

Lemma tinv_step p dvs n s s' : tinv p dvs n s -> thread_step p dvs s s' -> tinv p dvs n s'.
Proof.
  intros [I1 I2 I3 I4] H. destruct H as [out r1 b e r2 f NE EV|out r1 b e r2 ex NE EV]; cbn [t_out t_ranges t_exn] in *.
  - assert (LE : b <= e) by (apply I2; apply in_or_app; right; left; reflexivity).
    pose proof (eval1_len _ _ _ EV) as LF. destruct I3 as (dn & P & D).
    assert (RB : remaining (r1 ++ (b, e) :: r2) = remaining r1 ++ b :: remaining ((S b, e) :: r2)).
    { rewrite remaining_app. f_equal. unfold remaining. cbn [flat_map fst snd]. replace (e - b) with (S (e - S b)) by lia. reflexivity. }
    rewrite RB in P.
    assert (BN : b < n).
    { assert (X : In b (seq 0 n)) by (eapply Permutation_in; [apply Permutation_sym, P|]; apply in_or_app; right; apply in_or_app; right; left; reflexivity). apply in_seq in X. lia. }
    assert (FIT : b * get_nf p + length f <= length out) by (rewrite LF, I1; nia).
    split; cbn [t_out t_ranges t_exn].
    + rewrite write_at_length by exact FIT. exact I1.
    + intros b' e' H. apply in_app_or in H. destruct H as [H|[H|H]].
      * apply I2. apply in_or_app; left; exact H.
      * inversion H; subst. lia.
      * apply I2. apply in_or_app; right; right; exact H.
    + exists (b :: dn). split.
      * rewrite remaining_app. eapply Permutation_trans; [exact P|]. rewrite !app_assoc. eapply Permutation_trans; [apply Permutation_sym, Permutation_middle|].
        cbn [app]. rewrite <- app_assoc. reflexivity.
      * assert (ND : NoDup (dn ++ remaining r1 ++ b :: remaining ((S b, e) :: r2))) by (eapply Permutation_NoDup; [exact P|apply seq_NoDup]).
        intros i [<-|Hi].
        -- pose proof (slice_write_same out (b * get_nf p) f FIT) as Q. rewrite LF in Q. unfold dv_at. rewrite EV, Q. reflexivity.
        -- rewrite (D i Hi). f_equal. symmetry. apply slice_write_other; [exact LF|lia|]. intros ->.
           apply (NoDup_app_disj _ _ b ND Hi). apply in_or_app. right. left. reflexivity.
    + discriminate.
  - split; cbn [t_out t_ranges t_exn]; auto. intros o [= <-]. exists b, ex.
    assert (LE : b <= e) by (apply I2; apply in_or_app; right; left; reflexivity). destruct I3 as (dn & P & D).
    split; [|split; [reflexivity|exact EV]].
    assert (X : In b (seq 0 n)).
    { eapply Permutation_in; [apply Permutation_sym, P|]. apply in_or_app; right. rewrite remaining_app. apply in_or_app; right.
      unfold remaining. cbn [flat_map fst snd]. apply in_or_app; left. apply in_seq. lia. }
    apply in_seq in X. lia.
Qed.
Lemma tinv_steps p dvs n s s' : tinv p dvs n s -> thread_steps p dvs s s' -> tinv p dvs n s'.
Proof. intros I H. induction H as [s|s s' s'' H IH H']; [exact I|]. eapply tinv_step; [apply IH; exact I|exact H']. Qed.
Lemma tinv_init p dvs n ranges : split_of n ranges -> tinv p dvs n {| t_out := repeat dzero (n * get_nf p); t_ranges := ranges; t_exn := None |}.
Proof.
  intros [B P]. split; cbn [t_out t_ranges t_exn]; [apply repeat_length|exact B| |discriminate].
  exists []. split; [exact P|intros i []].
Qed.

Lemma remaining_nil ranges : (forall b e, In (b, e) ranges -> b = e) -> remaining ranges = [].
Proof.
  induction ranges as [|[b e] r IH]; intros H; [reflexivity|]. unfold remaining. cbn [flat_map fst snd].
  rewrite (H b e (or_introl eq_refl)), Nat.sub_diag. apply IH. intros b' e' H'. apply H. right; exact H'.
Qed.

Lemma thread_ok p dvs out : u_ts (p_udp p) <> TSnone -> thread_bfe_result p dvs (Ok out) ->
  exists fs, mmap (fun i => eval1 p (dv_at p dvs i)) (seq 0 (length dvs / get_nx p)) = Ok fs /\ out = concat fs.
Proof.
  intros TS H. inversion H as [|ranges s _ SP ST EX FIN E|]; subst. set (n := length dvs / get_nx p) in *.
  pose proof (tinv_steps p dvs n _ _ (tinv_init p dvs n ranges SP) ST) as [I1 I2 (dn & P & D) _].
  rewrite (remaining_nil _ FIN), app_nil_r in P.
  exists (map (fun i => slice (t_out s) (i * get_nf p) (get_nf p)) (seq 0 n)). split.
  - apply mmap_pure. intros i Hi. apply D. eapply Permutation_in; [exact P|exact Hi].
  - rewrite concat_slices. cbn [Nat.mul skipn]. rewrite firstn_all2; [reflexivity|lia].
Qed.
Lemma thread_throw p dvs e : u_ts (p_udp p) <> TSnone -> thread_bfe_result p dvs (Throw e) ->
  exists i, i < length dvs / get_nx p /\ eval1 p (dv_at p dvs i) = Throw e.
Proof.
  intros TS H. inversion H as [|ranges s _ SP ST EX FIN E|ranges s ex _ SP ST EX]; subst; [contradiction|]. set (n := length dvs / get_nx p) in *.
  pose proof (tinv_steps p dvs n _ _ (tinv_init p dvs n ranges SP) ST) as [_ _ _ I4].
  destruct (I4 _ EX) as (i & ex & Hi & E & EV). inversion E; subst. eauto.
Qed.
(** Some schedule completes: one task, in order. *)
Lemma run_one p dvs : forall k b out, (forall i, b <= i < b + k -> exists f, eval1 p (dv_at p dvs i) = Ok f) ->
  exists out', thread_steps p dvs {| t_out := out; t_ranges := [(b, b + k)]; t_exn := None |} {| t_out := out'; t_ranges := [(b + k, b + k)]; t_exn := None |}.
Proof.
  induction k as [|k IH]; intros b out H.
  - exists out. rewrite Nat.add_0_r. constructor.
  - destruct (H b) as (f & E); [lia|]. destruct (IH (S b) (write_at out (b * get_nf p) f)) as (out' & S'); [intros i Hi; apply H; lia|].
    exists out'. replace (b + S k) with (S b + k) by lia.
    assert (ST : thread_step p dvs {| t_out := out; t_ranges := [(b, S b + k)]; t_exn := None |} {| t_out := write_at out (b * get_nf p) f; t_ranges := [(S b, S b + k)]; t_exn := None |}).
    { apply (t_eval p dvs out [] b (S b + k) [] f); [lia|exact E]. }
    clear -S' ST. remember {| t_out := write_at out (b * get_nf p) f; t_ranges := [(S b, S b + k)]; t_exn := None |} as s1 eqn:Es.
    clear Es. induction S' as [s|s s' s'' A IHA B]; [eapply ts_step; [constructor|exact ST]|]. eapply ts_step; [apply IHA; exact ST|exact B].
Qed.
Lemma thread_some p dvs : u_ts (p_udp p) <> TSnone -> (forall i, i < length dvs / get_nx p -> exists f, eval1 p (dv_at p dvs i) = Ok f) ->
  exists out, thread_bfe_result p dvs (Ok out).
Proof.
  intros TS H. set (n := length dvs / get_nx p) in *.
  destruct (run_one p dvs n 0 (repeat dzero (n * get_nf p))) as (out & S); [intros; apply H; lia|].
  exists out. refine (tb_ok p dvs [(0, n)] {| t_out := out; t_ranges := [(n, n)]; t_exn := None |} TS _ S eq_refl _).
  - split; [intros b e [E|[]]; inversion E; lia|]. cbn. rewrite app_nil_r, Nat.sub_0_r. reflexivity.
  - intros b e [E|[]]. inversion E; reflexivity.
Qed.
Lemma thread_unsafe p dvs r : u_ts (p_udp p) = TSnone -> thread_bfe_result p dvs r -> r = Throw InvalidArgument.
Proof. intros T H. inversion H; subst; congruence. Qed.
Lemma thread_possible p dvs : u_ts (p_udp p) <> TSnone -> (forall i, i < length dvs / get_nx p -> exists f, eval1 p (dv_at p dvs i) = Ok f) ->
  (exists out, thread_bfe_result p dvs (Ok out)) /\ forall e, ~ thread_bfe_result p dvs (Throw e).
Proof.
  intros T H. split; [exact (thread_some p dvs T H)|]. intros e R. destruct (thread_throw p dvs e T R) as (i & Hi & E).
  destruct (H i Hi) as (f & F). congruence.
Qed.
