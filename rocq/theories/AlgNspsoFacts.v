(** NSPSO: sorting, leaders, selection. *)
From Coq Require Import List Bool Arith ZArith Lia Permutation.
From Verif Require Import Dbl DblFacts IntDbl Compare CompareFacts Outcome BaseFacts GenericFacts StdSort SpecOrder MultiObj SpecMultiObj MultiObjFacts MultiObjFacts2 CrowdFacts Problem Rng Generic GeneticOps GeneticFacts Algo AlgSga AlgPsoFacts2 AlgoFacts2 AlgNspso.
Import ListNotations.

Lemma take_ok {A} k (l : list A) : k <= length l -> take k l = Ok (firstn k l).
Proof. intros H. unfold take. destruct (Nat.leb_spec k (length l)); [reflexivity|lia]. Qed.
Lemma firstn_in {A} k (l : list A) x : In x (firstn k l) -> In x l.
Proof. intros H. rewrite <- (firstn_skipn k l). apply in_or_app. now left. Qed.
Lemma firstn_nodup {A} k (l : list A) : NoDup l -> NoDup (firstn k l).
Proof. revert l. induction k as [|k IH]; intros [|x l] H; cbn; try constructor; inversion H; subst; [intros Q; apply firstn_in in Q; contradiction|auto]. Qed.
Lemma firstn_pos {A} k (l : list A) x : In x (firstn k l) -> exists i, i < k /\ nth_error l i = Some x.
Proof. revert l. induction k as [|k IH]; intros [|y l] H; cbn in H; try contradiction. destruct H as [->|H]; [exists 0; split; [lia|reflexivity]|]. destruct (IH l H) as (i & Hi & E). exists (S i). split; [lia|exact E]. Qed.
Lemma out_pos {A} k (l : list A) x : In x l -> ~ In x (firstn k l) -> exists i, k <= i /\ nth_error l i = Some x.
Proof.
  intros H N. apply In_nth_error in H. destruct H as (i & E). exists i. split; [|exact E]. destruct (Nat.le_gt_cases k i) as [|L]; [assumption|]. exfalso. apply N. clear N.
  revert l i E L. induction k as [|k IH]; intros [|y l] i E L; [lia|lia|destruct i; discriminate|]. destruct i as [|i]; cbn in E |- *; [left; congruence|]. right. apply (IH l i E). lia.
Qed.
Lemma ltf_swo (v : list dbl) l : strict_weak_on (fun i j => less_than_f (cmpn v i) (cmpn v j)) l.
Proof.
  split; intros.
  - apply ltf_false, better_irrefl.
  - rewrite less_than_f_spec in *. eapply CompareFacts.better_trans; eassumption.
  - rewrite ltf_false in H2, H3, H4, H5. split; apply ltf_false; [exact (not_worse_trans _ _ _ H4 H2)|exact (not_worse_trans _ _ _ H3 H5)].
Qed.
Lemma sort_by_ok srt v n : sort_contract srt -> exists sl, sort_by srt v n = Ok sl /\ Permutation (seq 0 n) sl /\ sorted_by (fun i j => less_than_f (cmpn v i) (cmpn v j)) sl.
Proof. intros C. apply (std_sort_ok srt _ (seq 0 n) C). apply ltf_swo. Qed.
Lemma perm_facts n sl : Permutation (seq 0 n) sl -> length sl = n /\ NoDup sl /\ (forall i, In i sl <-> i < n).
Proof.
  intros H. split; [rewrite <- (Permutation_length H); apply seq_length|]. split; [eapply Permutation_NoDup; [exact H|apply seq_NoDup]|].
  intros i. split; intros K; [apply (Permutation_in _ (Permutation_sym H)) in K; apply in_seq in K; lia|apply (Permutation_in _ H), in_seq; lia].
Qed.
Lemma mfold_total {A B} (f : A -> B -> outcome A) l : (forall a b, In b l -> exists a', f a b = Ok a') -> forall a, exists a', mfold f a l = Ok a'.
Proof. induction l as [|b l IH]; intros H a; cbn [mfold]; [eauto|]. destruct (H a b (or_introl eq_refl)) as (a' & ->). cbn [bind]. apply IH. intros; apply H; now right. Qed.
Lemma mmap_total {A B} (f : A -> outcome B) l : (forall a, In a l -> exists b, f a = Ok b) -> exists bs, mmap f l = Ok bs /\ length bs = length l.
Proof. intros H. destruct (mmap_each f (fun _ _ => True) l) as (bs & E & _); [intros a Ha; destruct (H a Ha) as (b & E); eauto|]. exists bs. split; [exact E|]. now apply mmap_ok_length in E. Qed.
Lemma minfit_ok m fi fj : 0 < m -> length fi = m -> length fj = m -> exists v, minfit m fi fj = Ok v.
Proof.
  intros H A B. unfold minfit. destruct (vget_in_range fi 0 ltac:(lia)) as (a & -> & _). destruct (vget_in_range fj 0 ltac:(lia)) as (b & -> & _). cbn [bind]. apply mfold_total.
  intros acc k Hk. apply in_seq in Hk. destruct (vget_in_range fi k ltac:(lia)) as (x & -> & _). destruct (vget_in_range fj k ltac:(lia)) as (y & -> & _). cbn [bind]. eexists. reflexivity.
Qed.
Lemma maxmin_ok fit m : uniform fit m -> 0 < m -> 0 < length fit -> exists mm, compute_maxmin fit = Ok mm /\ length mm = length fit.
Proof.
  intros U Hm Hn. unfold compute_maxmin. destruct (vget_in_range fit 0 Hn) as (f0 & -> & N0). cbn [bind]. rewrite (U f0 (nth_error_In _ _ N0)).
  destruct (mmap_total (maxmin1 fit m) (seq 0 (length fit))) as (bs & E & L); [|exists bs; rewrite seq_length in L; auto].
  intros i Hi. apply in_seq in Hi. unfold maxmin1. destruct (vget_in_range fit i ltac:(lia)) as (fi & -> & Ni). pose proof (U fi (nth_error_In _ _ Ni)) as Li. cbn [bind].
  destruct (vget_in_range fit ((i + 1) mod length fit)) as (fn & -> & Nn); [apply Nat.mod_upper_bound; lia|]. cbn [bind]. destruct (minfit_ok m fi fn Hm Li (U fn (nth_error_In _ _ Nn))) as (v & ->). cbn [bind]. apply mfold_total.
  intros acc j Hj. apply in_seq in Hj. destruct (Nat.eqb i j); [eauto|]. destruct (vget_in_range fit j ltac:(lia)) as (fj & -> & Nj). cbn [bind]. destruct (minfit_ok m fi fj Hm Li (U fj (nth_error_In _ _ Nj))) as (t & ->). cbn [bind]. eexists. reflexivity.
Qed.

(** ** The order of sort_population_mo *)
Lemma in_front pts fronts i : front_decomposition pts fronts -> i < length pts -> exists k, In i (nth k fronts []).
Proof.
  intros FD Hi. assert (H : In i (concat fronts)) by (eapply Permutation_in; [apply (fd_perm _ _ FD)|apply in_seq; lia]). apply in_concat in H. destruct H as (f & Hf & H). apply In_nth with (d := []) in Hf. destruct Hf as (k & _ & E). exists k. now rewrite E.
Qed.
Lemma cut_dominance M pts idx k i j : mo_sorted M pts idx -> In i (firstn k idx) -> ~ In j (firstn k idx) -> ~ dom_idx pts j i.
Proof.
  intros (PM & fr & cr & FD & _ & SO) Hi Hj D. destruct (perm_facts _ _ PM) as (LI & ND & II).
  assert (Bi : i < length pts) by (destruct D as (x & y & _ & E & _); apply nth_error_Some; congruence). assert (Bj : j < length pts) by (destruct D as (x & y & E & _); apply nth_error_Some; congruence).
  destruct (firstn_pos _ _ _ Hi) as (p & Hp & Ep). destruct (out_pos k idx j (proj2 (II j) Bj) Hj) as (q & Hq & Eq). destruct (in_front pts fr i FD Bi) as (ki & Fi). destruct (fd_earlier _ _ FD ki i j Fi D) as (kj & L & Fj).
  destruct (SO p q i j ki kj ltac:(lia) Ep Eq Fi Fj) as (H & _). lia.
Qed.
(** The first k are non-dominated if there are as many; all the non-dominated are among the
    first k if there are not more. *)
Lemma cut_front M pts idx f0 k : mo_sorted M pts idx -> (forall i, In i f0 <-> nondominated pts i) -> NoDup f0 -> length f0 <= k -> k <= length idx -> forall i, In i f0 -> In i (firstn k idx).
Proof.
  intros MS HF ND LK LI i Hi. pose proof MS as (PM & fr & cr & FD & _ & SO). destruct (perm_facts _ _ PM) as (LL & NI & II). destruct (in_dec Nat.eq_dec i (firstn k idx)) as [|N]; [assumption|exfalso].
  assert (Bi : i < length pts) by (apply HF in Hi; exact (proj1 Hi)). destruct (out_pos k idx i (proj2 (II i) Bi) N) as (q & Hq & Eq).
  assert (SUB : incl (firstn k idx) f0).
  { intros x Hx. destruct (firstn_pos _ _ _ Hx) as (p & Hp & Ep). assert (Bx : x < length pts) by (apply II; eapply nth_error_In; eauto). destruct (in_front pts fr x FD Bx) as (kx & Fx).
    destruct (SO p q x i kx 0 ltac:(lia) Ep Eq Fx) as (H & _); [apply (fd_first _ _ FD), HF, Hi|]. assert (kx = 0) by lia. subst kx. apply HF, (fd_first _ _ FD), Fx. }
  assert (LF : length (firstn k idx) = k) by (rewrite firstn_length; lia). apply N. assert (K : incl f0 (firstn k idx)) by (apply NoDup_length_incl; [exact (firstn_nodup k idx NI)|lia|exact SUB]). now apply K.
Qed.
Lemma front0 pts fr : front_decomposition pts fr -> 2 <= length pts -> exists f0 rest, fr = f0 :: rest /\ f0 <> [] /\ NoDup f0 /\ (forall i, In i f0 <-> nondominated pts i) /\ length f0 <= length pts /\
  (length f0 <= 1 -> exists f1 rest', rest = f1 :: rest' /\ exists b l, f1 = b :: l /\ b < length pts /\ ~ In b f0).
Proof.
  intros FD H. pose proof (fd_perm _ _ FD) as PM. pose proof (Permutation_length PM) as L. rewrite seq_length in L. destruct fr as [|f0 rest]; [cbn in L; lia|]. exists f0, rest. split; [reflexivity|]. split; [apply (fd_nonempty _ _ FD); now left|].
  assert (ND : NoDup (f0 ++ concat rest)) by (eapply Permutation_NoDup; [exact PM|apply seq_NoDup]). split; [eapply NoDup_app_l; exact ND|]. split; [apply (fd_first _ _ FD)|]. cbn [concat] in L. rewrite app_length in L. split; [lia|].
  intros L0. destruct rest as [|f1 rest']; [cbn in L; lia|]. exists f1, rest'. split; [reflexivity|]. destruct f1 as [|b l]; [exfalso; apply (fd_nonempty _ _ FD []); [right; now left|reflexivity]|]. exists b, l. split; [reflexivity|]. split.
  - assert (K : In b (seq 0 (length pts))) by (eapply Permutation_in; [apply Permutation_sym, PM|]; cbn [concat]; apply in_or_app; right; now left). apply in_seq in K. lia.
  - intros K. cbn [concat app] in ND. apply (NoDup_app_disj _ _ b ND K). now left.
Qed.

(** ** The leaders *)
Section L.
Context (srt : sorter) (SC : sort_contract srt) (pw : dbl -> dbl -> dbl).
Lemma euclid_ok x y : length x = length y -> exists v, euclid pw x y = Ok v.
Proof.
  intros L. unfold euclid. match goal with |- context [mfold ?f ?z ?l] => destruct (mfold_total f l) with (a := z) as (s & E) end; [|rewrite E; cbn [bind]; eexists; reflexivity].
  intros s i Hi. apply in_seq in Hi. destruct (vget_in_range x i ltac:(lia)) as (a & -> & _). destruct (vget_in_range y i ltac:(lia)) as (b & -> & _). cbn [bind]. eexists. reflexivity.
Qed.
Lemma niche_count_ok delta xs nx : (forall x, In x xs -> length x = nx) -> exists c, niche_count pw delta xs = Ok c /\ length c = length xs.
Proof.
  intros H. unfold niche_count. apply mmap_total. intros x Hx. apply mfold_total. intros c y Hy. destruct (euclid_ok x y) as (v & ->); [now rewrite (H x Hx), (H y Hy)|]. cbn [bind]. eexists. reflexivity.
Qed.
Lemma niche_delta_ok nobj k nad idl : length nad = nobj -> length idl = nobj -> exists v, niche_delta pw nobj k nad idl = Ok v.
Proof.
  intros A B. unfold niche_delta. destruct (Nat.eqb_spec nobj 2) as [E2|]; [|destruct (Nat.eqb_spec nobj 3) as [E3|]].
  - destruct nad as [|? [|? nad]]; cbn in A; try lia. destruct idl as [|? [|? idl]]; cbn in B; try lia. eexists. reflexivity.
  - destruct nad as [|? [|? [|? nad]]]; cbn in A; try lia. destruct idl as [|? [|? [|? idl]]]; cbn in B; try lia. eexists. reflexivity.
  - match goal with |- context [mfold ?f ?z ?l] => destruct (mfold_total f l) with (a := z) as (s & E) end; [|rewrite E; cbn [bind]; eexists; reflexivity].
    intros s i Hi. apply in_seq in Hi. destruct (vget_in_range nad i ltac:(lia)) as (x & -> & _). destruct (vget_in_range idl i ltac:(lia)) as (y & -> & _). cbn [bind]. eexists. reflexivity.
Qed.
Lemma mmap_vget {A} (l : list A) idx : (forall i, In i idx -> i < length l) -> exists xs, mmap (vget l) idx = Ok xs /\ Forall2 (fun i x => nth_error l i = Some x) idx xs.
Proof. intros H. apply mmap_each. intros i Hi. destruct (vget_in_range l i (H i Hi)) as (x & E & N). eauto. Qed.
Lemma first_nonneg_le mm l : forall k, k <= first_nonneg mm l k <= k + length l.
Proof. induction l as [|i l IH]; intros k; cbn [first_nonneg length]; [lia|]. destruct (dlt _ _); [specialize (IH (k + 1)); lia|lia]. Qed.
Lemma perm_pick (f0 sl xs : list nat) : Permutation (seq 0 (length f0)) sl -> Forall2 (fun i x => nth_error f0 i = Some x) sl xs -> Permutation f0 xs.
Proof.
  intros PM F. assert (E : xs = map (fun i => nth i f0 0) sl) by (clear PM; induction F as [|i x sl xs E F IH]; [reflexivity|]; cbn [map]; rewrite (nth_error_nth _ _ 0 E), <- IH; reflexivity).
  assert (E2 : map (fun i => nth i f0 0) (seq 0 (length f0)) = f0).
  { clear. apply (nth_ext _ _ (nth 0 f0 0) 0); [now rewrite map_length, seq_length|]. intros n Hn. rewrite map_length, seq_length in Hn. rewrite (map_nth (fun i => nth i f0 0) (seq 0 (length f0)) 0 n), seq_nth by exact Hn. reflexivity. }
  rewrite E, <- E2 at 1. now apply Permutation_map.
Qed.
Lemma leaders_ok d fit dvs M nx : uniform fit M -> 2 <= M -> 2 <= length fit -> length dvs = length fit -> (forall x, In x dvs -> length x = nx) ->
  exists b, np_leaders srt pw d M fit dvs = Ok b /\ NoDup b /\ 2 <= length b <= length fit /\ (forall i, In i b -> i < length fit) /\
    (d <> MaxMin -> (forall i, nondominated fit i -> In i b) /\ (3 <= length b -> forall i, In i b -> nondominated fit i) /\ (forall i j, nondominated fit i -> nondominated fit j -> i <> j -> forall k, In k b -> nondominated fit k)).
Proof.
  intros U HM HN LD HX. unfold np_leaders. destruct (fnds_ok fit M U HN) as (t & -> & FD & _). cbn [bind]. destruct (sort_mo_ok srt fit M SC U HM HN) as (idx & Ei & MS). pose proof MS as (PM & _). destruct (perm_facts _ _ PM) as (LI & NI & II).
  destruct (front0 fit (fr_fronts t) FD HN) as (f0 & rest & EF & NE & ND & H0 & L0 & H1). rewrite EF.
  assert (TWO : forall i j, nondominated fit i -> nondominated fit j -> i <> j -> 1 < length f0).
  { intros i j A B N. apply H0 in A, B. destruct f0 as [|x [|y f0]]; cbn [In length] in *; try tauto; [|lia]. destruct A as [A|[]], B as [B|[]]. congruence. }
  destruct d.
  - rewrite Ei. cbn [bind vget nth_error]. destruct (Nat.ltb_spec 1 (length f0)) as [L1|L1].
    + rewrite take_ok by lia. assert (LF : length (firstn (length f0) idx) = length f0) by (rewrite firstn_length; lia).
      assert (SUB : forall i, In i f0 -> In i (firstn (length f0) idx)) by (apply (cut_front M fit idx f0 (length f0) MS H0 ND); lia).
      assert (SUP : incl (firstn (length f0) idx) f0) by (apply NoDup_length_incl; [exact ND|lia|exact SUB]).
      eexists. split; [reflexivity|]. split; [now apply firstn_nodup|]. split; [lia|]. split; [intros i Hi; apply II; eapply firstn_in; eauto|]. intros _. split; [intros i Hi; apply SUB, H0, Hi|]. split; [intros _ i Hi; apply H0, SUP, Hi|intros _ _ _ _ _ i Hi; apply H0, SUP, Hi].
    + rewrite take_ok by lia. assert (LF : length (firstn 2 idx) = 2) by (rewrite firstn_length; lia). eexists. split; [reflexivity|]. split; [now apply firstn_nodup|]. split; [lia|]. split; [intros i Hi; apply II; eapply firstn_in; eauto|]. intros _.
      split; [intros i Hi; apply (cut_front M fit idx f0 2 MS H0 ND); [lia|lia|apply H0, Hi]|]. split; [lia|]. intros i j A B N. specialize (TWO i j A B N). lia.
  - rewrite Ei. cbn [bind vget nth_error]. destruct (mmap_vget dvs f0) as (xs & Ex & Fx); [intros i Hi; rewrite LD; apply H0 in Hi; exact (proj1 Hi)|]. rewrite Ex. cbn [bind].
    destruct (nadir_ok fit M U HN) as (nad & -> & Ln & _). destruct (ideal_ok fit M U) as (idl & -> & Lid & _); [intros ->; cbn in HN; lia|]. cbn [bind]. destruct (niche_delta_ok M (length xs) nad idl Ln Lid) as (delta & ->). cbn [bind].
    pose proof (mmap_ok_length _ _ _ Ex) as LX. destruct (niche_count_ok delta xs nx) as (cnt & -> & _).
    { intros x Hx. apply HX. apply In_nth_error in Hx. destruct Hx as (i & Hi). clear - Fx Hi. revert i Hi. induction Fx as [|k y f0 xs E F IH]; intros [|i] Hi; cbn in Hi; try discriminate; [injection Hi as <-; eapply nth_error_In; eauto|eauto]. }
    cbn [bind]. destruct (sort_by_ok srt (map (fun c => d_of_Z (Z.of_nat c)) cnt) (length xs) SC) as (sl & -> & PS & _). cbn [bind]. destruct (Nat.ltb_spec 1 (length f0)) as [L1|L1].
    + destruct (perm_facts _ _ PS) as (LS & _ & IS). destruct (mmap_vget f0 sl) as (b & -> & Fb); [intros i Hi; apply IS in Hi; lia|]. rewrite LX in PS. pose proof (perm_pick f0 sl b PS Fb) as PB. exists b. split; [reflexivity|]. split; [eapply Permutation_NoDup; eauto|].
      split; [rewrite <- (Permutation_length PB); lia|]. assert (IB : forall i, In i b <-> nondominated fit i) by (intros i; rewrite <- H0; split; intros K; [eapply Permutation_in; [apply Permutation_sym, PB|exact K]|eapply Permutation_in; eauto]).
      split; [intros i Hi; apply IB in Hi; exact (proj1 Hi)|]. intros _. split; [intros i Hi; now apply IB|]. split; [intros _ i Hi; now apply IB|intros _ _ _ _ _ i Hi; now apply IB].
    + destruct (H1 L1) as (f1 & rest' & -> & b & l & -> & Bb & Nb). destruct f0 as [|a [|]]; [congruence| |cbn in L1; lia]. cbn. exists [a; b]. split; [reflexivity|]. assert (Ba : nondominated fit a) by (apply H0; now left). split; [constructor; [intros [Q|[]]; subst b; apply Nb; now left|constructor; [intros []|constructor]]|].
      cbn [length]. split; [lia|]. split; [intros i [<-|[<-|[]]]; [exact (proj1 Ba)|exact Bb]|]. intros _. split; [intros i Hi; apply H0 in Hi; destruct Hi as [<-|[]]; now left|]. split; [lia|]. intros i j A B N. specialize (TWO i j A B N). cbn in TWO. lia.
  - destruct (maxmin_ok fit M U ltac:(lia) ltac:(lia)) as (mm & -> & _). cbn [bind]. destruct (sort_by_ok srt mm (length fit) SC) as (sl & -> & PS & _). cbn [bind]. destruct (perm_facts _ _ PS) as (LS & NS & IS).
    pose proof (first_nonneg_le mm (skipn 1 sl) 1) as FN. rewrite skipn_length in FN. rewrite take_ok by lia. eexists. split; [reflexivity|]. split; [now apply firstn_nodup|]. split; [rewrite firstn_length; lia|]. split; [intros i Hi; apply IS; eapply firstn_in; eauto|congruence].
Qed.
Lemma select_ok d n fit M : uniform fit M -> 2 <= M -> 2 <= length fit -> n <= length fit ->
  exists sel, np_select srt d n fit = Ok sel /\ NoDup sel /\ length sel = n /\ (forall i, In i sel -> i < length fit) /\ (d <> MaxMin -> forall i j, In i sel -> ~ In j sel -> ~ dom_idx fit j i).
Proof.
  intros U HM HN Hn. destruct (sort_mo_ok srt fit M SC U HM HN) as (idx & Ei & MS). pose proof MS as (PM & _). destruct (perm_facts _ _ PM) as (LI & NI & II). destruct (fnds_ok fit M U HN) as (t & Et & _).
  unfold np_select. destruct d; [| |destruct (maxmin_ok fit M U ltac:(lia) ltac:(lia)) as (mm & -> & _); cbn [bind]; destruct (sort_by_ok srt mm (length fit) SC) as (sl & -> & PS & _); cbn [bind]; destruct (perm_facts _ _ PS) as (LS & NS & IS)].
  1, 2: rewrite Et; cbn [bind]; rewrite Ei; cbn [bind].
  all: rewrite take_ok by lia; eexists; (split; [reflexivity|]); (split; [now apply firstn_nodup|]); (split; [rewrite firstn_length; lia|]).
  1, 2: split; [intros i Hi; apply II; eapply firstn_in; eauto|intros _ i j; apply (cut_dominance M); exact MS].
  split; [intros i Hi; apply IS; eapply firstn_in; eauto|congruence].
Qed.
End L.

(** ** The number of leaders to choose from *)
Lemma ext_ok size range : 2 <= size -> (Z.of_nat size < 2 ^ 31)%Z -> range <= 100 -> exists e, np_ext size range = Ok e /\ (1 <= e < Z.of_nat size)%Z.
Proof.
  intros H2 HS HR. unfold np_ext. set (n := Z.of_nat size) in *. set (k := Z.of_nat range). assert (Hk : (0 <= k <= 100)%Z) by (unfold k; lia). assert (Hn : (2 <= n < 2 ^ 31)%Z) by (unfold n in *; lia).
  assert (D53 : forall z, (0 <= z <= 100 * 2 ^ 31)%Z -> d_of_Z z = dint z) by (intros z Hz; apply d_of_Z_int; change (2 ^ 53)%Z with (2 ^ 22 * 2 ^ 31)%Z; assert (100 < 2 ^ 22)%Z by reflexivity; nia).
  pose proof one_z_pos as OP. rewrite (D53 n) by lia. rewrite (D53 k) by lia. assert (EH : dhundred = dint 100) by (vm_compute; reflexivity). rewrite EH. unfold dint at 1 2. cbn [dmul].
  replace (n * one_z * (k * one_z))%Z with ((n * k * one_z) * one_z)%Z by ring. rewrite rnd_scale by exact OP. change (rnd (n * k * one_z) 1) with (d_of_Z (n * k)). rewrite (D53 (n * k)%Z) by nia. unfold dint. cbn [ddiv].
  destruct (Z.eqb_spec (100 * one_z) 0); [lia|]. destruct (Z.ltb_spec (100 * one_z) 0); [lia|].
  assert (UP : dle (rnd (n * k * one_z * one_z) (100 * one_z)) (dint n) = true). { rewrite <- (D53 n) by lia. unfold d_of_Z. rewrite <- (rnd_scale (n * one_z) (100 * one_z)) by lia. apply rnd_mono; [lia|]. nia. }
  assert (LO : dle (Fin 0) (rnd (n * k * one_z * one_z) (100 * one_z)) = true). { rewrite <- (rnd_zero (100 * one_z)) by lia. apply rnd_mono; [lia|]. nia. }
  destruct (rnd (n * k * one_z * one_z) (100 * one_z)) as [| |z|] eqn:EZ; [discriminate UP|discriminate LO| |discriminate UP]. unfold dint in UP. rewrite dle_fin in UP, LO. cbn [dceil].
  set (c := (- (- z / one_z))%Z). assert (HC : (0 <= c <= n)%Z).
  { unfold c. assert (A : (- z / one_z <= 0)%Z) by (apply (Z.div_le_upper_bound (- z) one_z 0); lia). assert (B : (- n <= - z / one_z)%Z) by (apply Z.div_le_lower_bound; [exact OP|]; nia). lia. }
  unfold done. cbn [dsub dneg dadd]. replace (c * one_z + - one_z)%Z with ((c - 1) * one_z)%Z by ring. change (rnd ((c - 1) * one_z) 1) with (d_of_Z (c - 1)). rewrite d_of_Z_int by (change (2 ^ 53)%Z with (2 ^ 22 * 2 ^ 31)%Z; lia).
  unfold dint. cbn [to_int]. unfold Z_of_d. rewrite Z.quot_mul by lia. destruct (Z.leb_spec (- 2 ^ 31) (c - 1)); [|lia]. destruct (Z.ltb_spec (c - 1) (2 ^ 31)); [|lia]. cbn [andb bind]. eexists. split; [reflexivity|]. destruct (Z.ltb_spec (c - 1) 1); lia.
Qed.
