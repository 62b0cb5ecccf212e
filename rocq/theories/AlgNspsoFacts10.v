(** With the niche count the leaders come in the order of their niche counts. *)
From Coq Require Import List Bool Arith ZArith Lia Permutation Sorted.
From Verif Require Import Dbl DblFacts IntDbl Compare CompareFacts Outcome BaseFacts StdSort SpecOrder MultiObj SpecMultiObj MultiObjFacts MultiObjFacts2 CrowdFacts Problem Generic AlgPsoFacts2 AlgoFacts2 AlgNspso AlgNspsoFacts AlgNspsoFacts9 SpecNiche.
Import ListNotations.

Lemma filter_map {A B} (p : B -> bool) (g : A -> B) l : length (filter p (map g l)) = length (filter (fun x => p (g x)) l).
Proof. induction l as [|x l IH]; [reflexivity|]. cbn [map filter]. destruct (p (g x)); cbn [length]; now rewrite IH. Qed.
Lemma filter_le {A} (p : A -> bool) l : length (filter p l) <= length l.
Proof. induction l as [|x l IH]; [apply le_n|]. cbn [filter length]. destruct (p x); cbn [length]; lia. Qed.
Lemma filter_perm {A} (p : A -> bool) l m : Permutation l m -> length (filter p l) = length (filter p m).
Proof. induction 1; cbn [filter]; try (destruct (p x)); try (destruct (p y)); cbn [length]; congruence. Qed.
Lemma picked {A} (l : list A) d idx xs : Forall2 (fun i x => nth_error l i = Some x) idx xs -> xs = map (fun i => nth i l d) idx.
Proof. induction 1 as [|i x idx xs E F IH]; [reflexivity|]. cbn [map]. rewrite (nth_error_nth _ _ d E), <- IH. reflexivity. Qed.
Lemma sorted_pos {A} (R : A -> A -> Prop) l : StronglySorted R l -> forall i j x y, i < j -> nth_error l i = Some x -> nth_error l j = Some y -> R x y.
Proof.
  induction 1 as [|a l H IH F]; intros i j x y L X Y; [destruct i; discriminate|]. destruct j as [|j]; [lia|]. cbn in Y. destruct i as [|i]; cbn in X.
  - injection X as <-. rewrite Forall_forall in F. apply F. eapply nth_error_In; eauto.
  - apply (IH i j); [lia|assumption|assumption].
Qed.
Lemma count_order m n : (Z.of_nat m < 2 ^ 53)%Z -> (Z.of_nat n < 2 ^ 53)%Z -> less_than_f (d_of_Z (Z.of_nat n)) (d_of_Z (Z.of_nat m)) = false -> m <= n.
Proof.
  intros Hm Hn. rewrite !d_of_Z_int by lia. unfold dint, less_than_f, less_than_f_gen. cbn [isnan negb]. intros H. destruct (Nat.le_gt_cases m n) as [|L]; [assumption|].
  pose proof one_z_pos. assert (K : dlt (Fin (Z.of_nat n * one_z)) (Fin (Z.of_nat m * one_z)) = true) by (unfold dlt; apply Z.ltb_lt; nia). congruence.
Qed.
Lemma niche_order srt pw fit dvs M nx : sort_contract srt -> uniform fit M -> 2 <= M -> 2 <= length fit -> (Z.of_nat (length fit) < 2 ^ 53)%Z -> length dvs = length fit -> (forall x, In x dvs -> length x = nx) ->
  (exists i j, nondominated fit i /\ nondominated fit j /\ i <> j) ->
  exists delta b, np_leaders srt pw NicheCount M fit dvs = Ok b /\ (forall i, In i b <-> nondominated fit i) /\
    forall i j a c, i < j -> nth_error b i = Some a -> nth_error b j = Some c -> near pw dvs b delta a <= near pw dvs b delta c.
Proof.
  intros SC U HM HN HB LD HX (i0 & j0 & A & B & N). unfold np_leaders. destruct (fnds_ok fit M U HN) as (t & -> & FD & _). cbn [bind]. destruct (sort_mo_ok srt fit M SC U HM HN) as (idx & Ei & _).
  destruct (front0 fit (fr_fronts t) FD HN) as (f0 & rest & EF & NE & ND & H0 & L0 & _). rewrite EF.
  assert (TWO : 1 < length f0). { apply H0 in A, B. destruct f0 as [|x [|y f0]]; cbn [In length] in *; try tauto; [|lia]. destruct A as [A|[]], B as [B|[]]. congruence. }
  rewrite Ei. cbn [bind vget nth_error]. destruct (mmap_vget dvs f0) as (xs & Ex & Fx); [intros i Hi; rewrite LD; apply H0 in Hi; exact (proj1 Hi)|]. rewrite Ex. cbn [bind].
  destruct (nadir_ok fit M U HN) as (nad & -> & Ln & _). destruct (ideal_ok fit M U) as (idl & -> & Lid & _); [intros ->; cbn in HN; lia|]. cbn [bind]. destruct (niche_delta_ok pw M (length xs) nad idl Ln Lid) as (delta & ->). cbn [bind].
  pose proof (mmap_ok_length _ _ _ Ex) as LX. apply (picked dvs []) in Fx.
  assert (XL : forall x, In x xs -> length x = nx). { intros x Hx. subst xs. apply in_map_iff in Hx. destruct Hx as (k & <- & Hk). apply HX, nth_In. rewrite LD. apply H0 in Hk. exact (proj1 Hk). }
  rewrite (niche_count_is pw delta xs nx XL). cbn [bind]. match goal with |- context [sort_by srt ?v _] => set (vals := v) end.
  assert (VAL : forall k, k < length f0 -> cmpn vals k = d_of_Z (Z.of_nat (near pw dvs f0 delta (nth k f0 0)))).
  { intros k Hk. unfold cmpn, vals. rewrite map_map. rewrite (nth_indep _ NaN ((fun x => d_of_Z (Z.of_nat (length (filter (fun y => dlt (dsqrt (fold_left (fun s i => dadd s (pw (dsub (nth i x NaN) (nth i y NaN)) (d_of_Z 2))) (seq 0 nx) dzero)) delta) xs)))) (nth 0 dvs []))) by (rewrite map_length; lia).
    rewrite (map_nth (fun x => d_of_Z (Z.of_nat (length (filter _ xs)))) xs (nth 0 dvs []) k). f_equal. f_equal. unfold near. rewrite Fx at 1. rewrite filter_map.
    assert (EK : nth k xs (nth 0 dvs []) = nth (nth k f0 0) dvs []) by (rewrite Fx; apply (map_nth (fun i => nth i dvs []) f0 0 k)). rewrite EK. unfold distance.
    assert (LK : length (nth (nth k f0 0) dvs []) = nx) by (apply HX, nth_In; rewrite LD; apply H0, nth_In; exact Hk). rewrite LK. reflexivity. }
  destruct (sort_by_ok srt vals (length xs) SC) as (sl & -> & PS & SO). cbn [bind]. destruct (Nat.ltb_spec 1 (length f0)); [|lia].
  destruct (perm_facts _ _ PS) as (LS & _ & IS). destruct (mmap_vget f0 sl) as (b & -> & Fb); [intros i Hi; apply IS in Hi; lia|]. rewrite LX in PS. pose proof (perm_pick f0 sl b PS Fb) as PB. exists delta, b. split; [reflexivity|].
  split; [intros i; rewrite <- H0; split; intros K; [eapply Permutation_in; [apply Permutation_sym, PB|exact K]|eapply Permutation_in; eauto]|].
  intros i j a c L Ea Ec. apply (picked f0 0) in Fb. rewrite Fb in Ea, Ec. rewrite nth_error_map in Ea, Ec. destruct (nth_error sl i) as [p|] eqn:Ep; [|discriminate]. destruct (nth_error sl j) as [q|] eqn:Eq; [|discriminate]. cbn in Ea, Ec. injection Ea as <-. injection Ec as <-.
  pose proof (sorted_pos _ _ SO i j p q L Ep Eq) as K. cbn beta in K. assert (Hp : p < length f0) by (rewrite <- LX; apply IS; eapply nth_error_In; eauto). assert (Hq : q < length f0) by (rewrite <- LX; apply IS; eapply nth_error_In; eauto).
  rewrite !VAL in K by assumption. assert (BD : forall k, (Z.of_nat (near pw dvs f0 delta k) < 2 ^ 53)%Z).
  { intros k. unfold near. pose proof (filter_le (fun m => dlt (distance pw (nth k dvs []) (nth m dvs [])) delta) f0). lia. }
  apply count_order in K; [|apply BD|apply BD]. unfold near in *. rewrite <- !(filter_perm _ _ _ PB). exact K.
Qed.

Definition corner_points : list (list dbl) := [[Fin 0; Fin 2]; [Fin 1; Fin 1]; [Fin 2; Fin 0]].
Lemma corner_uniform : uniform corner_points 2. Proof. intros x [<-|[<-|[<-|[]]]]; reflexivity. Qed.
Lemma corner_two : exists i j, nondominated corner_points i /\ nondominated corner_points j /\ i <> j.
Proof.
  destruct (fnds_ok corner_points 2 corner_uniform ltac:(cbn; lia)) as (t & E & FD & _). destruct (front0 corner_points (fr_fronts t) FD ltac:(cbn; lia)) as (f0 & rest & EF & _ & _ & H0 & _).
  assert (V : fast_non_dominated_sorting corner_points = Ok t /\ exists q, fast_non_dominated_sorting corner_points = Ok q /\ fr_fronts q = [[0; 1; 2]]) by (split; [exact E|eexists; split; [vm_compute; reflexivity|reflexivity]]).
  destruct V as (_ & q & Eq & Fq). rewrite E in Eq. injection Eq as ->. rewrite Fq in EF. injection EF as <- _. exists 0, 1. split; [apply H0; now left|]. split; [apply H0; right; now left|discriminate].
Qed.
