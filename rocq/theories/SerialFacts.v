(** Facts on serialization. *)
From Coq Require Import String List Bool Arith ZArith Lia.
From Verif Require Import Dbl Outcome BaseFacts Problem Policies Migration Serialization SpecSerial.
Import ListNotations.
Local Open Scope list_scope.

Lemma cut_app {A} n (s1 s2 : list A) : n < List.length (s1 ++ s2) -> (n < List.length s1 /\ firstn n (s1 ++ s2) = firstn n s1) \/ (exists m, m < List.length s2 /\ firstn n (s1 ++ s2) = s1 ++ firstn m s2).
Proof.
  intros H. rewrite app_length in H. rewrite firstn_app. destruct (Nat.lt_ge_cases n (List.length s1)) as [L|L].
  - left. split; [exact L|]. replace (n - List.length s1) with 0 by lia. cbn. now rewrite app_nil_r.
  - right. exists (n - List.length s1). split; [lia|]. now rewrite (firstn_all2 s1).
Qed.
Lemma cut_one {A} n (a : A) : n < 1 -> firstn n [a] = [].
Proof. intros H. now replace n with 0 by lia. Qed.

(** codecs *)
Lemma good_int z : good_codec c_int z.
Proof. split; [reflexivity|]. intros [|n] H; [|cbn in H; lia]. eexists. reflexivity. Qed.
Lemma good_dbl z : good_codec c_dbl z.
Proof. split; [reflexivity|]. intros [|n] H; [|cbn in H; lia]. eexists. reflexivity. Qed.
Lemma good_bool z : good_codec c_bool z.
Proof. split; [reflexivity|]. intros [|n] H; [|cbn in H; lia]. eexists. reflexivity. Qed.
Lemma good_str z : good_codec c_str z.
Proof. split; [reflexivity|]. intros [|n] H; [|cbn in H; lia]. eexists. reflexivity. Qed.
Lemma good_enum {A} (to : A -> Z) of (a : A) : of (to a) = a -> good_codec (c_enum to of) a.
Proof. intros E. split; [intros rest; cbn; now rewrite E|]. intros [|n] H; [|cbn in H; lia]. eexists. reflexivity. Qed.
Lemma good_eng {G} (t : engine_text G) g : good_engine t g -> good_codec (c_engine t) g.
Proof. intros E. split; [intros rest; cbn; unfold good_engine in E; now rewrite E|]. intros [|n] H; [|cbn in H; lia]. eexists. reflexivity. Qed.
Lemma good_dec_n {A} (c : codec A) l : Forall (good_codec c) l -> (forall rest, dec_n (dec c) (List.length l) (concat (map (enc c) l) ++ rest) = Ok (l, rest)) /\
  (forall n, n < List.length (concat (map (enc c) l)) -> exists e, dec_n (dec c) (List.length l) (firstn n (concat (map (enc c) l))) = Throw e).
Proof.
  induction 1 as [|a l [G1 G2] F [IH1 IH2]]; [split; [reflexivity|intros n H; cbn in H; lia]|]. cbn [map concat List.length dec_n]. split.
  - intros rest. rewrite <- app_assoc, G1. cbn [bind snd fst]. now rewrite IH1.
  - intros n H. destruct (cut_app _ _ _ H) as [[L ->]|(m & L & ->)].
    + destruct (G2 n L) as [e ->]. exists e. reflexivity.
    + rewrite G1. cbn [bind snd fst]. destruct (IH2 m L) as [e ->]. exists e. reflexivity.
Qed.
Lemma good_list {A} (c : codec A) l : (forall a, In a l -> good_codec c a) -> good_codec (c_list c) l.
Proof.
  intros F. apply Forall_forall in F. destruct (good_dec_n c l F) as [H1 H2]. split.
  - intros rest. cbn [enc dec c_list c_int app bind fst snd]. rewrite Nat2Z.id. apply H1.
  - intros [|n] H; [eexists; reflexivity|]. cbn [enc dec c_list c_int firstn bind fst snd] in *. rewrite Nat2Z.id. apply H2. cbn in H. lia.
Qed.
Lemma good_snoc {A B} (ca : codec A) (cb : codec B) a b : good_codec ca a -> good_codec cb b -> good_codec (c_snoc ca cb) (a, b).
Proof.
  intros [A1 A2] [B1 B2]. split.
  - intros rest. cbn [enc dec c_snoc fst snd]. rewrite <- app_assoc, B1. cbn [bind fst snd]. rewrite A1. reflexivity.
  - intros n H. cbn [enc dec c_snoc fst snd] in *. destruct (cut_app _ _ _ H) as [[L ->]|(m & L & ->)].
    + destruct (B2 n L) as [e ->]. exists e. reflexivity.
    + rewrite B1. cbn [bind fst snd]. destruct (A2 m L) as [e ->]. exists e. reflexivity.
Qed.
Lemma good_via {A B} (to : A -> B) of c a : of (to a) = a -> good_codec c (to a) -> good_codec (c_via to of c) a.
Proof.
  intros E [H1 H2]. split; [intros rest; cbn [enc dec c_via]; rewrite H1; cbn [bind fst snd]; now rewrite E|]. intros n H. cbn [enc dec c_via] in *. destruct (H2 n H) as [e ->]. exists e. reflexivity.
Qed.
Lemma good_dbls (l : list dbl) : good_codec (c_list c_dbl) l.
Proof. apply good_list. intros. apply good_dbl. Qed.
Lemma good_ints (l : list Z) : good_codec (c_list c_int) l.
Proof. apply good_list. intros. apply good_int. Qed.
Lemma good_dblss (l : list (list dbl)) : good_codec (c_list (c_list c_dbl)) l.
Proof. apply good_list. intros. apply good_dbls. Qed.
Lemma good_group g : good_codec c_group g.
Proof. apply good_via; [now destruct g|]. repeat apply good_snoc; auto using good_ints, good_dblss. Qed.
Lemma good_nat n : good_codec c_nat n.
Proof. apply good_via; [apply Nat2Z.id|apply good_int]. Qed.
Lemma good_entry e : good_codec c_entry e.
Proof. apply good_via; [now destruct e|]. repeat apply good_snoc; auto using good_dbl, good_int, good_dbls, good_nat. Qed.
Lemma good_ts t : good_codec c_ts t.
Proof. apply good_enum. now destruct t. Qed.

(** loaders *)
Definition reads {T} (s : stream) (l : loader T) (u : T -> T) : Prop := restores s l u /\ refuses_truncated s l.
Definition both {T} (u1 u2 : T -> T) : T -> T := fun t => u2 (u1 t).
Definition put {T B} (get : T -> B) (set : B -> T -> T) (u : B -> B) : T -> T := fun t => set (u (get t)) t.
Lemma reads_prim {A} (c : codec A) a : good_codec c a -> reads (enc c a) (prim c) (fun _ => a).
Proof. intros [H1 H2]. split; [intros old rest; unfold prim; now rewrite H1|]. intros old n H. unfold prim. destruct (H2 n H) as [e ->]. eauto. Qed.
Lemma reads_member {T B} (get : T -> B) set l s u : reads s l u -> reads s (member get set l) (put get set u).
Proof. intros [H1 H2]. split; [intros old rest; unfold member; now rewrite H1|]. intros old n H. unfold member. destruct (H2 (get old) n H) as (e & t & ->). eauto. Qed.
Lemma reads_nil {T} : reads [] (fun (t : T) ts => (Ok ts, t)) (fun t => t).
Proof. split; [intros old rest; reflexivity|]. intros old n H. cbn in H. lia. Qed.
Lemma reads_then {T} s1 s2 (l1 l2 : loader T) u1 u2 : reads s1 l1 u1 -> reads s2 l2 u2 -> reads (s1 ++ s2) (andthen l1 l2) (both u1 u2).
Proof.
  intros [A1 A2] [B1 B2]. split.
  - intros old rest. unfold andthen. rewrite <- app_assoc, A1. apply B1.
  - intros old n H. unfold andthen. destruct (cut_app _ _ _ H) as [[L ->]|(m & L & ->)]; [destruct (A2 old n L) as (e & t & ->); eauto|]. rewrite A1. apply B2. exact L.
Qed.
Lemma reads_last {T} s (l : loader T) u : reads s l u -> reads s (andthen l (fun t ts => (Ok ts, t))) u.
Proof. intros H. rewrite <- (app_nil_r s). exact (reads_then _ _ _ _ _ _ H reads_nil). Qed.
Lemma reads_reset {T} (d : T) s l u : reads s l u -> reads s (or_reset d l) u.
Proof. intros [H1 H2]. split; [intros old rest; unfold or_reset; now rewrite H1|]. intros old n H. unfold or_reset. destruct (H2 old n H) as (e & t & ->). eauto. Qed.
Lemma resets {T} (d : T) l : resets_on_failure (or_reset d l) d.
Proof. intros old ts e t. unfold or_reset. destruct (l old ts) as [o t1]. destruct o; congruence. Qed.
Lemma reads_ext {T} s (l : loader T) u u' : (forall t, u t = u' t) -> reads s l u -> reads s l u'.
Proof. intros E [H1 H2]. split; [|exact H2]. intros old rest. rewrite H1. now rewrite E. Qed.

Ltac chain := repeat match goal with
  | |- reads _ (from_archive (_ :: _)) _ => cbn [from_archive fold_right]
  | |- reads (_ ++ _) (andthen _ _) _ => eapply reads_then
  | |- reads _ (andthen _ (fun t ts => (Ok ts, t))) _ => eapply reads_last
  | |- reads _ (member _ _ _) _ => eapply reads_member
  | |- reads (enc _ _) (prim _) _ => apply reads_prim
  end.

Section Problem.
Context {U : Type} (cu : codec U) (default : problem_obj U).
Lemma problem_reads p : good_problem cu p -> reads (save_problem cu p) (load_problem cu default) (fun _ => p).
Proof.
  intros GP. unfold load_problem. apply reads_reset.
  set (F := fun l : plocal (U := U) => mkpl (mkprob (m_ptr p) (m_fevals (l_obj l)) (m_gevals (l_obj l)) (m_hevals (l_obj l)) (m_lb p) (m_ub p) (m_nobj p) (m_nec p) (m_nic p) (m_nix p) (m_c_tol p) (m_has_batch_fitness p) (m_has_gradient p) (m_has_gradient_sparsity p) (m_has_hessians p) (m_has_hessians_sparsity p) (m_has_set_seed p) (m_name p) (m_gs_dim p) (m_hs_dim p) (m_thread_safety p)) (m_fevals p) (m_gevals p) (m_hevals p)).
  assert (R : reads (save_problem cu p) (load_problem_members cu) F).
  { eapply reads_ext; [|unfold load_problem_members, save_problem; chain; auto using good_int, good_dbl, good_bool, good_str, good_dbls, good_ints, good_ts]. intros l. reflexivity. }
  destruct R as [R1 R2]. split.
  - intros old rest. rewrite R1. now destruct p.
  - intros old n H. destruct (R2 (mkpl old 0 0 0) n H) as (e & t & ->). eauto.
Qed.
End Problem.
Lemma algorithm_reads {U} (cu : codec U) d a : good_codec cu (a_ptr a) -> reads (save_algorithm cu a) (load_algorithm cu d) (fun _ => a).
Proof.
  intros GP. unfold load_algorithm. apply reads_reset. eapply reads_ext; [|unfold save_algorithm; chain; auto using good_int, good_dbl, good_bool, good_str, good_dbls, good_ints, good_ts]. intros l. now destruct a.
Qed.
Lemma named_reads {U} (cu : codec U) d a : good_codec cu (n_ptr a) -> reads (save_named cu a) (load_named cu d) (fun _ => a).
Proof.
  intros GP. unfold load_named. apply reads_reset. eapply reads_ext; [|unfold save_named; chain; auto using good_int, good_dbl, good_bool, good_str, good_dbls, good_ints, good_ts]. intros l. now destruct a.
Qed.
Lemma bfe_reads {U} (cu : codec U) d a : good_codec cu (b_ptr a) -> reads (save_bfe cu a) (load_bfe cu d) (fun _ => a).
Proof.
  intros GP. unfold load_bfe. apply reads_reset. eapply reads_ext; [|unfold save_bfe; chain; auto using good_int, good_dbl, good_bool, good_str, good_dbls, good_ints, good_ts]. intros l. now destruct a.
Qed.
Lemma population_reads {U G} (cu : codec U) (et : engine_text G) dp d p : good_population cu et p -> reads (save_population cu et p) (load_population cu et dp d) (fun _ => p).
Proof.
  intros [G1 G2]. unfold load_population. apply reads_reset. eapply reads_ext; [|unfold save_population; chain; [apply problem_reads; exact G1|..]; auto using good_int, good_dbl, good_bool, good_str, good_dbls, good_ints, good_ts, good_dblss, good_eng]. intros l. destruct p. reflexivity.
Qed.
Section Island.
Context {UI UA UP UR US G : Type} (ci : codec UI) (ca : codec UA) (cp : codec UP) (cr : codec UR) (cs : codec US) (et : engine_text G)
  (dprob : problem_obj UP) (dpop : population_obj UP G) (dalgo : algorithm_obj UA) (drp : named_obj UR) (dsp : named_obj US) (default : island_obj UI UA UP UR US G).
Notation load_isl := (load_island ci ca cp cr cs et dprob dpop dalgo drp dsp default).
Notation save_isl := (save_island ci ca cp cr cs et).
Lemma island_reads x : good_island ci ca cp cr cs et x -> reads (save_isl x) load_isl (fun old => placed (i_archi old) x).
Proof.
  intros (G1 & G2 & G3 & G4 & G5). unfold load_island. apply reads_reset. eapply reads_ext; [|unfold save_island; chain; [exact G1|apply algorithm_reads; exact G2|apply population_reads; exact G3|apply named_reads; exact G4|apply named_reads; exact G5]]. intros l. reflexivity.
Qed.
Lemma elems_read (xs : list (island_obj UI UA UP UR US G)) : Forall (good_island ci ca cp cr cs et) xs ->
  (forall rest, load_elems load_isl (concat (map save_isl xs) ++ rest) (repeat default (List.length xs)) = (Ok rest, map (placed (i_archi default)) xs)) /\
  (forall n, n < List.length (concat (map save_isl xs)) -> exists e l, load_elems load_isl (firstn n (concat (map save_isl xs))) (repeat default (List.length xs)) = (Throw e, l)).
Proof.
  induction 1 as [|x xs GX F [IH1 IH2]]; [split; [reflexivity|intros n H; cbn in H; lia]|]. destruct (island_reads x GX) as [R1 R2]. cbn [map concat List.length repeat load_elems]. split.
  - intros rest. rewrite <- app_assoc, R1. now rewrite IH1.
  - intros n H. destruct (cut_app _ _ _ H) as [[L ->]|(m & L & ->)].
    + destruct (R2 default n L) as (e & t & ->). eauto.
    + rewrite R1. destruct (IH2 m L) as (e & l & ->). eauto.
Qed.

Context {UT : Type} (ct : codec UT) (dtopo : named_obj UT).
Notation load_arc := (load_archipelago ci ca cp cr cs et dprob dpop dalgo drp dsp default ct dtopo).
Notation save_arc := (save_archipelago ci ca cp cr cs et ct).
Lemma islands_read fresh (l : list (nat * island_obj UI UA UP UR US G)) : (forall p, In p l -> good_island ci ca cp cr cs et (snd p)) ->
  reads (TInt (Z.of_nat (List.length l)) :: concat (map (fun p => save_isl (snd p)) l)) (load_islands ci ca cp cr cs et dprob dpop dalgo drp dsp default fresh)
    (fun _ => combine (map fresh (seq 0 (List.length l))) (map (fun p => placed (i_archi default) (snd p)) l)).
Proof.
  intros GL. assert (F : Forall (good_island ci ca cp cr cs et) (map snd l)) by (apply Forall_forall; intros x I; apply in_map_iff in I; destruct I as (p & <- & I); now apply GL).
  destruct (elems_read _ F) as [E1 E2]. rewrite map_map, map_length in *. split.
  - intros old rest. cbn [load_islands app dec c_int]. rewrite Nat2Z.id, E1. rewrite map_map, map_length. reflexivity.
  - intros old [|n] H; [eexists; eexists; reflexivity|]. cbn [load_islands firstn dec c_int]. rewrite Nat2Z.id. destruct (E2 n) as (e & t & ->); [cbn in H; lia|]. eauto.
Qed.
(** the loaded archipelago *)
Definition loaded this fresh (a : archipelago_obj UI UA UP UR US G UT) : archipelago_obj UI UA UP UR US G UT :=
  mkarchi (combine (map fresh (seq 0 (List.length (r_islands a)))) (map (fun p => placed (Some this) (snd p)) (r_islands a)))
    (combine (map fresh (seq 0 (List.length (r_islands a)))) (seq 0 (List.length (r_islands a)))) (r_migrants a) (r_log a) (r_topology a) (r_type a) (r_handling a).
Lemma nth_error_combine {A B} (l : list A) (k : list B) i : nth_error (combine l k) i = match nth_error l i, nth_error k i with Some a, Some b => Some (a, b) | _, _ => None end.
Proof. revert k i. induction l as [|a l IH]; intros [|b k] [|i]; cbn; try reflexivity; [now destruct (nth_error l i)|apply IH]. Qed.
Lemma nth_error_seq n i : nth_error (seq 0 n) i = if Nat.ltb i n then Some i else None.
Proof.
  destruct (Nat.ltb i n) eqn:L.
  - apply Nat.ltb_lt in L. rewrite (nth_error_nth' _ 0) by now rewrite seq_length. now rewrite seq_nth.
  - apply Nat.ltb_ge in L. apply nth_error_None. now rewrite seq_length.
Qed.
Lemma combine_fst {A B} (l : list A) (k : list B) : List.length l = List.length k -> map fst (combine l k) = l.
Proof. revert k. induction l as [|a l IH]; intros [|b k] H; cbn in *; try reflexivity; try discriminate. f_equal. apply IH. lia. Qed.
Lemma combine_map_r {A B C} (g : B -> C) (l : list A) k : map (fun p => (fst p, g (snd p))) (combine l k) = combine l (map g k).
Proof. revert k. induction l as [|a l IH]; intros [|b k]; cbn; try reflexivity. f_equal. apply IH. Qed.
Lemma combine_snd {A B} (l : list A) (k : list B) : List.length l = List.length k -> map snd (combine l k) = k.
Proof. revert k. induction l as [|a l IH]; intros [|b k] H; cbn in *; try reflexivity; try discriminate. f_equal. apply IH. lia. Qed.
Lemma archipelago_reads this fresh a : (forall p, In p (r_islands a) -> good_island ci ca cp cr cs et (snd p)) -> good_codec ct (n_ptr (r_topology a)) ->
  reads (save_arc a) (load_arc this fresh) (fun _ => loaded this fresh a).
Proof.
  intros GI GT. unfold load_archipelago. apply reads_reset. eapply reads_ext.
  2: { unfold save_archipelago. cbn [from_archive fold_right]. eapply reads_then; [eapply reads_member; apply islands_read; exact GI|]. rewrite <- (app_nil_l (enc (c_list c_group) _ ++ _)). eapply reads_then; [|chain].
       - instantiate (1 := remap this). split; [intros old rest; reflexivity|]. intros old n H. cbn in H. lia.
       - apply good_list. intros; apply good_group.
       - apply good_list. intros; apply good_entry.
       - apply named_reads. exact GT.
       - apply good_enum. now destruct (r_type a).
       - apply good_enum. now destruct (r_handling a). }
  intros t. set (L := combine (map fresh (seq 0 (List.length (r_islands a)))) (map (fun p : nat * island_obj UI UA UP UR US G => placed (i_archi default) (snd p)) (r_islands a))).
  transitivity (mkarchi (map (fun p => (fst p, placed (Some this) (snd p))) L) (combine (map fst L) (seq 0 (List.length L))) (r_migrants a) (r_log a) (r_topology a) (r_type a) (r_handling a)); [reflexivity|]. unfold loaded, L.
  assert (LN : List.length (map fresh (seq 0 (List.length (r_islands a)))) = List.length (map (fun p : nat * island_obj UI UA UP UR US G => placed (i_archi default) (snd p)) (r_islands a))) by (now rewrite !map_length, seq_length).
  rewrite combine_fst by exact LN. rewrite combine_length, <- LN, Nat.min_id, map_length, seq_length. f_equal.
  rewrite (combine_map_r (placed (Some this))). rewrite map_map. reflexivity.
Qed.
Lemma loaded_same this fresh a : same_archipelago a (loaded this fresh a).
Proof.
  unfold same_archipelago, loaded. cbn [r_islands r_migrants r_log r_topology r_type r_handling]. split; [|auto].
  rewrite <- (map_map snd (placed None)). rewrite combine_snd by now rewrite !map_length, seq_length. rewrite map_map. reflexivity.
Qed.
Lemma loaded_linked this fresh a : (forall i j, fresh i = fresh j -> i = j) -> linked this (loaded this fresh a).
Proof.
  intros INJ. unfold linked, loaded. cbn [r_islands r_idx_map]. set (n := List.length (r_islands a)).
  split; [|split].
  - intros [ad x] I. apply in_combine_r in I. apply in_map_iff in I. destruct I as (p & <- & _). reflexivity.
  - intros ad i. split.
    + intros I. apply In_nth_error in I. destruct I as [k I]. rewrite nth_error_combine, nth_error_map, !nth_error_seq in I. destruct (Nat.ltb k n) eqn:L; [|discriminate]. cbn in I. injection I as <- <-. apply Nat.ltb_lt in L.
      destruct (nth_error (r_islands a) k) as [p|] eqn:P; [|apply nth_error_None in P; unfold n in L; lia]. exists (placed (Some this) (snd p)). rewrite nth_error_combine, !nth_error_map, nth_error_seq, P. apply Nat.ltb_lt in L. now rewrite L.
    + intros (x & I). rewrite nth_error_combine, nth_error_map, nth_error_seq in I. destruct (Nat.ltb i n) eqn:L; [|discriminate]. cbn in I. destruct (nth_error _ i) in I; [|discriminate]. injection I as <- _.
      apply nth_error_In with (n := i). rewrite nth_error_combine, nth_error_map, !nth_error_seq, L. reflexivity.
  - rewrite combine_fst by now rewrite map_length. apply FinFun.Injective_map_NoDup; [exact INJ|apply seq_NoDup].
Qed.
End Island.
