(** NSPSO: the constructor, runs in the box, batch evaluation. *)
From Coq Require Import List Bool Arith ZArith Lia Permutation.
From Verif Require Import Dbl DblFacts IntDbl Compare CompareFacts Outcome BaseFacts GenericFacts GenericFacts3 StdSort SpecOrder MultiObj SpecMultiObj Problem SpecProblem ProblemFacts ProblemFacts2 Rng Generic SpecGeneric SpecGenetic RmFacts GeneticOps GeneticFacts
  Population SpecPopulation PopulationFacts Algo SpecAlgo AlgoFacts AlgoFacts2 AlgSga AlgSgaFacts4 SpecNsga2 AlgNsga2 SpecCmaes SpecSwarm AlgPso AlgSaFacts AlgGwoFacts AlgGwoFacts2 AlgPsoFacts3 AlgMoeadGenFacts AlgNspso SpecNspso AlgNspsoFacts AlgNspsoFacts2.
From Verif Require AlgNsga2Facts4 AlgNsga2Facts5 AlgPsoFacts2 AlgPsoGenFacts AlgMoeadGenFacts3.
Import ListNotations.

Lemma lt_nan x y : y <> NaN -> dlt x y = false <-> nan_or x (dle y x = true).
Proof.
  intros N. unfold nan_or. split.
  - intros H. destruct x; [left; reflexivity| | |]; right; apply dlt_false_dle; auto; discriminate.
  - intros [->|H]; [destruct y; reflexivity|now apply dle_dlt_false].
Qed.
Lemma gt_nan x y : y <> NaN -> dgt x y = false <-> nan_or x (dle x y = true).
Proof.
  intros N. unfold nan_or, dgt. split.
  - intros H. destruct x; [left; reflexivity| | |]; right; apply dlt_false_dle; auto; discriminate.
  - intros [->|H]; [destruct y; reflexivity|now apply dle_dlt_false].
Qed.
Lemma le_nan x y : y <> NaN -> dle x y = false <-> nan_or x (dlt y x = true).
Proof.
  intros N. unfold nan_or. split.
  - intros H. destruct (dlt y x) eqn:D; [auto|]. left. assert (K : x = NaN \/ x <> NaN) by (destruct x; [left; reflexivity| | |]; right; discriminate). destruct K as [K|K]; [exact K|]. apply (dlt_false_dle y x N K) in D. congruence.
  - intros [->|H]; [destruct y; reflexivity|]. destruct (dle x y) eqn:D; [|reflexivity]. apply dle_dlt_false in D. congruence.
Qed.
Lemma construct_ok gen omega c1 c2 chi vcoeff range d memory a :
  nspso_construct gen omega c1 c2 chi vcoeff range d memory = Ok a <-> np_accepts omega c1 c2 chi vcoeff range /\ exists d', d = Some d' /\ a = mknspso gen omega c1 c2 chi vcoeff range d' memory.
Proof.
  assert (NZ : dzero <> NaN) by discriminate. assert (NO : done <> NaN) by discriminate. unfold nspso_construct, np_accepts, within.
  pose proof (lt_nan omega dzero NZ) as A1. pose proof (gt_nan omega done NO) as A2. pose proof (le_nan c1 dzero NZ) as A3. pose proof (le_nan c2 dzero NZ) as A4. pose proof (le_nan chi dzero NZ) as A5. pose proof (le_nan vcoeff dzero NZ) as A6. pose proof (gt_nan vcoeff done NO) as A7. unfold nan_or in *.
  destruct (dlt omega dzero); cbn [orb]; [split; [discriminate|]; intros (([H|H] & _) & _); destruct A1 as [_ A1]; [specialize (A1 (or_introl H))|specialize (A1 (or_intror (proj1 H)))]; discriminate|].
  destruct (dgt omega done); [split; [discriminate|]; intros (([H|H] & _) & _); destruct A2 as [_ A2]; [specialize (A2 (or_introl H))|specialize (A2 (or_intror (proj2 H)))]; discriminate|].
  destruct (dle c1 dzero); cbn [orb]; [split; [discriminate|]; intros ((_ & H & _) & _); apply A3 in H; discriminate|].
  destruct (dle c2 dzero); cbn [orb]; [split; [discriminate|]; intros ((_ & _ & H & _) & _); apply A4 in H; discriminate|].
  destruct (dle chi dzero); cbn [orb]; [split; [discriminate|]; intros ((_ & _ & _ & H & _) & _); apply A5 in H; discriminate|].
  destruct (dle vcoeff dzero); cbn [orb]; [split; [discriminate|]; intros ((_ & _ & _ & _ & H & _) & _); destruct A6 as [_ A6]; assert (K : true = false) by (apply A6; tauto); discriminate|].
  destruct (dgt vcoeff done); cbn [orb]; [split; [discriminate|]; intros ((_ & _ & _ & _ & H & _) & _); destruct A7 as [_ A7]; assert (K : true = false) by (apply A7; tauto); discriminate|].
  destruct (Nat.ltb_spec 100 range); [split; [discriminate|]; intros ((_ & _ & _ & _ & _ & H1) & _); lia|].
  assert (AC : np_accepts omega c1 c2 chi vcoeff range). { unfold np_accepts, within, nan_or. destruct A1 as [A1 _], A2 as [A2 _], A3 as [A3 _], A4 as [A4 _], A5 as [A5 _], A6 as [A6 _], A7 as [A7 _]. specialize (A1 eq_refl). specialize (A2 eq_refl). specialize (A3 eq_refl). specialize (A4 eq_refl). specialize (A5 eq_refl). specialize (A6 eq_refl). specialize (A7 eq_refl). tauto. }
  destruct d as [d|]; split; try discriminate.
  - intros E. injection E as <-. split; [exact AC|]. exists d. auto.
  - intros (_ & d' & E & ->). injection E as <-. reflexivity.
  - intros (_ & d' & E & _). discriminate.
Qed.
Lemma construct_throws gen omega c1 c2 chi vcoeff range d memory : ~ (np_accepts omega c1 c2 chi vcoeff range /\ d <> None) -> nspso_construct gen omega c1 c2 chi vcoeff range d memory = Throw InvalidArgument.
Proof.
  intros H. pose proof (construct_ok gen omega c1 c2 chi vcoeff range d memory) as C. destruct (nspso_construct _ _ _ _ _ _ _ _ _) as [a|e| |] eqn:E.
  - exfalso. apply H. destruct (C a) as [C1 _]. destruct (C1 eq_refl) as (A & d' & -> & _). split; [exact A|discriminate].
  - unfold nspso_construct in E. repeat (match type of E with context [if ?b then _ else _] => destruct b end); try (now injection E as <-); destruct d; [discriminate|now injection E as <-].
  - exfalso. unfold nspso_construct in E. repeat (match type of E with context [if ?b then _ else _] => destruct b; try discriminate E end); destruct d; discriminate.
  - exfalso. unfold nspso_construct in E. repeat (match type of E with context [if ?b then _ else _] => destruct b; try discriminate E end); destruct d; discriminate.
Qed.
Definition as_pso (a : nspso_params) : pso_params := mkpso 0 dzero dzero dzero (np_vcoeff a) 5 1 1 false.
Lemma made_v a : np_made a -> dle (np_vcoeff a) dzero = false /\ dgt (np_vcoeff a) done = false /\ np_range a <= 100.
Proof.
  intros (_ & _ & _ & _ & H & R). assert (NZ : dzero <> NaN) by discriminate. assert (NO : done <> NaN) by discriminate. split; [apply (le_nan _ _ NZ)|split; [apply (gt_nan _ _ NO)|exact R]]; unfold nan_or in *; tauto.
Qed.
Lemma np_wide a l u : dle (np_vcoeff a) dzero = false -> dgt (np_vcoeff a) done = false -> dle l u = true -> ok_real (dneg (np_width a l u)) (np_width a l u) -> dle (dneg (np_width a l u)) (np_width a l u) = true.
Proof. intros A B H. exact (wide (as_pso a) l u A B H). Qed.
Lemma np_move_box a l u r1 r2 v b x w : dle l u = true -> let y := snd (np_move1 a l u r1 r2 v b x w) in y = NaN \/ within l u y.
Proof.
  intros H. cbv zeta. unfold np_move1. cbv zeta. match goal with |- context [dadd x ?w] => set (v1 := w) end. set (y := dadd x v1). destruct (dle_not_nan l u H) as [Nl Nu].
  destruct (dgt y u) eqn:D2; [right; split; [exact H|now apply dle_refl]|]. destruct (dlt y l) eqn:D1; [right; split; [now apply dle_refl|exact H]|]. cbn [snd].
  destruct y as [| |z|] eqn:EY; [left; reflexivity| | |]; right; (split; (apply dlt_false_dle; [discriminate || assumption|discriminate || assumption|assumption])).
Qed.
Lemma rejects {G P} srt (r : rng G) pw fuel bfe (a : nspso_params) m (s : G * pop P) : ~ np_problem (po_prob (snd s)) \/ length (po_id (snd s)) < 2 -> np_evolve srt r pw fuel bfe a m s = (Throw InvalidArgument, s).
Proof.
  intros H. unfold np_evolve, rbind, getp, np_problem in *. cbv beta iota zeta. destruct (u_set_seed _); [reflexivity|]. destruct (Nat.eqb_spec (get_nc (po_prob (snd s))) 0) as [E1|E1]; cbn [negb]; [|reflexivity].
  destruct (Nat.ltb_spec (get_nf (po_prob (snd s))) 2) as [E2|E2]; [reflexivity|]. destruct (Nat.leb_spec (length (po_id (snd s))) 1); [reflexivity|]. exfalso. destruct H as [H|H]; [apply H; auto|lia].
Qed.
Lemma no_generations {G P} srt (r : rng G) pw fuel bfe (a : nspso_params) m (s : G * pop P) : np_problem (po_prob (snd s)) -> 2 <= length (po_id (snd s)) -> np_gen a = 0 -> np_evolve srt r pw fuel bfe a m s = (Ok m, s).
Proof.
  intros (A & B & C) H E. unfold np_evolve, rbind, getp. cbv beta iota zeta. rewrite A, B, E. cbn [Nat.eqb negb]. destruct (Nat.ltb_spec (get_nf (po_prob (snd s))) 2); [lia|]. destruct (Nat.leb_spec (length (po_id (snd s))) 1); [lia|]. reflexivity.
Qed.

Section R.
Context {G P : Type} (srt : sorter) (r : rng G) (pw : dbl -> dbl -> dbl) (fuel : nat) (bfe : option (problem -> list dbl -> outcome (list dbl))) (SC : sort_contract srt) (RC : rng_contract r) (a : nspso_params) (p : problem) (m : nspso_mem) (s : G * pop P).
Context (EP : po_prob (snd s) = p) (V : valid_pop (snd s)) (NP : np_problem p) (EV : evaluates bfe p) (Hn : 2 <= length (po_id (snd s))) (Hs : (Z.of_nat (length (po_id (snd s))) < 2 ^ 31)%Z) (FI : np_fits a p (length (po_id (snd s))) m) (HG : 0 < np_gen a).
Let n := length (po_id (snd s)).
Lemma T1 (x : list dbl) : Forall (fun _ => True) x. Proof. apply Forall_forall. auto. Qed.
Lemma st_any : state p n (fun _ => True) s.
Proof. pose proof V as (_ & (_ & _ & S3 & _) & _). rewrite EP in S3. split; [exact V|]. split; [exact EP|]. split; [reflexivity|]. apply Forall_forall. intros x Hx. split; [now apply S3|apply T1]. Qed.
Lemma fits_mem Good GV m' : mem_ok p n Good GV m' -> length (nm_f m') = n /\ length (nm_v m') = n /\ np_fits a p n m'.
Proof.
  intros (M1 & M2 & M3 & M4 & M5 & M6). split; [exact M1|]. split; [exact M5|]. intros _. split; [intros _; split; [exact M2|]; split; [|exact M4]; intros x Hx; rewrite Forall_forall in M3; apply (M3 x Hx)|]. intros _ v Hv. apply (M6 v Hv).
Qed.
Lemma np_ok_nan : np_made a -> ends_if_fuel (np_evolve srt r pw fuel bfe a m) s
  (fun m' s' => (exists b, np_first a m (snd s) b /\ np_steps p (in_box_or_nan (p_lb p) (p_ub p)) (np_div a) (np_gen a) b (snd s) (nm_x m', nm_f m') (snd s')) /\
     length (nm_f m') = length (po_id (snd s)) /\ length (nm_v m') = length (po_id (snd s)) /\ np_fits a p (length (po_id (snd s))) m') (np_fails a p).
Proof.
  intros M. pose proof V as (PO & _). rewrite EP in PO. destruct (made_v a M) as (M1 & M2 & HR).
  eapply ends_weak; [apply (evolve_ok srt SC r RC pw fuel bfe a p n PO NP EV HR Hn Hs (fun l u v => v = NaN \/ within l u v) (fun _ => True) (fun _ => True))| |intros e He; exact He].
  - intros i l u r1 r2 v b x w Nl Nu _ _ _ _ _ _. split; [exact I|]. split; [exact I|]. apply np_move_box. exact (prob_obj_ord p PO i l u Nl Nu).
  - auto.
  - intros i l u Nl Nu. apply np_wide; [exact M1|exact M2|]. exact (prob_obj_ord p PO i l u Nl Nu).
  - exact st_any.
  - exact FI.
  - intros _ _. apply Forall_forall. intros x _. apply T1.
  - intros _ _ v _. apply T1.
  - exact HG.
  - intros m' s' (b & A & B & C). split; [exists b; split; [exact A|exact B]|]. exact (fits_mem _ _ m' C).
Qed.
Local Open Scope Z_scope.
Local Opaque one_z Z.pow.
Lemma np_move_bnd l u r1 r2 v b x w : np_moderate a -> dle l u = true -> bnd 1974 l -> bnd 1974 u -> within dzero done r1 -> within dzero done r2 -> bnd 1975 v -> bnd 1974 b -> bnd 1974 x -> bnd 1974 w ->
  bnd 1975 (fst (np_move1 a l u r1 r2 v b x w)) /\ bnd 1974 (snd (np_move1 a l u r1 r2 v b x w)) /\ within l u (snd (np_move1 a l u r1 r2 v b x w)).
Proof.
  intros ((O1 & O2) & C1 & C2 & C3 & M1 & M2 & _) HL Bl Bu [U1 U2] [W1 W2] Bv Bb Bx Bw. assert (BM : bnd 1074 (np_vcoeff a)). { apply bnd_unit; [now apply dlt_dle|exact M2]. }
  assert (BW : bnd 1975 (np_width a l u)). { unfold np_width. apply bnd_mul_unit_r; [lia| |exact BM]. change 1975 with (1974 + 1). apply bnd_sub; [lia|exact Bu|exact Bl]. }
  assert (M0 : dle (np_vcoeff a) dzero = false). { destruct (dle (np_vcoeff a) dzero) eqn:Q; [|reflexivity]. apply dle_dlt_false in Q. congruence. }
  assert (M3 : dgt (np_vcoeff a) done = false) by (unfold dgt; now apply dle_dlt_false).
  destruct (width_le (as_pso a) l u M0 M3 HL (bnd_finite _ _ BW)) as (wd & EW & Hw). change (pso_width (as_pso a) l u) with (np_width a l u) in EW.
  pose proof (bnd_unit _ O1 O2) as BO. pose proof (four_bnd _ C1) as BC1. pose proof (four_bnd _ C2) as BC2. pose proof (four_bnd _ C3) as BC3. pose proof (bnd_unit _ U1 U2) as BR1. pose proof (bnd_unit _ W1 W2) as BR2.
  assert (C : forall e rr y, bnd 1076 e -> bnd 1074 rr -> bnd 1974 y -> bnd 1977 (dmul (dmul e rr) (dsub y x))).
  { intros e rr y Be Br By. change 1977 with (1975 + 2). apply bnd_mul; [lia|lia|lia| |]; [apply bnd_mul_unit_r; [lia|exact Be|exact Br]|]. change 1975 with (1974 + 1). apply bnd_sub; [lia|exact By|exact Bx]. }
  unfold np_move1. cbv zeta. set (v0 := dadd (dadd _ _) _). rewrite EW in *.
  assert (N0 : v0 <> NaN). { apply (bnd_not_nan 1979). unfold v0. change 1979 with (1978 + 1). apply bnd_add; [lia| |apply (bnd_weak 1977); [lia|now apply C]]. change 1978 with (1977 + 1). apply bnd_add; [lia| |now apply C]. apply (bnd_weak 1975); [lia|]. apply bnd_mul_unit; [lia|exact BO|exact Bv]. }
  clearbody v0. set (v1 := if dgt v0 (Fin wd) then Fin wd else if dlt v0 (dneg (Fin wd)) then dneg (Fin wd) else v0).
  assert (B1 : bnd 1975 v1).
  { unfold v1. destruct (dgt v0 (Fin wd)) eqn:D1; [exact BW|]. destruct (dlt v0 (dneg (Fin wd))) eqn:D2; [now apply bnd_neg|]. unfold dgt in D1. apply (bnd_within 1975 (dneg (Fin wd)) (Fin wd)); [now apply bnd_neg|exact BW|]. cbn [dneg] in *. split; apply dlt_false_dle; auto; discriminate. }
  clearbody v1. set (y := dadd x (dmul (np_chi a) v1)).
  assert (NY : y <> NaN). { apply (bnd_not_nan 1978). unfold y. change 1978 with (1977 + 1). apply bnd_add; [lia|apply (bnd_weak 1974); [lia|exact Bx]|]. change 1977 with (1975 + 2). apply bnd_mul; [lia|lia|lia|exact BC3|exact B1]. }
  clearbody y. destruct (dle_not_nan l u HL) as [Nl Nu]. assert (B0 : bnd 1975 dzero) by (exists 0; split; [reflexivity|rewrite Z.abs_0; apply Z.pow_nonneg; lia]).
  destruct (dgt y u) eqn:D2; cbn [fst snd]; [split; [exact B0|split; [exact Bu|split; [exact HL|now apply dle_refl]]]|].
  destruct (dlt y l) eqn:D1; cbn [fst snd]; [split; [exact B0|split; [exact Bl|split; [now apply dle_refl|exact HL]]]|].
  assert (W : within l u y) by (split; apply dlt_false_dle; auto). split; [exact B1|]. split; [|exact W]. now apply (bnd_within 1974 l u).
Qed.
Close Scope Z_scope.
Lemma np_ok_box : np_moderate a -> (forall l, In l (p_lb p) -> below_2p900 l) -> (forall u, In u (p_ub p) -> below_2p900 u) -> (forall x v, In x (po_x (snd s)) -> In v x -> below_2p900 v) ->
  (forall x v, In x (nm_x m) -> In v x -> below_2p900 v) -> (forall x v, In x (nm_v m) -> In v x -> below_2p901 v) ->
  ends_if_fuel (np_evolve srt r pw fuel bfe a m) s
  (fun m' s' => (exists b, np_first a m (snd s) b /\ np_steps p (in_box (p_lb p) (p_ub p)) (np_div a) (np_gen a) b (snd s) (nm_x m', nm_f m') (snd s')) /\
     length (nm_f m') = length (po_id (snd s)) /\ length (nm_v m') = length (po_id (snd s)) /\ np_fits a p (length (po_id (snd s))) m' /\
     (forall x v, In x (nm_x m') -> In v x -> below_2p900 v) /\ (forall x v, In x (nm_v m') -> In v x -> below_2p901 v)) (np_fails a p).
Proof.
  intros M BL BU BX BM BV. pose proof V as (PO & _). rewrite EP in PO. pose proof M as (_ & _ & _ & _ & V1 & V2 & HR).
  assert (M0 : dle (np_vcoeff a) dzero = false). { destruct (dle (np_vcoeff a) dzero) eqn:Q; [|reflexivity]. apply dle_dlt_false in Q. congruence. }
  assert (M3 : dgt (np_vcoeff a) done = false) by (unfold dgt; now apply dle_dlt_false).
  eapply ends_weak; [apply (evolve_ok srt SC r RC pw fuel bfe a p n PO NP EV HR Hn Hs (fun l u v => within l u v) (bnd 1974) (bnd 1975))| |intros e He; exact He].
  - intros i l u r1 r2 v b x w Nl Nu H1 H2 H3 H4 H5 H6. apply np_move_bnd; auto; [exact (prob_obj_ord p PO i l u Nl Nu)|apply BL; eapply nth_error_In; eauto|apply BU; eapply nth_error_In; eauto].
  - intros i l u v Nl Nu W. assert (BW : bnd 1975 (np_width a l u)). { unfold np_width. apply bnd_mul_unit_r; [lia| |apply bnd_unit; [now apply dlt_dle|exact V2]]. change 1975%Z with (1974 + 1)%Z. apply bnd_sub; [lia|apply BU; eapply nth_error_In; eauto|apply BL; eapply nth_error_In; eauto]. }
    apply (bnd_within 1975 (dneg (np_width a l u)) (np_width a l u)); [now apply bnd_neg|exact BW|exact W].
  - intros i l u Nl Nu. apply np_wide; [exact M0|exact M3|]. exact (prob_obj_ord p PO i l u Nl Nu).
  - destruct st_any as (A & B & C & D). split; [exact A|]. split; [exact B|]. split; [exact C|]. rewrite Forall_forall in D |- *. intros x Hx. split; [exact (proj1 (D x Hx))|]. apply Forall_forall. intros v Hv. exact (BX x v Hx Hv).
  - exact FI.
  - intros _ _. apply Forall_forall. intros x Hx. apply Forall_forall. intros v Hv. exact (BM x v Hx Hv).
  - intros _ _ v Hv. apply Forall_forall. intros w Hw. exact (BV v w Hv Hw).
  - exact HG.
  - intros m' s' (b & A & B & C). split; [exists b; split; [exact A|exact B]|]. destruct (fits_mem _ _ m' C) as (F1 & F2 & F3). split; [exact F1|]. split; [exact F2|]. split; [exact F3|]. destruct C as (_ & _ & C3 & _ & _ & C6). split.
    + intros x v Hx Hv. rewrite Forall_forall in C3. destruct (C3 x Hx) as (_ & K). rewrite Forall_forall in K. exact (K v Hv).
    + intros x v Hx Hv. destruct (C6 x Hx) as (_ & K). rewrite Forall_forall in K. exact (K v Hv).
Qed.
End R.

(** ** Batch evaluation *)
Section Same.
Context {G P : Type}.
Definition one_run {A} (f : A -> RM G (list dbl * list dbl)) (i : A) : @AM G P (list dbl * list dbl * list dbl) := rbind (eng (f i)) (fun c => rbind (peval (snd c)) (fun F => rret (c, F))).
Lemma one_eq p {A} (f : A -> RM G (list dbl * list dbl)) i g (po : pop P) : total_fitness p -> po_prob po = p -> match f i g with (Ok c, _) => length (snd c) = get_nx p | _ => True end ->
  match f i g with
  | (Ok c, g') => exists F, evaluated p (snd c) F /\ one_run f i (g, po) = (Ok (c, F), (g', with_fevals po (wrap64 (po_fevals po + 1))))
  | (Throw e, _) => fst (one_run f i (g, po)) = Throw e | (UB, _) => fst (one_run f i (g, po)) = UB | (NoFuel, _) => fst (one_run f i (g, po)) = NoFuel end.
Proof.
  intros TF EP H. unfold one_run, eng, rbind. cbn [fst snd]. destruct (f i g) as [[c|e| |] g1]; try reflexivity. destruct (TF (snd c) H) as (F & EF). exists F. split; [exact EF|]. rewrite (AlgNsga2Facts4.peval_eq p (snd c) F g1 po EP EF). reflexivity.
Qed.
Lemma split_run p {A} (f : A -> RM G (list dbl * list dbl)) : total_fitness p -> forall l g (po : pop P), po_prob po = p -> (forall i g, In i l -> match f i g with (Ok c, _) => length (snd c) = get_nx p | _ => True end) ->
  match rmap f l g with
  | (Ok cs, g') => exists fs, Forall2 (evaluated p) (map snd cs) fs /\ rmap (one_run f) l (g, po) = (Ok (combine cs fs), (g', match l with [] => po | _ => with_fevals po (wrap64 (po_fevals po + Z.of_nat (length l))) end))
  | (Throw e, _) => fst (rmap (one_run f) l (g, po)) = Throw e | (UB, _) => fst (rmap (one_run f) l (g, po)) = UB | (NoFuel, _) => fst (rmap (one_run f) l (g, po)) = NoFuel end.
Proof.
  intros TF. induction l as [|x l IH]; intros g po EP HL; cbn [rmap]; [exists []; split; [constructor|reflexivity]|]. pose proof (one_eq p f x g po TF EP (HL x g (or_introl eq_refl))) as HX.
  unfold rbind at 1 2 3. destruct (f x g) as [[c|e| |] g1].
  2,3,4: unfold rbind; destruct (one_run f x (g, po)) as [[|?| |] ?]; cbn [fst] in *; (discriminate HX || reflexivity || (injection HX as ->; reflexivity)).
  destruct HX as (F & EF & E1). specialize (IH g1 (with_fevals po (wrap64 (po_fevals po + 1))) EP (fun i g H => HL i g (or_intror H))). unfold rbind. rewrite E1.
  destruct (rmap f l g1) as [[cs|e| |] g2].
  - destruct IH as (fs & FE & ->). unfold rret. exists (F :: fs). split; [cbn [map]; now constructor|]. cbn [combine]. f_equal. f_equal. destruct l as [|y l]; [reflexivity|]. cbn [length]. unfold with_fevals. cbn [po_prob po_fevals po_id po_x po_f po_cx po_cf po_rng]. f_equal. rewrite wrap64_add. f_equal. lia.
  - destruct (rmap (one_run f) l _) as [[|?| |] ?]; cbn [fst] in *; (discriminate IH || reflexivity || (injection IH as ->; reflexivity)).
  - destruct (rmap (one_run f) l _) as [[|?| |] ?]; cbn [fst] in *; (discriminate IH || reflexivity || (injection IH as ->; reflexivity)).
  - destruct (rmap (one_run f) l _) as [[|?| |] ?]; cbn [fst] in *; (discriminate IH || reflexivity || (injection IH as ->; reflexivity)).
Qed.
Lemma comb {A B} (l : list A) (k : list B) : length l = length k -> map fst (combine l k) = l /\ map snd (combine l k) = k.
Proof. revert k. induction l as [|x l IH]; intros [|y k] H; try discriminate; [auto|]. cbn [combine map fst snd]. destruct (IH k) as (-> & ->); [cbn in H; lia|auto]. Qed.
Context (srt : sorter) (SC : sort_contract srt) (r : rng G) (RC : rng_contract r) (pw : dbl -> dbl -> dbl) (fuel : nat) (ud : problem -> list dbl -> outcome (list dbl)) (a : nspso_params) (p : problem) (n : nat).
Context (PO : prob_obj p) (NP : np_problem p) (TF : total_fitness p) (FB : faithful_bfe ud p) (MA : np_made a) (Hn : 2 <= n) (Hsize : (Z.of_nat n < 2 ^ 31)%Z).
Let any : dbl -> Prop := fun _ => True.
Lemma moves_same bnd bx X V (s : G * pop P) : po_prob (snd s) = p -> 2 <= length bnd <= n -> (forall i, In i bnd -> i < n) -> length bx = n -> Forall (point p any) bx -> length X = n -> Forall (point p any) X -> speeds p n any V ->
  same_run (np_moves r fuel (Some ud) a p bnd bx X V n s) (np_moves r fuel None a p bnd bx X V n s).
Proof.
  intros EP LB HB Lbx Fbx LX FX HV. destruct (made_v a MA) as (M1 & M2 & HR). unfold np_moves. set (f := np_particle r fuel a p bnd bx X V).
  assert (HL : forall i g, In i (seq 0 n) -> match f i g with (Ok c, _) => length (snd c) = get_nx p | _ => True end).
  { intros i g Hi. apply in_seq in Hi. assert (K : ends_w True (f i) g (fun c _ => moved p (fun _ _ _ => True) any any c) (fun _ => False)).
    { unfold f. apply (particle_ok r RC fuel a p n PO HR Hn Hsize (fun _ _ _ => True) any any); auto; try lia; try (intros; repeat split; exact I). }
    unfold ends_w in K. destruct (f i g) as [[c|e| |] g']; auto. destruct K as (_ & (K & _) & _). exact K. }
  destruct s as [g po]. cbn [snd] in EP. pose proof (split_run p f TF (seq 0 n) g po EP HL) as SR. change (same_run (rbind (eng (rmap f (seq 0 n))) (fun cs => rbind (nsga2_eval_batch ud (map snd cs)) (fun fs => rret (cs, fs))) (g, po)) (rbind (rmap (one_run f) (seq 0 n)) (fun cs => rret (map fst cs, map snd cs)) (g, po))).
  unfold rbind, eng. cbn [fst snd]. destruct (rmap f (seq 0 n) g) as [[cs|e| |] g'] eqn:ER.
  2,3,4: destruct (rmap (one_run f) (seq 0 n) (g, po)) as [[|?| |] ?]; cbn [fst] in *; (discriminate SR || (split; [cbn [fst]; solve [reflexivity | injection SR as ->; reflexivity]|intros v Hv; cbn [fst] in Hv; discriminate])).
  destruct SR as (fs & FE & E2). unfold rbind. rewrite E2. rewrite (batch_eq p PO NP ud (map snd cs) fs g' po FB EP FE). pose proof (Forall2_len _ _ _ FE) as LE. rewrite map_length in LE. destruct (comb cs fs LE) as (C1 & C2). unfold rret. rewrite C1, C2.
  assert (LC : length cs = n). { pose proof (ends_rmap f (fun _ => True) (fun _ _ => True) (fun _ => True) (seq 0 n) (W := True)) as K. clear K. assert (Q : forall (l : list nat) h cs h', rmap f l h = (Ok cs, h') -> length cs = length l).
    { clear. induction l as [|x l IH]; intros h cs h' E; cbn [rmap] in E; [injection E as <- _; reflexivity|]. unfold rbind in E. destruct (f x h) as [[c|e| |] h1]; try discriminate. destruct (rmap f l h1) as [[cs'|e| |] h2] eqn:E2; try discriminate. injection E as <- _. cbn [length]. f_equal. eapply IH; eauto. }
    rewrite (Q _ _ _ _ ER), seq_length. reflexivity. }
  rewrite map_length, LC, seq_length. destruct n as [|n']; [lia|]. cbn [seq]. apply AlgNsga2Facts5.same_refl.
Qed.
Lemma generation_same m k (s : G * pop P) : mem_ok p n any any m -> state p n any s -> same_run (np_generation srt r pw fuel (Some ud) a m k s) (np_generation srt r pw fuel None a m k s).
Proof.
  intros (M1 & M2 & M3 & M4 & M5) (V & EP & EN & FX). pose proof V as (_ & (S1 & S2 & S3 & S4 & _) & _). rewrite EP in S3, S4. pose proof NP as (_ & NC & NF). assert (NO : p_nobj p = get_nf p) by (unfold get_nf, get_nc in *; lia).
  unfold np_generation. apply AlgNsga2Facts5.same_bind; [apply AlgNsga2Facts5.same_refl|]. intros v s' E. unfold getp in E. injection E as <- <-. cbv zeta. rewrite EP, EN, NO.
  destruct (leaders_ok srt SC pw (np_div a) (po_f (snd s)) (po_x (snd s)) (get_nf p) (get_nx p)) as (bnd & Eb & _ & LB & HB & _); [exact S4|exact NF|lia|lia|exact S3|]. assert (LF0 : length (po_f (snd s)) = n) by lia. rewrite LF0 in *.
  rewrite Eb. apply AlgNsga2Facts5.same_bind; [apply AlgNsga2Facts5.same_refl|]. intros v s' E. unfold rlift in E. injection E as <- <-. apply AlgNsga2Facts5.same_bind; [|intros v s' E; apply AlgNsga2Facts5.same_refl].
  apply moves_same; auto; lia.
Qed.
Lemma evolve_same m (s : G * pop P) : po_prob (snd s) = p -> valid_pop (snd s) -> n = length (po_id (snd s)) -> np_fits a p n m -> same_run (np_evolve srt r pw fuel (Some ud) a m s) (np_evolve srt r pw fuel None a m s).
Proof.
  intros EP V EN FI. pose proof NP as (SS & NC & NF). destruct (made_v a MA) as (M1 & M2 & HR). pose proof V as (_ & (S1 & S2 & S3 & S4 & _) & _). rewrite EP in S3, S4.
  assert (T : forall x : list dbl, Forall any x) by (intros x; apply Forall_forall; intros y _; exact I).
  assert (ST : state p n any s). { split; [exact V|]. split; [exact EP|]. split; [auto|]. apply Forall_forall. intros x Hx. split; [now apply S3|apply T]. }
  unfold np_evolve. apply AlgNsga2Facts5.same_bind; [apply AlgNsga2Facts5.same_refl|]. intros v s' E. unfold getp in E. injection E as <- <-. cbv zeta. rewrite EP, <- EN, SS, NC. cbn [Nat.eqb negb].
  destruct (Nat.ltb_spec (get_nf p) 2); [lia|]. destruct (Nat.leb_spec n 1); [lia|]. destruct (Nat.eqb_spec (np_gen a) 0) as [|HG]; [apply AlgNsga2Facts5.same_refl|].
  apply AlgNsga2Facts5.same_bind; [apply AlgNsga2Facts5.same_refl|]. intros V1 s' E.
  assert (SV : speeds p n any V1 /\ snd s' = snd s).
  { assert (K : ends_w True (eng (np_speeds r a n p (nm_v m))) s (fun V1 s' => speeds p n any V1 /\ snd s' = snd s) (np_fails a p)).
    { eapply ends_eng; [apply (speeds_ok r RC a p n PO HR Hn any (fun _ _ _ _ _ _ _ => I))|intros V2 g SV2; split; [exact SV2|reflexivity]].
      - intros i l u Nl Nu. apply np_wide; [exact M1|exact M2|]. exact (prob_obj_ord p PO i l u Nl Nu).
      - intros E1 E2 v Hv. split; [exact (proj2 (FI E1) E2 v Hv)|apply T]. }
    unfold ends_w in K. rewrite E in K. exact K. }
  destruct SV as (SV & ES). apply (AlgMoeadGenFacts3.same_fold _ _ (fun m' s1 => mem_ok p n any any m' /\ state p n any s1)).
  - intros t x s1 (A & B). now apply generation_same.
  - intros t x s1 t' s2 (A & B) E2. pose proof (generation_ok (P := P) srt SC r RC pw fuel (Some ud) a p n PO NP (conj TF FB) HR Hn Hsize (fun _ _ _ => True) any any) as K. specialize (K ltac:(intros; repeat split; exact I) t x s1 A B). unfold ends_w in K. rewrite E2 in K. destruct K as (K1 & K2 & _). auto.
  - split; [|unfold state in *; rewrite ES; exact ST]. unfold mem_ok. cbn [nm_f nm_x nm_v]. destruct ST as (_ & _ & EN' & FX). destruct (Nat.eqb_spec (length (nm_f m)) n) as [E1|N1]; [destruct (np_memory a) eqn:EM|]; cbn [andb].
    + destruct (FI EM) as (A & _). destruct (A E1) as (A1 & A2 & A3). split; [exact E1|]. split; [exact A1|]. split; [|split; [exact A3|exact SV]]. apply Forall_forall. intros x Hx. split; [now apply A2|apply T].
    + split; [lia|]. split; [lia|]. split; [exact FX|]. split; [exact S4|exact SV].
    + split; [lia|]. split; [lia|]. split; [exact FX|]. split; [exact S4|exact SV].
Qed.
End Same.
Lemma np_batch {G P} srt (r : rng G) pw fuel ud : sort_contract srt -> rng_contract r -> forall a p m (s : G * pop P), po_prob (snd s) = p -> valid_pop (snd s) -> np_problem p -> total_fitness p -> faithful_bfe ud p -> np_made a ->
  2 <= length (po_id (snd s)) -> (Z.of_nat (length (po_id (snd s))) < 2 ^ 31)%Z -> np_fits a p (length (po_id (snd s))) m ->
  same_run (np_evolve srt r pw fuel (Some ud) a m s) (np_evolve srt r pw fuel None a m s).
Proof.
  intros SC RC a p m s EP V NP TF FB MA Hn Hs FI. pose proof V as (PO & _). rewrite EP in PO. exact (evolve_same srt SC r RC pw fuel ud a p _ PO NP TF FB MA Hn Hs m s EP V eq_refl FI).
Qed.
