From Coq Require Import List Bool Arith ZArith Lia.
From Verif Require Import Dbl DblFacts IntDbl Outcome BaseFacts StdSort Problem SpecProblem ProblemFacts Rng Generic SpecGeneric GenericFacts GenericFacts3 SpecGenetic RmFacts GeneticOps GeneticFacts Population SpecPopulation PopulationFacts PopulationFacts3 Algo SpecAlgo AlgoFacts AlgoFacts2
  AlgSaFacts AlgSaFacts2 AlgGwoFacts AlgGwoFacts2 SpecSwarm AlgPso SpecPso AlgPsoFacts AlgPsoFacts2 AlgPsoFacts3 AlgExamples.
Import ListNotations.

(** ** Runs that end in undefined behaviour *)
Lemma ub_bind {S A B} (m : RM S A) (f : A -> RM S B) s Q : ends m s Q (fun _ => False) -> (forall a s', Q a s' -> fst (f a s') = UB) -> fst (rbind m f s) = UB.
Proof. unfold ends_w, rbind. destruct (m s) as [[a|e| |] s']; try contradiction. intros H K. now apply K. Qed.
Lemma ub_first {S A B} (m : RM S A) (f : A -> RM S B) s : fst (m s) = UB -> fst (rbind m f s) = UB.
Proof. unfold rbind. destruct (m s) as [[a|e| |] s']; try discriminate. reflexivity. Qed.
Lemma ends_ex {S A} (m : RM S A) s (Q : S -> Prop) : ends m s (fun _ s' => Q s') (fun _ => False) -> exists a s', m s = (Ok a, s') /\ Q s'.
Proof. unfold ends_w. destruct (m s) as [[a|e| |] s']; try contradiction. intros H. exists a, s'. auto. Qed.
Section U.
Context {G P : Type} (srt : sorter) (r : rng G) (RC : rng_contract r) (a : pso_params).
Context (CO : pso_construct a = Ok tt) (HG : ps_gen a <> 0).
(** The velocities can be drawn. *)
Definition speeds_drawable (p : problem) : Prop := forall i l u, nth_error (p_lb p) i = Some l -> nth_error (p_ub p) i = Some u -> let w := dmul (dsub u l) (ps_max_vel a) in ok_real (dneg w) w.
Lemma fresh_speeds p n V0 g : prob_obj p -> speeds_drawable p -> ps_memory a = false ->
  ends (pso_speeds r a n p V0) g (fun V _ => length V = n /\ forall v, In v V -> get_nx p <= length v) (fun _ => False).
Proof.
  intros PO SD EM. destruct (construct_facts a CO) as (C1 & C2 & _). destruct (prob_obj_lens p PO) as [Ll Lu].
  assert (K : always (pso_speeds r a n p V0) (fun V => length V = n /\ forall v, In v V -> get_nx p <= length v) (fun _ => False)); [|eapply ends_always; [exact K|auto]].
  unfold pso_speeds. rewrite EM, orb_true_r.
  eapply always_weak; [apply (always_map _ (fun (_ : nat) V => get_nx p <= length V) (fun _ => False))| |auto].
  2: intros V F; apply f2_seq in F; destruct F as [L F]; split; [exact L|]; intros v Hv; apply In_nth_error in Hv; destruct Hv as (i & Hi); now apply (F i).
  intros i _. eapply always_weak; [apply (always_map _ (fun (_ : nat) v => True) (fun _ => False))| |auto].
  2: intros V F; apply f2_seq in F; destruct F as [L F]; lia.
  intros j Hj; apply in_seq in Hj; destruct (vget_in_range (p_lb p) j ltac:(lia)) as (l & _ & Nl); destruct (vget_in_range (p_ub p) j ltac:(lia)) as (u & _ & Nu).
  apply (always_bind _ _ (fun w => w = l)); [apply (always_vget _ _ l); [exact Nl|reflexivity]|]; intros ? ->; apply (always_bind _ _ (fun w => w = u)); [apply (always_vget _ _ u); [exact Nu|reflexivity]|]; intros ? ->.
  eapply always_weak; [apply (urr_any r RC)|auto|]. intros e [-> Hne]. apply Hne. split; [|exact (SD j l u Nl Nu)]. apply (wide a l u C1 C2); [exact (prob_obj_ord p PO j l u Nl Nu)|exact (SD j l u Nl Nu)].
Qed.
Lemma bad_ring n k : (Z.of_nat n < 2 ^ 31)%Z -> (Z.of_nat k < 2 ^ 32)%Z -> 0 < n -> ~ (1 <= k / 2 <= n) -> exists nb, nth_error (pso_lbest n k) 0 = Some nb /\ forall (lbX lbf : list (list dbl)), length lbf = n -> (forall f, In f lbf -> length f = 1) -> pso_best_neighbor nb lbX lbf = UB.
Proof.
  intros Hn Hk H0 NR. assert (P1 : (2 ^ 31 < 2 ^ 32)%Z) by reflexivity. assert (P2 : (2 ^ 32 + 2 ^ 32 < 2 ^ 64)%Z) by reflexivity. unfold pso_lbest. destruct n as [|n]; [lia|]. cbn [seq map nth_error]. eexists. split; [reflexivity|]. intros lbX lbf LF FF. unfold lbest_of.
  set (q := k / 2) in *. assert (Hq : q <= k) by (apply Nat.div_le_upper_bound; lia). clearbody q. destruct q as [|q]; [reflexivity|].
  assert (L : S n < S q) by lia. rewrite seq_S, rev_app_distr. cbn [rev app map]. replace (1 + q) with (S q) by lia. unfold pso_best_neighbor. cbn [vget nth_error bind tl].
  destruct (Nat.ltb_spec 0 (S q)); [|lia]. assert (EW : wrap64 (Z.of_nat 0 - Z.of_nat (S q) + Z.of_nat (S n)) = (2 ^ 64 - Z.of_nat (S q) + Z.of_nat (S n))%Z).
  { unfold wrap64. rewrite <- (Z.mod_add _ 1) by (vm_compute; discriminate). rewrite Z.mod_small; lia. }
  rewrite EW. destruct q as [|q]; [lia|]. rewrite seq_S, rev_app_distr. cbn [rev app map mfold].
  match goal with |- context [vgetz lbf ?z] => destruct (vgetz lbf z) as [fk|e| |] eqn:E1 end; cbn [bind]; [|unfold vgetz in E1; destruct (_ && _) in E1; [unfold vget in E1; destruct (nth_error _ _) in E1|]; discriminate|reflexivity|unfold vgetz in E1; destruct (_ && _) in E1; [unfold vget in E1; destruct (nth_error _ _) in E1|]; discriminate].
  assert (IF : In fk lbf). { unfold vgetz in E1. destruct (_ && _) in E1; [|discriminate]. unfold vget in E1. destruct (nth_error _ _) eqn:NE in E1; [|discriminate]. injection E1 as <-. eapply nth_error_In; eauto. }
  specialize (FF fk IF). destruct fk as [|v fk]; [discriminate|]. cbn [vget nth_error bind]. unfold vgetz at 1. destruct (Z.ltb_spec (2 ^ 64 - Z.of_nat (S (S q)) + Z.of_nat (S n)) (Z.of_nat (length lbf))); [lia|]. rewrite andb_false_r. reflexivity.
Qed.
Lemma ring_ub V0 (s : G * pop P) p : ps_ntype a = 2 -> ps_variant a <> 6 -> (Z.of_nat (ps_nparam a) < 2 ^ 32)%Z -> ps_memory a = false -> po_prob (snd s) = p -> valid_pop (snd s) -> plain_single p -> po_id (snd s) <> [] -> (Z.of_nat (length (po_id (snd s))) < 2 ^ 31)%Z ->
  speeds_drawable p -> ~ ring_fits a (length (po_id (snd s))) -> fst (pso_evolve srt r a V0 s) = UB.
Proof.
  intros E2 N6 HP EM EP V PS NE HN SD NR. pose proof V as (PO & (S1 & S2 & SX & SF & _) & _). rewrite EP in PO, SF. pose proof PS as (NC & NF & NS). set (n := length (po_id (snd s))) in *. assert (Hn : 0 < n) by (unfold n; destruct (po_id (snd s)); [congruence|cbn; lia]).
  assert (NR' : ~ (1 <= ps_nparam a / 2 <= n)) by (intros Q; apply NR; intros _; exact Q).
  destruct (bad_ring n (ps_nparam a) HN HP Hn NR') as (nb & Nnb & UBN).
  unfold pso_evolve. apply (ub_bind _ _ _ (fun q s' => q = snd s /\ s' = s)); [apply ends_getp; auto|]. intros ? ? [-> ->]. cbv zeta. rewrite EP, NC, NF, NS. fold n. destruct (Nat.eqb_spec n 0); [lia|]. cbn [Nat.eqb negb].
  apply (ub_bind _ _ _ (fun V s' => length V = n /\ snd s' = snd s)); [apply ends_eng_w; eapply ends_weak; [apply (fresh_speeds p n V0 (fst s) PO SD EM)| |auto]; intros V1 g [L _]; auto|]. intros V1 s1 [LV Es1].
  apply (ub_bind _ _ _ (fun t s' => fst (fst t) = pso_lbest n (ps_nparam a) /\ snd s' = snd s)). { unfold pso_topology. apply ends_bind, ends_getp. rewrite E2. cbn [Nat.eqb]. apply ends_ret. auto. }
  intros [[nb' bn] bf] s2 [Et Es2]. cbn [fst] in Et. subst nb'. apply ub_first. destruct (ps_gen a) as [|gens]; [congruence|]. cbn [seq rfold]. apply ub_first. unfold pso_generation. cbv zeta. apply ub_first.
  destruct n as [|n'] eqn:En; [lia|]. cbn [seq rfold]. apply ub_first. unfold pso_particle. apply (ub_bind _ _ _ (fun q s' => q = snd s /\ s' = s2)); [apply ends_getp; auto|]. intros ? ? [-> ->]. cbv zeta. rewrite EP. cbn [sw_V sw_X sw_lbX sw_lbf sw_bn sw_bf sw_nb].
  assert (VG : forall (A B : Type) (l : list A) (f : A -> RM (G * pop P) B) x, nth_error l 0 = Some x -> fst (f x s2) = UB -> fst (rbind (rlift (vget l 0)) f s2) = UB).
  { intros A B l f x H K. unfold rbind, rlift, vget. rewrite H. exact K. }
  destruct (vget_in_range V1 0 ltac:(lia)) as (x1 & _ & X1). destruct (vget_in_range (po_x (snd s)) 0 ltac:(lia)) as (x2 & _ & X2). destruct (vget_in_range (po_f (snd s)) 0 ltac:(lia)) as (x4 & _ & X4).
  apply (VG _ _ _ _ x1 X1). apply (VG _ _ _ _ x2 X2). apply (VG _ _ _ _ x2 X2). apply (VG _ _ _ _ x4 X4). apply (VG _ _ _ _ nb Nnb). apply ub_first. rewrite E2. destruct (Nat.eqb_spec (ps_variant a) 6); [congruence|]. cbn [Nat.eqb negb andb]. unfold rlift. cbn [fst].
  apply UBN; [lia|]. intros f Hf. rewrite <- NF. now apply SF.
Qed.
End U.

(** ** Example parameters and populations *)
Lemma done_nn : done <> NaN. Proof. discriminate. Qed.
Definition ring_params (np : nat) : pso_params := mkpso 1 done done done done 5 2 np false.
Lemma params_valid g v t np m : 1 <= v <= 6 -> 1 <= t <= 4 -> 1 <= np -> pso_valid (mkpso g done done done done v t np m).
Proof.
  intros H1 H2 H3. pose proof one_z_pos. assert (D1 : within dzero done done) by (split; apply dle_fin; lia). assert (D4 : within dzero dfour done) by (rewrite dfour_eq; split; apply dle_fin; lia).
  unfold pso_valid. cbn [ps_omega ps_eta1 ps_eta2 ps_max_vel ps_variant ps_ntype ps_nparam]. split; [exact D1|]. split; [exact D4|]. split; [exact D4|]. split; [apply dlt_fin; lia|]. split; [exact (proj2 D1)|]. auto.
Qed.
Lemma params_construct g v t np m : 1 <= v <= 6 -> 1 <= t <= 4 -> 1 <= np -> pso_construct (mkpso g done done done done v t np m) = Ok tt.
Proof. intros H1 H2 H3. destruct (construct_ok (mkpso g done done done done v t np m) done_nn done_nn done_nn done_nn) as [[_ E]|[N _]]; [exact E|]. exfalso. apply N. now apply params_valid. Qed.
Lemma ring_params_valid np : 1 <= np -> pso_valid (ring_params np).
Proof. intros H. apply params_valid; lia. Qed.
Lemma ring_params_construct np : 1 <= np -> pso_construct (ring_params np) = Ok tt.
Proof. intros H. apply params_construct; lia. Qed.
Lemma ten_width a : ps_max_vel a = done -> pso_width a (Fin 0) (Fin 10) = Fin 10.
Proof.
  intros E. unfold pso_width. rewrite E. assert (D : dsub (Fin 10) (Fin 0) = Fin 10) by (vm_compute; reflexivity). rewrite D. unfold done. cbn [dmul]. apply rnd_small; [pose proof (small53 10); lia|apply one_z_pos].
Qed.
Lemma ten_drawable a p : ps_max_vel a = done -> p_lb p = [Fin 0; Fin 0] -> p_ub p = [Fin 10; Fin 10] -> speeds_drawable a p.
Proof.
  intros E El Eu i l u A B. rewrite El in A. rewrite Eu in B. assert (l = Fin 0 /\ u = Fin 10) as [-> ->] by (destruct i as [|[|i]]; cbn in A, B; [split; congruence|split; congruence|destruct i; discriminate]).
  cbv zeta. pose proof (ten_width a E) as W. unfold pso_width in W. rewrite W. split; [reflexivity|]. split; [reflexivity|]. vm_compute. reflexivity.
Qed.
Definition one_pop (f : list dbl -> outcome (list dbl)) : pop (list Z) :=
  {| po_prob := {| p_udp := box_udp 1 0 0 f; p_lb := [Fin 0; Fin 0]; p_ub := [Fin 10; Fin 10]; p_nobj := 1; p_nec := 0; p_nic := 0; p_nix := 0; p_ctol := []; p_gs_dim := 2; p_hs_dim := [3]%Z |};
     po_fevals := 1; po_id := [1]%Z; po_x := [[Fin 1; Fin 2]]; po_f := [[Fin 3]]; po_cx := [Fin 1; Fin 2]; po_cf := [Fin 3]; po_rng := [] |}.
Lemma one_pop_valid f : valid_pop (one_pop f).
Proof.
  split; [exact (obj_new _ _ (alg_problem_gen f))|]. split; [|right; split; reflexivity]. split; [reflexivity|]. split; [reflexivity|].
  split; [intros x [<-|[]]; reflexivity|]. split; [intros x [<-|[]]; reflexivity|]. intros i [<-|[]]. lia.
Qed.
Lemma one_pop_runs f : (forall x, exists v, f x = Ok [v]) -> forall e x, length x = 2 -> fst (fitness (po_prob (one_pop f)) 0 x) = Throw e -> False.
Proof.
  intros H e x L. destruct (fitness_cases (po_prob (one_pop f)) 0 x) as [(v & E & _)|(o & E & N)]; rewrite E; [discriminate|]. cbn [fst]. intros ->. revert E. destruct x as [|xa [|xb [|xc x]]]; try discriminate L.
  unfold fitness. cbn [one_pop po_prob p_udp box_udp u_fitness]. destruct (H [xa; xb]) as (v & Ev). rewrite Ev. cbn. discriminate.
Qed.
Lemma one_pop_obj f : prob_obj (po_prob (one_pop f)).
Proof. exact (obj_new _ _ (alg_problem_gen f)). Qed.
Lemma one_pop_plain f : plain_single (po_prob (one_pop f)).
Proof. repeat split. Qed.
Lemma one_pop_ring np : 4 <= np -> ~ ring_fits (ring_params np) (length (po_id (one_pop alg_fit))).
Proof.
  intros H Q. specialize (Q eq_refl). cbn [one_pop po_id length ring_params ps_nparam] in Q. assert (2 <= np / 2) by (apply Nat.div_le_lower_bound; lia). lia.
Qed.
Lemma ring_nonvacuous f : pso_construct (ring_params 4) = Ok tt /\ valid_pop (one_pop f) /\ plain_single (po_prob (one_pop f)) /\ speeds_drawable (ring_params 4) (po_prob (one_pop f)) /\ ~ ring_fits (ring_params 4) 1 /\ ~ ring_fits (ring_params 1) 1.
Proof.
  split; [apply ring_params_construct; lia|]. split; [apply one_pop_valid|]. split; [apply one_pop_plain|]. split; [now apply ten_drawable|]. split; [exact (one_pop_ring 4 (le_n 4))|]. intros Q. specialize (Q eq_refl). cbn in Q. lia.
Qed.
Lemma evolve_nonvacuous : let a := ring_params 4 in pso_valid a /\ pso_construct a = Ok tt /\ valid_pop alg_pop /\ plain_single alg_problem /\ fitness_defined alg_problem /\ ring_fits a 5 /\ speeds_fit a [] 5 2 /\
  (forall l, In l (p_lb alg_problem) -> below_2p900 l) /\ (forall u, In u (p_ub alg_problem) -> below_2p900 u) /\ (forall x v, In x (po_x alg_pop) -> In v x -> below_2p900 v) /\ (forall e, ~ pso_fails a alg_problem e).
Proof.
  cbv zeta. split; [apply ring_params_valid; lia|]. split; [apply ring_params_construct; lia|]. split; [exact alg_pop_valid|]. split; [exact alg_problem_plain|]. split; [exact alg_problem_defined|]. split; [intros _; cbn; lia|]. split; [intros Q; discriminate|].
  split; [intros l [<-|[<-|[]]]; apply small_900; lia|]. split; [intros l [<-|[<-|[]]]; apply small_900; lia|]. split.
  - assert (F : Forall (Forall below_2p900) (po_x alg_pop)) by (repeat constructor; apply small_900; lia). intros x v Hx Hv. rewrite Forall_forall in F. specialize (F x Hx). rewrite Forall_forall in F. now apply F.
  - intros e [H|(-> & i & l & u & A & B & H)]; [exact (alg_problem_no_fail e (or_introl H))|]. apply H. exact (ten_drawable (ring_params 4) alg_problem eq_refl eq_refl eq_refl i l u A B).
Qed.

(** ** Velocities of another dimension *)
Lemma stale_ub G (r : rng G) srt : rng_contract r -> forall g, let a := mkpso 1 done done done done 5 1 4 true in pso_construct a = Ok tt /\ fst (pso_evolve srt r a [[Fin 0]] (g, one_pop alg_fit)) = UB.
Proof.
  intros RC g a. split.
  { apply params_construct; lia. }
  unfold pso_evolve. apply (ub_bind _ _ _ (fun q s' => q = one_pop alg_fit /\ s' = (g, one_pop alg_fit))); [apply ends_getp; auto|]. intros ? ? [-> ->]. cbv zeta. cbn [one_pop po_prob po_id length]. fold (po_prob (one_pop alg_fit)).
  change (get_nc (po_prob (one_pop alg_fit))) with 0. change (get_nf (po_prob (one_pop alg_fit))) with 1. change (u_set_seed (p_udp (po_prob (one_pop alg_fit)))) with false. cbn [Nat.eqb negb].
  apply (ub_bind _ _ _ (fun V s' => V = [[Fin 0]] /\ s' = (g, one_pop alg_fit))); [apply ends_eng_w; apply ends_ret; auto|]. intros ? ? [-> ->].
  apply (ub_bind _ _ _ (fun t s' => t = ([[]], [Fin 1; Fin 2], [Fin 3]) /\ s' = (g, one_pop alg_fit))).
  { unfold pso_topology. apply ends_bind, ends_getp. cbn [a ps_ntype Nat.eqb]. apply ends_bind. apply (ends_lift_ok _ 0); [reflexivity|]. apply ends_bind. eapply ends_lift_ok; [reflexivity|]. apply ends_bind. eapply ends_lift_ok; [reflexivity|]. apply ends_ret. auto. }
  intros ? ? [-> ->]. apply ub_first. cbn [a ps_gen seq rfold]. apply ub_first. unfold pso_generation. cbv zeta. apply ub_first. cbn [seq rfold]. apply ub_first. unfold pso_particle.
  apply (ub_bind _ _ _ (fun q s' => q = one_pop alg_fit /\ s' = (g, one_pop alg_fit))); [apply ends_getp; auto|]. intros ? ? [-> ->]. cbv zeta. cbn [sw_V sw_X sw_lbX sw_lbf sw_bn sw_bf sw_nb].
  assert (VG : forall (S A B : Type) (l : list A) i (f : A -> RM S B) x s2, nth_error l i = Some x -> fst (f x s2) = UB -> fst (rbind (rlift (vget l i)) f s2) = UB).
  { intros S A B l i f x s2 H K. unfold rbind, rlift, vget. rewrite H. exact K. }
  eapply VG; [reflexivity|]. eapply VG; [reflexivity|]. eapply VG; [reflexivity|]. eapply VG; [reflexivity|]. eapply VG; [reflexivity|].
  apply (ub_bind _ _ _ (fun bn s' => bn = [Fin 1; Fin 2] /\ s' = (g, one_pop alg_fit))); [apply ends_ret; auto|]. intros ? ? [-> ->]. apply ub_first.
  assert (K : forall g', fst (pso_velocity r a [] [[Fin 1; Fin 2]] [Fin 0] [Fin 1; Fin 2] [Fin 1; Fin 2] [Fin 1; Fin 2] 2 g') = UB).
  { intros g'. unfold pso_velocity. cbv zeta. cbn [a ps_variant Nat.eqb orb seq rmap].
    assert (DR : always (rbind (draw01 r) (fun r1 => rbind (draw01 r) (fun r2 => rret (r1, r2)))) (fun _ => True) (fun _ => False)).
    { eapply always_bind; [apply (draw01_in r RC)|]. intros. eapply always_bind; [apply (draw01_in r RC)|]. intros. now apply always_ret. }
    apply (ub_bind _ _ _ (fun _ _ => True)).
    - apply ends_bind. eapply ends_always; [exact DR|]. intros rr g2 _. cbv beta. repeat (apply ends_bind; eapply ends_lift_ok; [reflexivity|]). apply ends_ret. auto.
    - intros v g2 _. apply ub_first. apply ub_first. apply (ub_bind _ _ _ (fun _ _ => True)); [eapply ends_always; [exact DR|auto]|]. intros rr g3 _. apply ub_first. reflexivity. }
  unfold eng. change (get_nx (po_prob (one_pop alg_fit))) with 2. change (po_x (one_pop alg_fit)) with [[Fin 1; Fin 2]]. specialize (K g). cbn [fst].
  destruct (pso_velocity r a [] [[Fin 1; Fin 2]] [Fin 0] [Fin 1; Fin 2] [Fin 1; Fin 2] [Fin 1; Fin 2] 2 g) as [o g2]. exact K.
Qed.

(** ** NaN overwrites the memory *)
Definition nan_fit (x : list dbl) : outcome (list dbl) := Ok [NaN].
Definition gbest_params (variant : nat) : pso_params := mkpso 1 done done done done variant 1 4 false.
Lemma nan_lost G (r : rng G) srt : rng_contract r -> forall g, exists V s', pso_evolve srt r (ring_params 2) [] (g, one_pop nan_fit) = (Ok V, s') /\ po_f (snd s') = [[NaN]].
Proof.
  intros RC g. set (p := po_prob (one_pop nan_fit)). assert (PO : prob_obj p) by (apply one_pop_obj). assert (CO : pso_construct (ring_params 2) = Ok tt) by (apply ring_params_construct; lia).
  assert (SD : speeds_drawable (ring_params 2) p) by now apply ten_drawable.
  assert (T : forall x : list dbl, Forall (fun _ => True) x) by (intros x; apply Forall_forall; auto).
  apply (ends_ex _ _ (fun s' => po_f (snd s') = [[NaN]])).
  unfold pso_evolve. apply ends_bind, ends_getp. cbv zeta. cbn [snd]. fold p. change (get_nc p) with 0. change (get_nf p) with 1. change (u_set_seed (p_udp p)) with false. cbn [one_pop po_id length Nat.eqb negb].
  apply ends_bind, ends_eng_w. eapply ends_weak; [apply (fresh_speeds r RC (ring_params 2) CO (Nat.neq_succ_0 0) p 1 [] g PO SD eq_refl)| |auto]. intros V1 g1 [LV HV]. destruct V1 as [|v0 [|]]; try discriminate LV. specialize (HV v0 (or_introl eq_refl)). cbn [fst snd].
  apply ends_bind. unfold pso_topology. apply ends_bind, ends_getp. change (ps_ntype (ring_params 2)) with 2. cbn [Nat.eqb]. apply ends_ret. apply ends_bind. change (ps_gen (ring_params 2)) with 1. cbn [seq rfold]. apply ends_bind. unfold pso_generation. cbv zeta. apply ends_bind. cbn [seq rfold]. apply ends_bind.
  unfold pso_particle. apply ends_bind, ends_getp. cbv zeta. cbn [sw_V sw_X sw_lbX sw_lbf sw_bn sw_bf sw_nb snd]. fold p. do 5 (apply ends_bind; eapply ends_lift_ok; [reflexivity|]). change (ps_variant (ring_params 2)) with 5. change (ps_ntype (ring_params 2)) with 2. cbn [Nat.eqb negb andb].
  apply ends_bind. eapply ends_lift_ok; [reflexivity|]. apply ends_bind.
  eapply ends_eng; [apply (velocity_ok r RC (ring_params 2) p 1 1 (le_n 1) (fun _ => True) (fun _ => True) (fun _ => True) (fun _ => True)) with (E := fun _ => False)|]; auto.
  - split; [reflexivity|apply T].
  - split; [reflexivity|apply T].
  - split; [reflexivity|apply T].
  - constructor; [split; [reflexivity|apply T]|constructor].
  - intros Q. discriminate Q.
  - intros V1 g2 (LV1 & FV1). cbv beta.
    destruct (moved_ok (ring_params 2) p 1 PO (le_n 1) (fun _ _ _ => True) (fun _ => True) (fun _ => True) (fun _ => True)) with (V1 := V1) (X := [Fin 1; Fin 2]) as (mv & Em & Lm & _); auto; [split; [reflexivity|apply T]|].
    apply ends_bind. eapply ends_lift_ok; [exact Em|]. cbv zeta. apply ends_bind. apply (ends_peval p); [reflexivity|intros x _; split; discriminate|rewrite map_length; exact Lm|intros e (x & Lx & He); exact (one_pop_runs _ (fun _ => ex_intro _ _ eq_refl) e x Lx He)|].
    intros f (_ & _ & Ef). injection Ef as <-. cbn [fst snd one_pop po_f po_x nth_error].
    assert (VL : vec_le [NaN] [Fin 3] = true) by (vm_compute; reflexivity). rewrite VL. apply ends_ret. change (ps_ntype (ring_params 2)) with 2. cbn [rfold Nat.eqb andb orb]. apply ends_ret. apply ends_ret. apply ends_ret.
    cbn [sw_V sw_X sw_lbX sw_lbf sw_bn sw_bf sw_nb upd seq rfold]. apply ends_bind. apply ends_bind.
    apply ends_bind. eapply ends_lift_ok; [reflexivity|]. apply ends_bind. eapply ends_lift_ok; [reflexivity|]. apply ends_pset; [apply valid_fevals; exact (one_pop_valid nan_fit)|cbn; lia|cbn [with_fevals po_prob snd]; rewrite map_length; exact Lm|reflexivity|].
    intros c _ _. apply ends_ret. apply ends_ret. reflexivity.
Qed.

(** ** Empty neighbourhoods move the fully informed swarm to NaN *)
Definition zero_fit (x : list dbl) : outcome (list dbl) := Ok [Fin 0].
Definition fips_params : pso_params := mkpso 1 done done done done 6 2 1 false.
Lemma move_nan a l u x : pso_move1 a l u NaN x = (NaN, NaN).
Proof.
  unfold pso_move1. cbv zeta. assert (C : forall w, dgt NaN w = false /\ dlt NaN w = false) by (intros w; destruct w; split; reflexivity). generalize (pso_width a l u). intros w.
  rewrite (proj1 (C w)), (proj2 (C (dneg w))). assert (A : dadd x NaN = NaN) by (destruct x; reflexivity). rewrite A, (proj1 (C u)), (proj2 (C l)). reflexivity.
Qed.
Lemma fips_nan G (r : rng G) srt : rng_contract r -> forall g, pso_construct fips_params = Ok tt /\ exists V s', pso_evolve srt r fips_params [] (g, one_pop zero_fit) = (Ok V, s') /\ po_x (snd s') = [[NaN; NaN]] /\ po_f (snd s') = [[Fin 0]].
Proof.
  intros RC g. set (p := po_prob (one_pop zero_fit)). assert (PO : prob_obj p) by (apply one_pop_obj).
  assert (CO : pso_construct fips_params = Ok tt). { apply params_construct; lia. }
  split; [exact CO|]. assert (SD : speeds_drawable fips_params p) by now apply ten_drawable.
  apply (ends_ex _ _ (fun s' => po_x (snd s') = [[NaN; NaN]] /\ po_f (snd s') = [[Fin 0]])).
  unfold pso_evolve. apply ends_bind, ends_getp. cbv zeta. cbn [snd]. fold p. change (get_nc p) with 0. change (get_nf p) with 1. change (u_set_seed (p_udp p)) with false. cbn [one_pop po_id length Nat.eqb negb].
  apply ends_bind, ends_eng_w. eapply ends_weak; [apply (fresh_speeds r RC fips_params CO (Nat.neq_succ_0 0) p 1 [] g PO SD eq_refl)| |auto]. intros V1 g1 [LV HV]. destruct V1 as [|v0 [|]]; try discriminate LV. specialize (HV v0 (or_introl eq_refl)). cbn [fst snd].
  apply ends_bind. unfold pso_topology. apply ends_bind, ends_getp. change (ps_ntype fips_params) with 2. cbn [Nat.eqb]. apply ends_ret. apply ends_bind. change (ps_gen fips_params) with 1. cbn [seq rfold]. apply ends_bind. unfold pso_generation. cbv zeta. apply ends_bind. cbn [seq rfold]. apply ends_bind.
  unfold pso_particle. apply ends_bind, ends_getp. cbv zeta. cbn [sw_V sw_X sw_lbX sw_lbf sw_bn sw_bf sw_nb snd]. fold p. do 5 (apply ends_bind; eapply ends_lift_ok; [reflexivity|]). change (ps_variant fips_params) with 6. change (ps_ntype fips_params) with 2. cbn [Nat.eqb negb andb].
  apply ends_bind, ends_ret. apply ends_bind.
  apply (ends_eng _ _ (fun V1 => V1 = [NaN; NaN])).
  - unfold pso_velocity. cbv zeta. change (ps_variant fips_params) with 6. cbn [Nat.eqb]. change (get_nx p) with 2 in *. destruct v0 as [|w0 [|w1 v0]]; [cbn in HV; lia|cbn in HV; lia|].
    assert (NN : forall v, dmul (ps_omega fips_params) (dadd v (ddiv dzero (d_of_Z (Z.of_nat 0)))) = NaN).
    { intros v. change (d_of_Z (Z.of_nat 0)) with (d_of_Z 0). rewrite d_of_Z_int by (apply small53; lia). change (dint 0) with (Fin 0). cbn [ddiv dzero Z.eqb]. change (sgn_inf (Z.sgn 0)) with NaN. destruct v; reflexivity. }
    cbn [seq rmap]. apply (always_bind _ _ (fun w => w = NaN)).
    { apply (always_bind _ _ (fun w => w = w0)); [apply (always_vget _ _ w0); reflexivity|]. intros ? ->. apply (always_bind _ _ (fun w => w = Fin 1)); [apply (always_vget _ _ (Fin 1)); reflexivity|]. intros ? ->. unfold pso_fips. cbn [rfold length]. apply (always_bind _ _ (fun w => w = dzero)); [now apply always_ret|]. intros ? ->. apply always_ret. apply NN. }
    intros ? ->. apply (always_bind _ _ (fun w => w = [NaN])); [|intros ? ->; now apply always_ret]. apply (always_bind _ _ (fun w => w = NaN)).
    { apply (always_bind _ _ (fun w => w = w1)); [apply (always_vget _ _ w1); reflexivity|]. intros ? ->. apply (always_bind _ _ (fun w => w = Fin 2)); [apply (always_vget _ _ (Fin 2)); reflexivity|]. intros ? ->. unfold pso_fips. cbn [rfold length]. apply (always_bind _ _ (fun w => w = dzero)); [now apply always_ret|]. intros ? ->. apply always_ret. apply NN. }
    intros ? ->. apply (always_bind _ _ (fun w => w = [])); [now apply always_ret|]. intros ? ->. now apply always_ret.
  - intros V1 g2 ->. apply ends_bind. apply (ends_lift_ok _ [(NaN, NaN); (NaN, NaN)]).
    { cbn [get_nx p po_prob one_pop p_lb p_ub length seq mmap vget nth_error bind]. rewrite !move_nan. reflexivity. }
    cbv zeta. apply ends_bind. apply (ends_peval p); [reflexivity|intros x _; split; discriminate|reflexivity|intros e (x & Lx & He); exact (one_pop_runs _ (fun _ => ex_intro _ _ eq_refl) e x Lx He)|].
    intros f (_ & _ & Ef). injection Ef as <-. cbn [fst snd one_pop po_f po_x nth_error].
    assert (VL : vec_le [Fin 0] [Fin 3] = true) by (vm_compute; reflexivity). rewrite VL. apply ends_ret. change (ps_ntype fips_params) with 2. cbn [rfold Nat.eqb andb orb]. apply ends_ret. apply ends_ret. apply ends_ret.
    cbn [sw_V sw_X sw_lbX sw_lbf sw_bn sw_bf sw_nb upd seq rfold]. apply ends_bind. apply ends_bind.
    apply ends_bind. eapply ends_lift_ok; [reflexivity|]. apply ends_bind. eapply ends_lift_ok; [reflexivity|]. apply ends_pset; [apply valid_fevals; exact (one_pop_valid zero_fit)|cbn; lia|reflexivity|reflexivity|].
    intros c _ _. apply ends_ret. apply ends_ret. split; reflexivity.
Qed.
Lemma memory_not_saved (old : pso_params) : ps_memory old = false -> exists a, pso_construct a = Ok tt /\ ps_memory a = true /\ ps_memory (pso_load old (pso_save a)) = false.
Proof.
  intros H. exists (mkpso 1 done done done done 5 1 4 true). split; [|split; [reflexivity|exact H]].
  apply params_construct; lia.
Qed.

(** ** One coordinate of one move *)
Lemma move_step a l u v x : dle dzero (dmul (dsub u l) (ps_max_vel a)) = true -> v <> NaN -> dle l u = true -> exists c,
  within (dneg (dmul (dsub u l) (ps_max_vel a))) (dmul (dsub u l) (ps_max_vel a)) c /\
  (within (dneg (dmul (dsub u l) (ps_max_vel a))) (dmul (dsub u l) (ps_max_vel a)) v -> c = v) /\
  ((dlt (dadd x c) l = true /\ pso_move1 a l u v x = (dzero, l)) \/
   (dlt u (dadd x c) = true /\ pso_move1 a l u v x = (dzero, u)) \/
   (dlt (dadd x c) l = false /\ dlt u (dadd x c) = false /\ pso_move1 a l u v x = (c, dadd x c))).
Proof.
  unfold pso_move1, pso_width. set (w := dmul _ _). intros W V LU. clearbody w. cbv zeta.
  assert (NW : w <> NaN) by (destruct w; discriminate). assert (NM : dneg w <> NaN) by (destruct w; discriminate).
  assert (MW : dle (dneg w) w = true) by (destruct w as [| |z|]; try discriminate; try reflexivity; apply dle_fin in W; apply dle_fin; lia).
  set (c := if dgt v w then w else if dlt v (dneg w) then dneg w else v). exists c. split; [|split].
  - unfold c. destruct (dgt v w) eqn:D1; [split; [exact MW|now apply dle_refl]|]. destruct (dlt v (dneg w)) eqn:D2; [split; [now apply dle_refl|exact MW]|].
    split; apply dlt_false_dle; auto.
  - intros (A & B). unfold c. destruct (dgt v w) eqn:D1.
    { exfalso. unfold dgt in D1. destruct v as [| |v|], w as [| |w|]; try discriminate; try congruence; apply dle_fin in B; apply Z.ltb_lt in D1; lia. }
    destruct (dlt v (dneg w)) eqn:D2; [|reflexivity]. exfalso. destruct v as [| |v|], w as [| |w|]; try discriminate; try congruence; apply dle_fin in A; apply Z.ltb_lt in D2; lia.
  - unfold dgt. destruct (dlt (dadd x c) l) eqn:D1; [left; auto|]. destruct (dlt u (dadd x c)) eqn:D2; [right; left; auto|right; right; auto].
Qed.
