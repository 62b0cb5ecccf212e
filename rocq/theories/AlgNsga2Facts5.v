From Coq Require Import List Bool Arith ZArith Lia Permutation.
From Verif Require Import Dbl DblFacts IntDbl Outcome BaseFacts StdSort Compare SpecOrder CompareFacts DominanceFacts MultiObj SpecMultiObj FndsFacts CrowdFacts MultiObjFacts MultiObjFacts2 MultiObjFacts3 Problem SpecProblem Rng Generic SpecGeneric GenericFacts GenericFacts3
  SpecGenetic RmFacts GeneticOps GeneticFacts GeneticFacts2 GeneticFacts3 Population SpecPopulation PopulationFacts ProblemFacts ProblemFacts2 Algo SpecAlgo AlgoFacts AlgoFacts2 AlgDeFacts AlgSga SpecSga AlgSgaFacts2 AlgSgaFacts3 AlgSgaFacts4 AlgSgaFacts6 AlgNsga2 SpecNsga2 AlgNsga2Facts AlgNsga2Facts2 AlgNsga2Facts3 AlgNsga2Facts4
  AlgIhsFacts2 AlgPsoFacts4.
Import ListNotations.

Lemma concat_len {A} (l : list (list A)) n : (forall x, In x l -> length x = n) -> length (concat l) = length l * n.
Proof. induction l as [|x l IH]; intros H; [reflexivity|]. cbn [concat]. rewrite app_length, IH by (intros y Hy; apply H; now right). rewrite (H x (or_introl eq_refl)). cbn. lia. Qed.
Lemma sub_vectors n F : forall pre, (forall f, In f F -> length f = n) ->
  mmap (fun i => sub_vector (pre ++ concat F) (length pre + i * n) n) (seq 0 (length F)) = Ok F.
Proof.
  induction F as [|f F IH]; intros pre H; [reflexivity|]. cbn [length seq mmap concat]. pose proof (H f (or_introl eq_refl)) as Hf.
  assert (E0 : sub_vector (pre ++ f ++ concat F) (length pre + 0 * n) n = Ok f).
  { unfold sub_vector. rewrite !app_length, Hf, Nat.mul_0_l, Nat.add_0_r. destruct (Nat.leb_spec (length pre + n) (length pre + (n + length (concat F)))); [|lia].
    rewrite skipn_app, Nat.sub_diag, skipn_all. cbn [skipn app]. rewrite firstn_app, Hf, Nat.sub_diag, <- Hf, firstn_all. cbn [firstn]. now rewrite app_nil_r. }
  rewrite E0. cbn [bind]. rewrite <- seq_shift. specialize (IH (pre ++ f) (fun g Hg => H g (or_intror Hg))). rewrite <- app_assoc in IH.
  assert (EM : forall l, mmap (fun i => sub_vector (pre ++ f ++ concat F) (length pre + i * n) n) (map S l) = mmap (fun i => sub_vector (pre ++ f ++ concat F) (length (pre ++ f) + i * n) n) l).
  { induction l as [|i l IHl]; [reflexivity|]. cbn [map mmap]. rewrite IHl. replace (length pre + S i * n) with (length (pre ++ f) + i * n) by (rewrite app_length; lia). reflexivity. }
  rewrite EM, IH. reflexivity.
Qed.
Lemma same_bind {S A B} (m m' : RM S A) (f f' : A -> RM S B) s : same_run (m s) (m' s) -> (forall v s', m s = (Ok v, s') -> same_run (f v s') (f' v s')) -> same_run (rbind m f s) (rbind m' f' s).
Proof.
  intros [E K] H. unfold rbind. destruct (m s) as [o t] eqn:Em, (m' s) as [o' t'] eqn:Em'. cbn [fst snd] in *. subst o'. destruct o as [v|e| |].
  - rewrite <- (K v eq_refl). now apply H.
  - split; [reflexivity|discriminate].
  - split; [reflexivity|discriminate].
  - split; [reflexivity|discriminate].
Qed.
Lemma same_refl {S A} (q : outcome A * S) : same_run q q. Proof. split; reflexivity. Qed.

Section B.
Context {G P : Type} (r : rng G) (RC : rng_contract r) (srt : sorter) (HS : sort_contract srt) (pw : dbl -> dbl -> dbl) (shuf : forall A, list A -> G -> list A * G) (SC : shuffle_contract shuf) (a : nsga2_params).
Context (ud : problem -> list dbl -> outcome (list dbl)) (p : problem) (TF : total_fitness p) (FB : faithful_bfe ud p) (PO : prob_obj p) (MP : mo_problem p).

Lemma eval_batch_eq tmp F (g : G) (po : pop P) : po_prob po = p -> Forall2 (evaluated p) tmp F -> nsga2_eval_batch ud tmp (g, po) = (Ok F, (g, with_fevals po (wrap64 (po_fevals po + Z.of_nat (length tmp))))).
Proof.
  clear - FB PO MP. intros EP EV. pose proof MP as (_ & NC & NF & _). pose proof (mo_obj p NC) as NO. unfold nsga2_eval_batch, rbind, getp, nsga2_call. cbn [fst snd]. rewrite EP.
  assert (LX : forall x, In x tmp -> length x = get_nx p) by (intros x Hx; apply In_nth_error in Hx; destruct Hx as (i & Hi); destruct (nth_ex F i) as (f & Nf); [rewrite <- (Forall2_len _ _ _ EV); apply nth_error_Some; congruence|]; destruct (Forall2_at _ _ _ EV i x f Hi Nf) as (H & _); exact H).
  assert (LF : forall f, In f F -> length f = get_nf p) by (intros f Hf; apply In_nth_error in Hf; destruct Hf as (i & Hi); destruct (nth_ex tmp i) as (x & Nx); [rewrite (Forall2_len _ _ _ EV); apply nth_error_Some; congruence|]; destruct (Forall2_at _ _ _ EV i x f Nx Hi) as (_ & H & _); exact H).
  assert (NX : 0 < get_nx p) by (pose proof (prob_obj_bounds p PO) as (H & _); destruct (prob_obj_lens p PO) as [L _]; destruct (p_lb p); [congruence|cbn in L; lia]).
  destruct (bfe_call ud p (po_fevals po) (concat tmp)) as [o c] eqn:BC. destruct (bfe_call_spec ud p _ _ o c NX ltac:(lia) BC) as (S1 & S2 & _).
  assert (BA : is_batch (get_nx p) (length tmp) (concat tmp)) by (unfold is_batch; now apply concat_len).
  assert (EO : o = Ok (concat F)). { apply S1. exists (length tmp). split; [exact BA|]. split; [now apply FB|]. unfold is_batch. rewrite (Forall2_len _ _ _ EV). now apply concat_len. }
  rewrite (S2 _ BA), EO. unfold rlift. rewrite NO, (Forall2_len _ _ _ EV). pose proof (sub_vectors (get_nf p) F [] LF) as SV. cbn [app length Nat.add] in SV. rewrite SV. reflexivity.
Qed.
Lemma breed_same Pre rk sh1 sh2 (s : G * pop P) : varies r pw a p Pre -> po_prob (snd s) = p -> valid_pop (snd s) -> (forall x, In x (po_x (snd s)) -> Pre x) ->
  ranked (length (po_id (snd s))) rk -> shuffled (length (po_id (snd s))) sh1 -> shuffled (length (po_id (snd s))) sh2 -> mo_size (length (po_id (snd s))) ->
  same_run (nsga2_breed r pw a (Some ud) rk sh1 sh2 s) (nsga2_breed r pw a None rk sh1 sh2 s).
Proof.
  intros VA EP V HX RK S1 S2 (M5 & k & HN). pose proof V as (_ & (L1 & L2 & _) & _). unfold nsga2_breed. unfold rbind at 1 4. unfold getp at 1 2. cbv zeta. rewrite EP.
  destruct s as [g po]. cbn [fst snd] in *. assert (Ek : length (po_id po) / 4 = k) by (rewrite HN, Nat.mul_comm; apply Nat.div_mul; lia). rewrite Ek. rewrite L1 in RK, S1, S2.
  pose proof (seq_bat (P := P) r RC pw a p Pre (po_x po) rk sh1 sh2 VA TF HX RK S1 S2 (seq 0 k) ltac:(intros h Hh; apply in_seq in Hh; lia) [] (po_x po, po_f po) g po EP) as SB. rewrite seq_length in SB.
  unfold rbind, eng. cbn [fst snd]. destruct (rfold (nsga2_bat r pw a (po_x po) (p_lb p) (p_ub p) (p_nix p) rk sh1 sh2) [] (seq 0 k) g) as [[tmp|e| |] g']; try contradiction.
  - destruct SB as (new & F & c & -> & LN & EV & (G1 & G2) & EQ). cbn [app fst snd] in *. rewrite EQ, (eval_batch_eq new F g' po EP EV). split; [reflexivity|]. intros v _. cbn [snd]. f_equal. f_equal. rewrite (G2 ltac:(lia)), G1, LN. reflexivity.
  - cbn [fst] in SB. split; [now rewrite SB|discriminate].
Qed.
Lemma generation_same Pre sh (s : G * pop P) : varies r pw a p Pre -> po_prob (snd s) = p -> valid_pop (snd s) -> mo_size (length (po_id (snd s))) -> (forall x, In x (po_x (snd s)) -> Pre x) ->
  shuffled (length (po_id (snd s))) (fst sh) -> shuffled (length (po_id (snd s))) (snd sh) ->
  same_run (nsga2_generation r srt pw shuf a (Some ud) sh s) (nsga2_generation r srt pw shuf a None sh s).
Proof.
  intros VA EP V MS HP H1 H2. pose proof V as (_ & (L1 & L2 & Fx & Ff & _) & _). pose proof MP as (_ & _ & NF & _). pose proof MS as (M5 & _). unfold nsga2_generation.
  apply same_bind; [apply same_refl|]. intros s0 s' E0. injection E0 as <- <-. apply same_bind; [apply same_refl|]. intros sh1 s1 E1. pose proof (shuffle_ok shuf SC _ _ never H1 (fst s)) as K1. unfold eng in E1. destruct (rdraw (shuf nat (fst sh)) (fst s)) as [o1 g1]. injection E1 as -> <-. cbn [fst] in K1.
  apply same_bind; [apply same_refl|]. intros sh2 s2 E2. pose proof (shuffle_ok shuf SC _ _ never H2 g1) as K2. unfold eng in E2. cbn [fst snd] in E2. destruct (rdraw (shuf nat (snd sh)) g1) as [o2 g2]. injection E2 as -> <-. cbn [fst] in K2.
  destruct (ranking_ready srt HS (po_f (snd s)) (get_nf p)) as (rk & Erk & RK); [intros f Hf; rewrite <- EP; now apply Ff|exact NF|lia|]. replace (length (po_f (snd s))) with (length (po_id (snd s))) in RK by lia. rewrite Erk.
  apply same_bind; [apply same_refl|]. intros rk' s3 E3. injection E3 as <- <-. apply same_bind; [apply (breed_same Pre rk sh1 sh2 (g2, snd s) VA EP V HP RK K1 K2 MS)|]. intros XF s4 _. apply same_refl.
Qed.
Lemma nsga2_batch_same (s : G * pop P) : po_prob (snd s) = p -> valid_pop (snd s) -> mo_size (length (po_id (snd s))) -> Forall is_double (p_lb p) -> Forall is_double (p_ub p) ->
  same_run (nsga2_evolve r srt pw shuf a (Some ud) s) (nsga2_evolve r srt pw shuf a None s).
Proof.
  intros EP V MS DL DU. assert (FD : fitness_defined p) by (intros x Lx; destruct (TF x Lx) as (f & _ & _ & U); rewrite U; split; discriminate).
  pose proof (varies_box r RC pw a p False PO DL DU) as VA. set (Pre := mo_box p False) in *. unfold nsga2_evolve. apply same_bind; [apply same_refl|]. intros s0 s' E0. injection E0 as <- <-. cbv zeta. rewrite EP.
  destruct (some_bound_is_equal _ _); [apply same_refl|]. destruct (u_set_seed _); [apply same_refl|]. destruct (negb (get_nc p =? 0)); [apply same_refl|]. destruct (get_nf p <? 2); [apply same_refl|]. destruct (_ || _); [apply same_refl|].
  apply same_bind; [|intros; apply same_refl].
  assert (LEN : forall (t : G * pop P), po_prob (snd t) = p -> valid_pop (snd t) -> forall x, In x (po_x (snd t)) -> Pre x) by (intros t Et (_ & (_ & _ & Fx & _) & _) x Hx; split; [rewrite <- Et; now apply Fx|contradiction]).
  assert (K : forall n b sh (t : G * pop P), po_prob (snd t) = p -> valid_pop (snd t) -> mo_size (length (po_id (snd t))) -> shuffled (length (po_id (snd t))) (fst sh) -> shuffled (length (po_id (snd t))) (snd sh) ->
    same_run (rfold (fun sh _ => nsga2_generation r srt pw shuf a (Some ud) sh) sh (seq b n) t) (rfold (fun sh _ => nsga2_generation r srt pw shuf a None sh) sh (seq b n) t)).
  { induction n as [|n IH]; intros b sh t Et Vt Mt A1 A2; [apply same_refl|]. cbn [seq rfold]. pose proof (generation_same Pre sh t VA Et Vt Mt (LEN t Et Vt) A1 A2) as SG. apply same_bind; [exact SG|].
    intros sh' t' E'. pose proof (nsga2_generation_ok r RC srt HS pw shuf SC a p Pre sh t VA Et Vt MP FD Mt (LEN t Et Vt) A1 A2) as GO. unfold ends_w in GO. destruct SG as [Q1 Q2]. rewrite E' in Q1, Q2. cbn [fst snd] in Q1, Q2.
    destruct (nsga2_generation r srt pw shuf a None sh t) as [o t2]. cbn [fst snd] in Q1, Q2. subst o. rewrite <- (Q2 _ eq_refl) in GO. destruct GO as (V' & (born & ST) & _ & B1 & B2). pose proof ST as (R1 & R2 & _). rewrite <- R2 in B1, B2, Mt. apply IH; congruence. }
  apply K; [exact EP|exact V|exact MS|apply Permutation_refl|apply Permutation_refl].
Qed.
End B.

(** ** What survives *)
Lemma best_keeps M pts N sel i j : uniform pts M -> 2 <= length pts -> best_N_selection M pts N sel -> In i sel -> j < length pts -> ~ In j sel -> ~ dom_idx pts j i /\ (nondominated pts j -> nondominated pts i).
Proof.
  intros U HN (_ & Hlt & _ & Hk & _) Hi Hj Hn. destruct (fnds_ok pts M U HN) as (t & _ & FD & _).
  assert (Hall : forall i, i < length pts -> exists k, In i (nth k (fr_fronts t) [])).
  { intros x Hx. assert (H : In x (concat (fr_fronts t))) by (eapply Permutation_in; [apply (fd_perm _ _ FD)|]; apply in_seq; lia). apply in_nth_concat in H. destruct H as (k & _ & H). eauto. }
  destruct (Hall i (Hlt i Hi)) as (ki & Hki). split.
  - intros D. destruct (fd_earlier _ _ FD ki i j Hki D) as (kj & Hlt' & Hkj). pose proof (Hk (fr_fronts t) ki kj i j FD Hi Hj Hn Hki Hkj). lia.
  - intros ND. apply (fd_first _ _ FD) in ND. pose proof (Hk (fr_fronts t) ki 0 i j FD Hi Hj Hn Hki ND). replace ki with 0 in Hki by lia. now apply (fd_first _ _ FD).
Qed.
Lemma mo_step_keeps {P} p Box (s s' : pop P) born : valid_pop s -> po_prob s = p -> 2 <= length (po_id s) -> mo_step p Box s born s' ->
  let merged := individuals s ++ born in exists sel, NoDup sel /\ Forall2 (fun b i => nth_error merged b = Some i) sel (individuals s') /\
    forall i j, In i sel -> j < length merged -> ~ In j sel -> ~ dom_idx (map snd merged) j i /\ (nondominated (map snd merged) j -> nondominated (map snd merged) i).
Proof.
  intros V EP H2 (_ & _ & LB & HB & sel & BS & HF) merged. pose proof V as (_ & (L1 & L2 & _ & Ff & _) & _). exists sel. split; [exact (proj1 BS)|]. split; [exact HF|]. intros i j Hi Hj Hn.
  apply (best_keeps (get_nf p) (map snd merged) (length (individuals s)) sel i j); [|rewrite map_length; unfold merged; rewrite app_length; unfold individuals; rewrite combine_length; lia|exact BS|exact Hi|rewrite map_length; exact Hj|exact Hn].
  intros f Hf. apply in_map_iff in Hf. destruct Hf as (q & <- & Hq). unfold merged in Hq. apply in_app_or in Hq. destruct Hq as [Hq|Hq]; [|destruct (HB q Hq) as ((_ & H & _) & _); exact H].
  destruct q as [x f]. apply in_combine_r in Hq. rewrite <- EP. cbn [snd]. now apply Ff.
Qed.
