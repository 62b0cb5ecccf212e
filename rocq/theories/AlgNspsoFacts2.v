(** NSPSO: runs. *)
From Coq Require Import List Bool Arith ZArith Lia Permutation.
From Verif Require Import Dbl DblFacts IntDbl Compare CompareFacts Outcome BaseFacts GenericFacts GenericFacts3 StdSort SpecOrder MultiObj SpecMultiObj Problem SpecProblem ProblemFacts ProblemFacts2 Rng Generic SpecGeneric SpecGenetic RmFacts GeneticOps GeneticFacts
  Population SpecPopulation PopulationFacts Algo SpecAlgo AlgoFacts AlgoFacts2 AlgSga AlgSgaFacts4 SpecNsga2 AlgNsga2 SpecCmaes AlgSaFacts AlgGwoFacts AlgMoeadGenFacts AlgNspso SpecNspso AlgNspsoFacts.
From Verif Require AlgNsga2Facts5 AlgPsoFacts2 AlgPsoGenFacts.
Import ListNotations.

Lemma upd_part {A} (L M : list A) i x : nth_error L i = Some x -> length M = length L -> upd (firstn i L ++ skipn i M) i x = firstn (S i) L ++ skipn (S i) M.
Proof.
  revert L M. induction i as [|i IH]; intros [|y L] [|z M] H LE; cbn [nth_error length] in H, LE; try discriminate; [injection H as ->; reflexivity|].
  cbn [firstn skipn app]. cbn [upd]. f_equal. apply (IH L M H). congruence.
Qed.

Section E.
Context {G P : Type} (srt : sorter) (SC : sort_contract srt) (r : rng G) (RC : rng_contract r) (pw : dbl -> dbl -> dbl) (fuel : nat) (bfe : option (problem -> list dbl -> outcome (list dbl))) (a : nspso_params) (p : problem) (n : nat).
Context (PO : prob_obj p) (NP : np_problem p) (EV : evaluates bfe p) (Hrange : np_range a <= 100) (Hn : 2 <= n) (Hsize : (Z.of_nat n < 2 ^ 31)%Z).
Context (BoxC : dbl -> dbl -> dbl -> Prop) (Good GV : dbl -> Prop).
Let dim := get_nx p.
Definition boxc (x : list dbl) : Prop := length x = length (p_lb p) /\ length x = length (p_ub p) /\
  forall i l u v, nth_error (p_lb p) i = Some l -> nth_error (p_ub p) i = Some u -> nth_error x i = Some v -> BoxC l u v.
Context (Hmove : forall i l u r1 r2 v b x w, nth_error (p_lb p) i = Some l -> nth_error (p_ub p) i = Some u -> within dzero done r1 -> within dzero done r2 -> GV v -> Good b -> Good x -> Good w ->
  GV (fst (np_move1 a l u r1 r2 v b x w)) /\ Good (snd (np_move1 a l u r1 r2 v b x w)) /\ BoxC l u (snd (np_move1 a l u r1 r2 v b x w))).
Context (Hspeed : forall i l u v, nth_error (p_lb p) i = Some l -> nth_error (p_ub p) i = Some u -> within (dneg (np_width a l u)) (np_width a l u) v -> GV v).
Context (Hwide : forall i l u, nth_error (p_lb p) i = Some l -> nth_error (p_ub p) i = Some u -> ok_real (dneg (np_width a l u)) (np_width a l u) -> dle (dneg (np_width a l u)) (np_width a l u) = true).

Definition point (x : list dbl) : Prop := length x = dim /\ Forall Good x.
Lemma good_get (Q : dbl -> Prop) x d : dim <= length x -> Forall Q x -> d < dim -> exists v, vget x d = Ok v /\ Q v.
Proof. intros L F H. destruct (vget_in_range x d ltac:(lia)) as (v & E & N). exists v. split; [exact E|]. rewrite Forall_forall in F. apply F. eapply nth_error_In; eauto. Qed.
Definition moved (c : list dbl * list dbl) : Prop := (dim <= length (fst c) /\ Forall GV (fst c)) /\ point (snd c) /\ boxc (snd c).
Definition speeds (V : list (list dbl)) : Prop := length V = n /\ forall v, In v V -> dim <= length v /\ Forall GV v.

Lemma pick_ok ext bnd idx E : (0 <= ext < Z.of_nat (length bnd))%Z -> forall k g, ends_w True (np_pick r k ext bnd idx) g (fun b _ => In b bnd /\ b <> idx) E.
Proof.
  intros He. induction k as [|k IH]; intros g; cbn [np_pick]; [exact I|]. apply ends_bind. eapply ends_always; [apply (draw_int_ok r RC); lia|]. intros l g1 Hl. cbv beta in Hl |- *.
  destruct (vget_in_range bnd (Z.to_nat l) ltac:(lia)) as (b & Eb & Nb). apply ends_bind. eapply ends_lift_ok; [exact Eb|]. destruct (Nat.eqb_spec b idx) as [|N]; [apply IH|]. apply ends_ret. split; [eapply nth_error_In; eauto|exact N].
Qed.
Lemma particle_ok bnd bx X V idx E g : 2 <= length bnd <= n -> (forall i, In i bnd -> i < n) -> length bx = n -> Forall point bx -> length X = n -> Forall point X -> speeds V -> idx < n ->
  ends_w True (np_particle r fuel a p bnd bx X V idx) g (fun c _ => moved c) E.
Proof.
  intros LB HB Lbx Fbx LX FX (LV & HV) Hi. unfold np_particle. destruct (ext_ok (length bnd) (np_range a)) as (ext & Ee & He); [lia|lia|exact Hrange|]. apply ends_bind. eapply ends_lift_ok; [exact Ee|]. apply ends_bind.
  eapply ends_weak; [apply (pick_ok ext bnd idx E); lia| |intros e0 He0; exact He0]. intros b g1 (Ib & _). cbv beta. rewrite Forall_forall in Fbx, FX.
  destruct (vget_in_range bx b ltac:(specialize (HB b Ib); lia)) as (w & Ew & Nw). destruct (Fbx w (nth_error_In _ _ Nw)) as (Lw & Fw). apply ends_bind. eapply ends_lift_ok; [exact Ew|].
  apply ends_bind. eapply ends_always; [apply (draw01_in r RC)|]. intros r1 g2 H1. cbv beta. apply ends_bind. eapply ends_always; [apply (draw01_in r RC)|]. intros r2 g3 H2. cbv beta.
  destruct (vget_in_range V idx ltac:(lia)) as (v & Ev & Nv). destruct (HV v (nth_error_In _ _ Nv)) as (Lv & Fv). apply ends_bind. eapply ends_lift_ok; [exact Ev|].
  destruct (vget_in_range bx idx ltac:(lia)) as (y & Ey & Ny). destruct (Fbx y (nth_error_In _ _ Ny)) as (Ly & Fy). apply ends_bind. eapply ends_lift_ok; [exact Ey|].
  destruct (vget_in_range X idx ltac:(lia)) as (x & Ex & Nx). destruct (FX x (nth_error_In _ _ Nx)) as (Lx & Fx). apply ends_bind. eapply ends_lift_ok; [exact Ex|]. destruct (prob_obj_lens p PO) as [Ll Lu].
  match goal with |- context [mmap ?f ?ll] => destruct (AlgPsoFacts2.mmap_each f (fun d q => GV (fst q) /\ Good (snd q) /\ exists l u, nth_error (p_lb p) d = Some l /\ nth_error (p_ub p) d = Some u /\ BoxC l u (snd q)) ll) as (mv & Em & F) end.
  { intros d Hd. apply in_seq in Hd. fold dim in Hd, Ll, Lu. destruct (vget_in_range (p_lb p) d ltac:(lia)) as (l & -> & Nl). destruct (vget_in_range (p_ub p) d ltac:(lia)) as (u & -> & Nu).
    destruct (good_get GV v d Lv Fv ltac:(lia)) as (v0 & -> & Gv). destruct (good_get Good y d ltac:(lia) Fy ltac:(lia)) as (y0 & -> & Gy). destruct (good_get Good x d ltac:(lia) Fx ltac:(lia)) as (x0 & -> & Gx). destruct (good_get Good w d ltac:(lia) Fw ltac:(lia)) as (w0 & -> & Gw).
    cbn [bind]. eexists. split; [reflexivity|]. destruct (Hmove d l u r1 r2 v0 y0 x0 w0 Nl Nu H1 H2 Gv Gy Gx Gw) as (A & B & C). split; [exact A|]. split; [exact B|]. exists l, u. auto. }
  apply ends_bind. eapply ends_lift_ok; [exact Em|]. apply ends_ret. apply AlgPsoFacts2.f2_seq in F. destruct F as [L F]. fold dim in L, Ll, Lu.
  assert (FA : forall q, In q mv -> GV (fst q) /\ Good (snd q)) by (intros q Hq; apply In_nth_error in Hq; destruct Hq as (i & Hi'); destruct (F i q Hi') as (A & B & _); auto).
  unfold moved. cbn [fst snd]. split; [split; [rewrite map_length; lia|apply Forall_forall; intros z Hz; apply in_map_iff in Hz; destruct Hz as (q & <- & Hq); now apply FA]|].
  split; [split; [rewrite map_length; lia|apply Forall_forall; intros z Hz; apply in_map_iff in Hz; destruct Hz as (q & <- & Hq); now apply FA]|].
  split; [rewrite map_length; lia|]. split; [rewrite map_length; lia|]. intros i l u z A B C. rewrite nth_error_map in C. destruct (nth_error mv i) as [q|] eqn:Q; [|discriminate]. injection C as <-. destruct (F i q Q) as (_ & _ & l' & u' & A' & B' & H). congruence.
Qed.
Lemma batch_eq ud tmp F (g : G) (po : pop P) : faithful_bfe ud p -> po_prob po = p -> Forall2 (evaluated p) tmp F -> nsga2_eval_batch ud tmp (g, po) = (Ok F, (g, with_fevals po (wrap64 (po_fevals po + Z.of_nat (length tmp))))).
Proof.
  clear - PO NP. intros FB EP EV. pose proof NP as (_ & NC & NF). assert (NO : p_nobj p = get_nf p) by (unfold get_nf, get_nc in *; lia). unfold nsga2_eval_batch, rbind, getp, nsga2_call. cbn [fst snd]. rewrite EP.
  assert (LX : forall x, In x tmp -> length x = get_nx p) by (intros x Hx; apply In_nth_error in Hx; destruct Hx as (i & Hi); destruct (nth_ex F i) as (f & Nf); [rewrite <- (Forall2_len _ _ _ EV); apply nth_error_Some; congruence|]; destruct (Forall2_at _ _ _ EV i x f Hi Nf) as (H & _); exact H).
  assert (LF : forall f, In f F -> length f = get_nf p) by (intros f Hf; apply In_nth_error in Hf; destruct Hf as (i & Hi); destruct (nth_ex tmp i) as (x & Nx); [rewrite (Forall2_len _ _ _ EV); apply nth_error_Some; congruence|]; destruct (Forall2_at _ _ _ EV i x f Nx Hi) as (_ & H & _); exact H).
  assert (NX : 0 < get_nx p) by (pose proof (prob_obj_bounds p PO) as (H & _); destruct (prob_obj_lens p PO) as [L _]; destruct (p_lb p); [congruence|cbn in L; lia]).
  destruct (bfe_call ud p (po_fevals po) (concat tmp)) as [o c] eqn:BC. destruct (bfe_call_spec ud p _ _ o c NX ltac:(lia) BC) as (S1 & S2 & _).
  assert (BA : is_batch (get_nx p) (length tmp) (concat tmp)) by (unfold is_batch; now apply AlgNsga2Facts5.concat_len).
  assert (EO : o = Ok (concat F)). { apply S1. exists (length tmp). split; [exact BA|]. split; [now apply FB|]. unfold is_batch. rewrite (Forall2_len _ _ _ EV). now apply AlgNsga2Facts5.concat_len. }
  rewrite (S2 _ BA), EO. unfold rlift. rewrite NO, (Forall2_len _ _ _ EV). pose proof (AlgNsga2Facts5.sub_vectors (get_nf p) F [] LF) as SV. cbn [app length Nat.add] in SV. rewrite SV. reflexivity.
Qed.
Notation only_evals := (AlgPsoGenFacts.only_evals (G := G) (P := P)).
Lemma rmap_count {Q A B} (f : A -> RM Q B) (J : nat -> Q -> Prop) (R : A -> B -> Prop) E l : (forall x s k, In x l -> J k s -> ends_w True (f x) s (fun b s' => J (1 + k) s' /\ R x b) E) ->
  forall s k, J k s -> ends_w True (rmap f l) s (fun bs s' => J (length l + k) s' /\ Forall2 R l bs) E.
Proof.
  induction l as [|x l IH]; intros H s k HJ; cbn [rmap]; [apply ends_ret; split; [exact HJ|constructor]|].
  apply ends_bind. eapply ends_weak; [apply H; [now left|exact HJ]| |intros e He; exact He]. intros b s' (J1 & Rb). cbv beta. apply ends_bind. eapply ends_weak; [apply IH; [intros; apply H; [now right|assumption]|exact J1]| |intros e He; exact He].
  intros bs s'' (J2 & Rs). apply ends_ret. split; [|now constructor]. cbn [length]. replace (S (length l) + k) with (length l + (1 + k)) by lia. exact J2.
Qed.
Lemma moves_ok bnd bx X V s : po_prob (snd s) = p -> 2 <= length bnd <= n -> (forall i, In i bnd -> i < n) -> length bx = n -> Forall point bx -> length X = n -> Forall point X -> speeds V ->
  ends_w True (np_moves (P := P) r fuel bfe a p bnd bx X V n) s (fun e s' => only_evals n s s' /\ length (fst e) = n /\ Forall2 (fun c f => moved c /\ evaluated p (snd c) f) (fst e) (snd e)) (fitness_throws p).
Proof.
  intros EP LB HB Lbx Fbx LX FX HV. unfold np_moves. unfold evaluates in EV. destruct bfe as [ud|].
  - destruct EV as (TF & FB). apply ends_bind. apply ends_eng_w. eapply ends_weak; [apply (ends_rmap _ (fun _ => True) (fun _ c => moved c) (fitness_throws p) (seq 0 n))| |intros e He; exact He]; [|exact I|].
    + intros i g Hi _. apply in_seq in Hi. eapply ends_weak; [apply (particle_ok bnd bx X V i (fitness_throws p) g LB HB Lbx Fbx LX FX HV); lia| |intros e He; exact He]. auto.
    + intros cs g (_ & F). cbv beta. apply AlgPsoFacts2.f2_seq in F. destruct F as (L & F). assert (MC : forall c, In c cs -> moved c) by (intros c Hc; apply In_nth_error in Hc; destruct Hc as (i & Hi); exact (F i c Hi)).
      destruct (total_all p (map snd cs) TF) as (fs & EF); [intros x Hx; apply in_map_iff in Hx; destruct Hx as (c & <- & Hc); destruct (MC c Hc) as (_ & (Lc & _) & _); exact Lc|].
      apply ends_bind. unfold ends_w at 1. rewrite (batch_eq ud (map snd cs) fs g (snd s) FB EP EF). apply ends_ret. cbn [fst snd]. split; [rewrite map_length, L; split; cbn [snd]; [apply AlgPsoGenFacts.evals_batch|eexists; reflexivity]|]. split; [exact L|].
      clear - EF MC. revert fs EF. induction cs as [|c cs IH]; intros fs EF; inversion EF; subst; constructor; [split; [apply MC; now left|assumption]|]. apply IH; [intros c0 Hc; apply MC; now right|assumption].
  - apply ends_bind. eapply ends_weak; [apply (rmap_count _ (fun k s' => only_evals k s s') (fun _ e => moved (fst e) /\ evaluated p (snd (fst e)) (snd e)) (fitness_throws p) (seq 0 n)) with (k := 0)| |intros e He; exact He].
    + intros i s1 k Hi O. apply in_seq in Hi. apply ends_bind. apply ends_eng_w. eapply ends_weak; [apply (particle_ok bnd bx X V i (fitness_throws p) (fst s1) LB HB Lbx Fbx LX FX HV); lia| |intros e He; exact He]. intros c g MC. cbv beta. apply ends_bind.
      pose proof MC as (_ & (Lc & _) & _). apply (ends_peval p); [cbn [snd]; rewrite (AlgPsoGenFacts.only_prob _ _ _ O); exact EP|exact EV|exact Lc|auto|]. intros f Ef. apply ends_ret. cbn [fst snd]. split; [|auto]. replace (1 + k) with (k + 1) by lia. eapply AlgPsoGenFacts.only_trans; [exact O|].
      split; cbn [snd]; [|eexists; reflexivity]. change 1%Z with (Z.of_nat 1). apply AlgPsoGenFacts.evals_batch.
    + apply AlgPsoGenFacts.only_0.
    + intros cs s1 (O & F). rewrite seq_length, Nat.add_0_r in O. apply ends_ret. cbn [fst snd]. apply AlgPsoFacts2.f2_seq in F. destruct F as (L & F). split; [exact O|]. split; [now rewrite map_length|].
      assert (MC : forall c, In c cs -> moved (fst c) /\ evaluated p (snd (fst c)) (snd c)) by (intros c Hc; apply In_nth_error in Hc; destruct Hc as (i & Hi); exact (F i c Hi)).
      clear - MC. induction cs as [|c cs IH]; cbn [map]; constructor; [apply MC; now left|]. apply IH. intros c0 Hc. apply MC. now right.
Qed.
(** Putting the new points in *)
Lemma insert_ok X F (s : G * pop P) : valid_pop (snd s) -> po_prob (snd s) = p -> length (po_id (snd s)) = n -> length X = n -> length F = n -> (forall x, In x X -> length x = get_nx p) -> (forall f, In f F -> length f = get_nf p) ->
  ends_w True (rfold (fun (_ : unit) i => rbind (rlift (vget X i)) (fun x => rbind (rlift (vget F i)) (fun f => pset i x f))) tt (seq 0 n)) s
    (fun _ s' => valid_pop (snd s') /\ po_prob (snd s') = p /\ po_id (snd s') = po_id (snd s) /\ po_fevals (snd s') = po_fevals (snd s) /\ po_x (snd s') = X /\ po_f (snd s') = F) (fun _ => False).
Proof.
  intros V EP EN LX LF HX HF. pose proof V as (_ & (S1 & S2 & _) & _).
  eapply ends_weak; [apply (ends_seq _ (fun i (_ : unit) s' => valid_pop (snd s') /\ po_prob (snd s') = p /\ po_id (snd s') = po_id (snd s) /\ po_fevals (snd s') = po_fevals (snd s) /\
      po_x (snd s') = firstn i X ++ skipn i (po_x (snd s)) /\ po_f (snd s') = firstn i F ++ skipn i (po_f (snd s))) (fun _ => False) n 0)| |auto].
  - cbn [firstn skipn app]. auto 10.
  - intros i _ s1 Hi (V1 & P1 & I1 & E1 & X1 & F1). destruct (vget_in_range X i ltac:(lia)) as (x & Ex & Nx). apply ends_bind. eapply ends_lift_ok; [exact Ex|]. destruct (vget_in_range F i ltac:(lia)) as (f & Ef & Nf). apply ends_bind. eapply ends_lift_ok; [exact Ef|].
    apply ends_pset; [exact V1|rewrite I1; lia|rewrite P1; apply HX; eapply nth_error_In; eauto|rewrite P1; apply HF; eapply nth_error_In; eauto|]. intros c _ V2. cbn [snd]. split; [exact V2|]. unfold setp. cbn. split; [exact P1|]. split; [exact I1|]. split; [exact E1|].
    rewrite X1, F1, Nat.add_1_r. split; apply upd_part; auto; lia.
  - cbn [plus]. intros _ s' (A & B & C & D & X1 & F1). rewrite (firstn_all2 X), (skipn_all2 (po_x (snd s))), app_nil_r in X1 by lia. rewrite (firstn_all2 F), (skipn_all2 (po_f (snd s))), app_nil_r in F1 by lia. auto 10.
Qed.

Definition mem_ok (m : nspso_mem) : Prop := length (nm_f m) = n /\ length (nm_x m) = n /\ Forall point (nm_x m) /\ (forall f, In f (nm_f m) -> length f = get_nf p) /\ speeds (nm_v m).
Definition state (s : G * pop P) : Prop := valid_pop (snd s) /\ po_prob (snd s) = p /\ length (po_id (snd s)) = n /\ Forall point (po_x (snd s)).
Definition best (m : nspso_mem) : list (list dbl) * list (list dbl) := (nm_x m, nm_f m).
Lemma generation_ok m k s : mem_ok m -> state s -> ends_w True (np_generation srt r pw fuel bfe a m k) s (fun m' s' => mem_ok m' /\ state s' /\ np_step p boxc (np_div a) (best m) (snd s) (best m') (snd s')) (fitness_throws p).
Proof.
  intros (M1 & M2 & M3 & M4 & M5) (V & EP & EN & FX). pose proof V as (_ & (S1 & S2 & S3 & S4 & _) & _). rewrite EP in S3, S4. pose proof NP as (_ & NC & NF). assert (NO : p_nobj p = get_nf p) by (unfold get_nf, get_nc in *; lia).
  unfold np_generation. apply ends_bind, ends_getp. cbv zeta. rewrite EP, EN, NO. destruct (leaders_ok srt SC pw (np_div a) (po_f (snd s)) (po_x (snd s)) (get_nf p) (get_nx p)) as (bnd & Eb & _ & LB & HB & _); [exact S4|exact NF|lia|lia|exact S3|].
  assert (LF0 : length (po_f (snd s)) = n) by lia. rewrite LF0 in *. apply ends_bind. eapply ends_lift_ok; [exact Eb|]. apply ends_bind. eapply ends_weak; [apply (moves_ok bnd (nm_x m) (po_x (snd s)) (nm_v m) s); auto; lia| |auto].
  intros [cs fs] s1 ((EV1 & c & EC) & LC & FC). cbn [fst snd] in *. pose proof (Forall2_len _ _ _ FC) as LFC.
  assert (HC : forall c, In c cs -> moved c) by (intros c0 Hc; apply In_nth_error in Hc; destruct Hc as (i & Hi); destruct (nth_ex fs i) as (f & Nf); [rewrite <- LFC; apply nth_error_Some; congruence|]; exact (proj1 (Forall2_at _ _ _ FC i c0 f Hi Nf))).
  assert (HFS : forall f, In f fs -> length f = get_nf p) by (intros f Hf; apply In_nth_error in Hf; destruct Hf as (i & Hi); destruct (nth_ex cs i) as (c0 & Nc); [rewrite LFC; apply nth_error_Some; congruence|]; destruct (Forall2_at _ _ _ FC i c0 f Nc Hi) as (_ & _ & K & _); exact K).
  apply ends_bind. eapply ends_lift_ok; [apply take_ok; lia|]. apply ends_bind. eapply ends_lift_ok; [apply take_ok; lia|]. rewrite (firstn_all2 (nm_f m)), (firstn_all2 (nm_x m)) by lia.
  assert (UC : uniform (fs ++ nm_f m) (get_nf p)) by (intros f Hf; apply in_app_or in Hf; destruct Hf; auto).
  destruct (select_ok srt SC (np_div a) n (fs ++ nm_f m) (get_nf p)) as (sel & Es & ND & LS & HS & DS); [exact UC|exact NF|rewrite app_length; lia|rewrite app_length; lia|].
  apply ends_bind. eapply ends_lift_ok; [exact Es|]. assert (PX : Forall point (map snd cs ++ nm_x m)) by (apply Forall_app; split; [apply Forall_forall; intros x Hx; apply in_map_iff in Hx; destruct Hx as (c0 & <- & Hc); apply (HC c0 Hc)|exact M3]).
  destruct (mmap_vget (map snd cs ++ nm_x m) sel) as (bx' & Ebx & Fbx); [intros i Hi; specialize (HS i Hi); rewrite app_length, ?map_length in *; lia|]. destruct (mmap_vget (fs ++ nm_f m) sel) as (bf' & Ebf & Fbf); [exact HS|].
  apply ends_bind. eapply ends_lift_ok; [exact Ebx|]. apply ends_bind. eapply ends_lift_ok; [exact Ebf|]. apply ends_bind.
  eapply ends_weak; [apply (insert_ok (map snd cs) fs s1)| |intros e []].
  - rewrite EC. exact V.
  - rewrite EC. exact EP.
  - rewrite EC. exact EN.
  - now rewrite map_length.
  - lia.
  - intros x Hx. apply in_map_iff in Hx. destruct Hx as (c0 & <- & Hc). exact (proj1 (proj1 (proj2 (HC c0 Hc)))).
  - exact HFS.
  - intros _ s2 (V2 & P2 & I2 & E2 & X2 & F2). apply ends_ret. assert (EI : po_id (snd s1) = po_id (snd s)) by (rewrite EC; reflexivity). rewrite EI in I2.
    assert (SUB : forall A (l : list A) idx xs, Forall2 (fun i x => nth_error l i = Some x) idx xs -> forall x, In x xs -> In x l) by (intros A l idx xs F x Hx; apply In_nth_error in Hx; destruct Hx as (i & Hi); destruct (nth_ex idx i) as (q & Nq); [rewrite (Forall2_len _ _ _ F); apply nth_error_Some; congruence|]; eapply nth_error_In; exact (Forall2_at _ _ _ F i q x Nq Hi)).
    split; [|split].
    + unfold mem_ok. cbn [nm_f nm_x nm_v]. split; [rewrite <- (Forall2_len _ _ _ Fbf); exact LS|]. split; [rewrite <- (Forall2_len _ _ _ Fbx); exact LS|]. split; [apply Forall_forall; intros x Hx; rewrite Forall_forall in PX; apply PX; eapply SUB; eauto|]. split; [intros f Hf; apply UC; eapply SUB; eauto|].
      split; [now rewrite map_length|]. intros v Hv. apply in_map_iff in Hv. destruct Hv as (c0 & <- & Hc). exact (proj1 (HC c0 Hc)).
    + split; [exact V2|]. split; [exact P2|]. split; [rewrite I2; exact EN|]. rewrite X2. apply Forall_app in PX. exact (proj1 PX).
    + unfold np_step, best. cbn [nm_x nm_f fst snd]. rewrite X2, F2, EN. split; [exact P2|]. split; [exact I2|]. split; [exact V2|]. split; [unfold evals in *; rewrite E2; exact EV1|].
      split; [clear - FC; induction FC as [|c0 f cs fs (A & B) F IH]; cbn [map]; constructor; [split; [exact B|exact (proj2 (proj2 A))]|exact IH]|]. exists sel. split; [exact ND|]. split; [exact LS|]. split; [exact Fbx|]. split; [exact Fbf|exact DS].
Qed.
Lemma speeds_ok V0 : (np_memory a = true -> length V0 = n -> forall v, In v V0 -> dim <= length v /\ Forall GV v) -> always (np_speeds r a n p V0) speeds (np_fails a p).
Proof.
  intros H0. unfold np_speeds, speeds. destruct (Nat.eqb_spec (length V0) n) as [EL|NL]; [destruct (np_memory a) eqn:EM|]; cbn [negb orb].
  { apply always_ret. split; [exact EL|]. intros v Hv. now apply H0. }
  all: eapply always_weak; [apply (always_map _ (fun (_ : nat) V => dim <= length V /\ Forall GV V) (np_fails a p))| |auto].
  2, 4: intros V F; apply AlgPsoFacts2.f2_seq in F; destruct F as [L F]; split; [exact L|]; intros v Hv; apply In_nth_error in Hv; destruct Hv as (i & Hi); now apply (F i).
  all: intros i _; destruct (prob_obj_lens p PO) as [Ll Lu]; (eapply always_weak; [apply (always_map _ (fun (_ : nat) v => GV v) (np_fails a p))| |auto]).
  2, 4: intros V F; apply AlgPsoFacts2.f2_seq in F; destruct F as [L F]; fold dim in L; split; [lia|]; apply Forall_forall; intros v Hv; apply In_nth_error in Hv; destruct Hv as (j & Hj); now apply (F j).
  all: intros j Hj; apply in_seq in Hj; destruct (vget_in_range (p_lb p) j ltac:(lia)) as (l & _ & Nl); destruct (vget_in_range (p_ub p) j ltac:(lia)) as (u & _ & Nu);
    apply (always_bind _ _ (fun w => w = l)); [apply (always_vget _ _ l); [exact Nl|reflexivity]|]; intros ? ->; apply (always_bind _ _ (fun w => w = u)); [apply (always_vget _ _ u); [exact Nu|reflexivity]|]; intros ? ->;
    (eapply always_weak; [apply (urr_any r RC)|intros v Hv; exact (Hspeed j l u v Nl Nu Hv)|]); intros e [-> Hne]; right; (split; [reflexivity|]); exists j, l, u; (split; [exact Nl|]); (split; [exact Nu|]); cbv zeta; intros OK; apply Hne; (split; [now apply (Hwide j l u)|exact OK]).
Qed.
Lemma evolve_ok m s : state s -> np_fits a p n m -> (np_memory a = true -> length (nm_f m) = n -> Forall (Forall Good) (nm_x m)) -> (np_memory a = true -> length (nm_v m) = n -> forall v, In v (nm_v m) -> Forall GV v) -> 0 < np_gen a ->
  ends_w True (np_evolve srt r pw fuel bfe a m) s (fun m' s' => exists b, np_first a m (snd s) b /\ np_steps p boxc (np_div a) (np_gen a) b (snd s) (nm_x m', nm_f m') (snd s') /\ mem_ok m') (np_fails a p).
Proof.
  intros ST FI HX HV HG. pose proof ST as (V & EP & EN & FX). pose proof NP as (SS & NC & NF). pose proof V as (_ & (S1 & S2 & S3 & S4 & _) & _). rewrite EP in S3, S4.
  unfold np_evolve. apply ends_bind, ends_getp. cbv zeta. rewrite EP, EN, SS, NC. cbn [Nat.eqb negb]. destruct (Nat.ltb_spec (get_nf p) 2); [lia|]. destruct (Nat.leb_spec n 1); [lia|]. destruct (Nat.eqb_spec (np_gen a) 0); [lia|].
  apply ends_bind. eapply ends_eng; [apply speeds_ok|].
  { intros E1 E2 v Hv. split; [exact (proj2 (FI E1) E2 v Hv)|now apply HV]. }
  intros V1 g SV. cbv beta. set (keep := (length (nm_f m) =? n) && np_memory a).
  set (m1 := mknspmem (if keep then nm_f m else po_f (snd s)) (if keep then nm_x m else po_x (snd s)) V1).
  assert (K : np_first a m (snd s) (best m1) /\ mem_ok m1).
  { unfold np_first, best, m1, mem_ok. cbn [nm_x nm_f nm_v]. rewrite EN. unfold keep. destruct (Nat.eqb_spec (length (nm_f m)) n) as [E1|N1]; [destruct (np_memory a) eqn:EM|]; cbn [andb].
    - destruct (FI EM) as (A & _). destruct (A E1) as (A1 & A2 & A3). split; [split; [reflexivity|intros Q; exfalso; apply Q; auto]|]. split; [exact E1|]. split; [exact A1|]. split; [|split; [exact A3|exact SV]].
      pose proof (HX eq_refl E1) as HXX. rewrite Forall_forall in HXX |- *. intros x Hx. split; [now apply A2|now apply HXX].
    - split; [split; [intros (Q & _); discriminate|reflexivity]|]. split; [lia|]. split; [lia|]. split; [exact FX|]. split; [exact S4|exact SV].
    - split; [split; [intros (_ & Q); congruence|reflexivity]|]. split; [lia|]. split; [lia|]. split; [exact FX|]. split; [exact S4|exact SV]. }
  destruct K as (NFI & MO). eapply ends_weak; [apply (ends_seq _ (fun i m' s' => mem_ok m' /\ state s' /\ np_steps p boxc (np_div a) (i - 1) (best m1) (snd s) (best m') (snd s')) (np_fails a p) (np_gen a) 1)| |auto].
  - cbn [Nat.sub]. split; [exact MO|]. split; [exact ST|]. apply np_none.
  - intros i m' s' Hi (A & B & C). eapply ends_weak; [apply (generation_ok m' i s' A B)| |intros e He; left; exact He]. intros m2 s2 (A2 & B2 & C2). split; [exact A2|]. split; [exact B2|]. replace (i + 1 - 1) with (S (i - 1)) by lia. eapply np_one; eauto.
  - intros m' s' (A & B & C). replace (1 + np_gen a - 1) with (np_gen a) in C by lia. exists (best m1). auto.
Qed.
End E.
