From Coq Require Import List Bool Arith ZArith Lia.
From Verif Require Import Dbl DblFacts Outcome BaseFacts StdSort Problem SpecProblem ProblemFacts Rng Generic SpecGeneric GenericFacts SpecGenetic RmFacts GeneticOps Population SpecPopulation PopulationFacts PopulationFacts3 Algo SpecAlgo AlgoFacts AlgoFacts2
  AlgSaFacts AlgGwoFacts AlgPso SpecPso AlgPsoFacts.
Import ListNotations.

Lemma mmap_each {A B} (f : A -> outcome B) (Q : A -> B -> Prop) l : (forall a, In a l -> exists b, f a = Ok b /\ Q a b) -> exists bs, mmap f l = Ok bs /\ Forall2 Q l bs.
Proof.
  induction l as [|a l IH]; intros H; [exists []; split; [reflexivity|constructor]|]. destruct (H a (or_introl eq_refl)) as (b & E & q). destruct IH as (bs & E2 & F); [intros; apply H; now right|].
  exists (b :: bs). cbn [mmap]. rewrite E. cbn [bind]. rewrite E2. cbn [bind]. split; [reflexivity|now constructor].
Qed.
Lemma f2_len {A B} (Q : A -> B -> Prop) l bs : Forall2 Q l bs -> length bs = length l.
Proof. induction 1; cbn; auto. Qed.
Lemma f2_seq {B} (Q : nat -> B -> Prop) n bs : Forall2 Q (seq 0 n) bs -> length bs = n /\ forall d b, nth_error bs d = Some b -> Q d b.
Proof.
  assert (K : forall n a bs, Forall2 Q (seq a n) bs -> forall d b, nth_error bs d = Some b -> Q (a + d) b).
  { clear. induction n as [|n IH]; intros a bs H; inversion H as [|? c ? bs' Hc Hr]; subst; intros [|d] b E; try discriminate; [cbn in E; injection E as <-; now rewrite Nat.add_0_r|]. rewrite <- Nat.add_succ_comm. now apply (IH (S a) bs'). }
  intros H. split; [rewrite (f2_len _ _ _ H); apply seq_length|]. intros d b E. apply (K n 0 bs H d b E).
Qed.
Lemma vec_le1 a b : vec_le [a] [b] = negb (dlt b a).
Proof. unfold vec_le. now rewrite vec_lt1. Qed.

Section E.
Context {G P : Type} (srt : sorter) (r : rng G) (RC : rng_contract r) (a : pso_params) (p : problem) (n most : nat).
Context (PO : prob_obj p) (PS : plain_single p) (FD : fitness_defined p) (Hn : 0 < n).
Context (BoxC : dbl -> dbl -> dbl -> Prop) (Good GV Res Sum : dbl -> Prop).
Let dim := get_nx p.
Definition boxc (x : list dbl) : Prop := length x = length (p_lb p) /\ length x = length (p_ub p) /\
  forall i l u v, nth_error (p_lb p) i = Some l -> nth_error (p_ub p) i = Some u -> nth_error x i = Some v -> BoxC l u v.
Context (Hgood0 : Good dzero) (Hsum0 : Sum dzero).
Context (Hpull : forall v l x b r1 r2, ps_variant a <> 6 -> GV v -> Good l -> Good x -> Good b -> within dzero done r1 -> within dzero done r2 -> Res (pso_pull a v l x b r1 r2)).
Context (Hsum : forall s u l x, Sum s -> within dzero done u -> Good l -> Good x -> Sum (dadd s (dmul (dmul u (dadd (ps_eta1 a) (ps_eta2 a))) (dsub l x)))).
Context (Hfips : forall v s k, ps_variant a = 6 -> GV v -> Sum s -> 1 <= k <= most -> Res (dmul (ps_omega a) (dadd v (ddiv s (d_of_Z (Z.of_nat k)))))).
Context (Hmove : forall i l u v x, nth_error (p_lb p) i = Some l -> nth_error (p_ub p) i = Some u -> Good x -> Res v ->
  GV (fst (pso_move1 a l u v x)) /\ Good (snd (pso_move1 a l u v x)) /\ BoxC l u (snd (pso_move1 a l u v x))).
Context (Hspeed : forall i l u v, nth_error (p_lb p) i = Some l -> nth_error (p_ub p) i = Some u -> within (dneg (pso_width a l u)) (pso_width a l u) v -> GV v).
Context (Hwide : forall i l u, nth_error (p_lb p) i = Some l -> nth_error (p_ub p) i = Some u -> ok_real (dneg (pso_width a l u)) (pso_width a l u) -> dle (dneg (pso_width a l u)) (pso_width a l u) = true).

Definition point (x : list dbl) : Prop := length x = dim /\ Forall Good x.
Lemma point_get x d : point x -> d < dim -> exists v, vget x d = Ok v /\ nth_error x d = Some v /\ Good v.
Proof. intros (L & F) H. destruct (vget_in_range x d ltac:(lia)) as (v & E & N). exists v. split; [exact E|]. split; [exact N|]. rewrite Forall_forall in F. apply F. eapply nth_error_In; eauto. Qed.

(** The velocity *)
Lemma velocity_ok nb lbX V X lx bn E : dim <= length V -> Forall GV V -> point X -> point lx -> point bn -> Forall point lbX -> length lbX = n ->
  (ps_variant a = 6 -> nb <> [] /\ length nb <= most /\ forall j, In j nb -> (0 <= j < Z.of_nat n)%Z) ->
  always (pso_velocity r a nb lbX V X lx bn dim) (fun V1 => length V1 = dim /\ Forall Res V1) E.
Proof.
  intros LV FV PX PL PB FL LL HNB.
  assert (GVg : forall d, d < dim -> exists v, nth_error V d = Some v /\ GV v). { intros d Hd. destruct (vget_in_range V d ltac:(lia)) as (v & _ & N). exists v. split; [exact N|]. rewrite Forall_forall in FV. apply FV. eapply nth_error_In; eauto. }
  assert (FIN : forall (bs : list dbl), Forall2 (fun (_ : nat) v => Res v) (seq 0 dim) bs -> length bs = dim /\ Forall Res bs).
  { intros bs H. apply f2_seq in H. destruct H as [L H]. split; [exact L|]. apply Forall_forall. intros v Hv. apply In_nth_error in Hv. destruct Hv as (i & Hi). now apply (H i). }
  unfold pso_velocity. cbv zeta. destruct (Nat.eqb_spec (ps_variant a) 6) as [E6|N6].
  - destruct (HNB E6) as (NE & LM & HR). eapply always_weak; [apply (always_map _ (fun _ v => Res v) E)|exact FIN|auto]. intros d Hd. apply in_seq in Hd.
    destruct (GVg d ltac:(lia)) as (v & Nv & Gv). destruct (point_get X d PX ltac:(lia)) as (x & _ & Nx & Gx).
    apply (always_bind _ _ (fun w => w = v)); [apply (always_vget _ _ v); [exact Nv|reflexivity]|]. intros ? ->. apply (always_bind _ _ (fun w => w = x)); [apply (always_vget _ _ x); [exact Nx|reflexivity]|]. intros ? ->.
    unfold pso_fips. apply (always_bind _ _ Sum).
    + apply always_fold; [|exact Hsum0]. intros s k Hk Hs. eapply always_bind; [apply (draw01_in r RC)|]. intros u Hu.
      destruct (vgetz_ok lbX k) as (l & El & Nl); [rewrite LL; now apply HR|]. rewrite El. apply (always_bind _ _ (fun w => w = l)); [apply always_lift; reflexivity|]. intros ? ->.
      assert (Pl : point l) by (rewrite Forall_forall in FL; apply FL; eapply nth_error_In; eauto). destruct (point_get l d Pl ltac:(lia)) as (ld & _ & Nld & Gld).
      apply (always_bind _ _ (fun w => w = ld)); [apply (always_vget _ _ ld); [exact Nld|reflexivity]|]. intros ? ->. apply always_ret. now apply Hsum.
    + intros s Hs. apply always_ret. apply Hfips; auto. split; [|exact LM]. destruct nb; [congruence|cbn; lia].
  - assert (DR : always (rbind (draw01 r) (fun r1 => if Nat.eqb (ps_variant a) 2 || Nat.eqb (ps_variant a) 4 then rret (r1, r1) else rbind (draw01 r) (fun r2 => rret (r1, r2)))) (fun rr => within dzero done (fst rr) /\ within dzero done (snd rr)) E).
    { eapply always_bind; [apply (draw01_in r RC)|]. intros r1 H1. destruct (_ || _); [apply always_ret; auto|]. eapply always_bind; [apply (draw01_in r RC)|]. intros r2 H2. apply always_ret. auto. }
    assert (PU : forall d rr, d < dim -> within dzero done (fst rr) /\ within dzero done (snd rr) -> always (rbind (rlift (vget V d)) (fun v => rbind (rlift (vget lx d)) (fun l => rbind (rlift (vget X d)) (fun x => rbind (rlift (vget bn d)) (fun b =>
              rret (G := G) (pso_pull a v l x b (fst rr) (snd rr))))))) Res E).
    { intros d rr Hd [H1 H2]. destruct (GVg d Hd) as (v & Nv & Gv). destruct (point_get X d PX Hd) as (x & _ & Nx & Gx). destruct (point_get lx d PL Hd) as (l & _ & Nl & Gl). destruct (point_get bn d PB Hd) as (b & _ & Nb & Gb).
      apply (always_bind _ _ (fun w => w = v)); [apply (always_vget _ _ v); [exact Nv|reflexivity]|]. intros ? ->. apply (always_bind _ _ (fun w => w = l)); [apply (always_vget _ _ l); [exact Nl|reflexivity]|]. intros ? ->.
      apply (always_bind _ _ (fun w => w = x)); [apply (always_vget _ _ x); [exact Nx|reflexivity]|]. intros ? ->. apply (always_bind _ _ (fun w => w = b)); [apply (always_vget _ _ b); [exact Nb|reflexivity]|]. intros ? ->.
      apply always_ret. now apply Hpull. }
    destruct (Nat.eqb (ps_variant a) 3 || Nat.eqb (ps_variant a) 4).
    + eapply always_bind; [exact DR|]. intros rr Hrr. eapply always_weak; [apply (always_map _ (fun _ v => Res v) E)|exact FIN|auto]. intros d Hd. apply in_seq in Hd. apply PU; [lia|exact Hrr].
    + eapply always_weak; [apply (always_map _ (fun _ v => Res v) E)|exact FIN|auto]. intros d Hd. apply in_seq in Hd. eapply always_bind; [exact DR|]. intros rr Hrr. apply PU; [lia|exact Hrr].
Qed.
(** The move *)
Lemma moved_ok V1 X : length V1 = dim -> Forall Res V1 -> point X ->
  exists mv, mmap (fun d => bind (vget (p_lb p) d) (fun l => bind (vget (p_ub p) d) (fun u => bind (vget V1 d) (fun v => bind (vget X d) (fun x => Ok (pso_move1 a l u v x)))))) (seq 0 dim) = Ok mv /\
    length mv = dim /\ Forall GV (map fst mv) /\ point (map snd mv) /\ boxc (map snd mv).
Proof.
  intros LV FV PX. destruct (prob_obj_lens p PO) as [Ll Lu].
  destruct (mmap_each (fun d => bind (vget (p_lb p) d) (fun l => bind (vget (p_ub p) d) (fun u => bind (vget V1 d) (fun v => bind (vget X d) (fun x => Ok (pso_move1 a l u v x))))))
    (fun d q => GV (fst q) /\ Good (snd q) /\ exists l u, nth_error (p_lb p) d = Some l /\ nth_error (p_ub p) d = Some u /\ BoxC l u (snd q)) (seq 0 dim)) as (mv & E & F).
  { intros d Hd. apply in_seq in Hd. unfold dim in *. destruct (vget_in_range (p_lb p) d ltac:(lia)) as (l & -> & Nl). destruct (vget_in_range (p_ub p) d ltac:(lia)) as (u & -> & Nu). destruct (vget_in_range V1 d ltac:(lia)) as (v & -> & Nv).
    destruct (point_get X d PX ltac:(unfold dim; lia)) as (x & -> & Nx & Gx). cbn [bind]. eexists. split; [reflexivity|].
    destruct (Hmove d l u v x Nl Nu Gx) as (A & B & C); [rewrite Forall_forall in FV; apply FV; eapply nth_error_In; eauto|]. split; [exact A|]. split; [exact B|]. exists l, u. auto. }
  exists mv. split; [exact E|]. apply f2_seq in F. destruct F as [L F]. split; [exact L|].
  assert (FA : forall q, In q mv -> GV (fst q) /\ Good (snd q)) by (intros q Hq; apply In_nth_error in Hq; destruct Hq as (i & Hi); destruct (F i q Hi) as (A & B & _); auto).
  split; [apply Forall_forall; intros v Hv; apply in_map_iff in Hv; destruct Hv as (q & <- & Hq); now apply FA|]. split; [split; [now rewrite map_length|apply Forall_forall; intros v Hv; apply in_map_iff in Hv; destruct Hv as (q & <- & Hq); now apply FA]|].
  unfold dim in *. split; [rewrite map_length; lia|]. split; [rewrite map_length; lia|]. intros i l u v A B C. rewrite nth_error_map in C. destruct (nth_error mv i) as [q|] eqn:Q; [|discriminate]. injection C as <-.
  destruct (F i q Q) as (_ & _ & l' & u' & A' & B' & H). congruence.
Qed.

(** The swarm while it moves: the population s0 is left alone, the memory is [remembered] *)
Definition uses_nb : Prop := ps_ntype a <> 1 \/ ps_variant a = 6.
Definition mem (s0 : pop P) (lbX lbf : list (list dbl)) : Prop := length lbX = n /\ length lbf = n /\ Forall point lbX /\ Forall (fun f => length f = 1) lbf /\
  forall i x f x' f', nth_error (po_x s0) i = Some x -> nth_error (po_f s0) i = Some f -> nth_error lbX i = Some x' -> nth_error lbf i = Some f' -> (x' = x /\ f' = f) \/ remembered p boxc x f x' f'.
Definition inv (s0 : pop P) (k : nat) (sw : swarm) (s : G * pop P) : Prop := (exists c, snd s = with_fevals s0 c) /\ evals k s0 (snd s) /\
  length (sw_V sw) = n /\ (forall v, In v (sw_V sw) -> dim <= length v /\ Forall GV v) /\ length (sw_X sw) = n /\ Forall point (sw_X sw) /\
  mem s0 (sw_lbX sw) (sw_lbf sw) /\ point (sw_bn sw) /\ length (sw_nb sw) = n /\ (uses_nb -> nb_ok n most (sw_nb sw)).

Lemma particle_ok s0 k sw i s : valid_pop s0 -> po_prob s0 = p -> length (po_id s0) = n -> i < n -> inv s0 k sw s ->
  ends (pso_particle r a sw i) s (inv s0 (k + 1)) (pso_fails a p).
Proof.
  intros V0 EP EN Hi ((c & Es) & EV & LV & FV & LX & FX & MM & BN & LN & NB). pose proof MM as (L1 & L2 & FL & FF & HM). pose proof PS as (NC & NF & _). pose proof V0 as (_ & (S1 & S2 & _) & _).
  unfold pso_particle. apply ends_bind, ends_getp. cbv zeta. assert (EP' : po_prob (snd s) = p) by (rewrite Es; exact EP). rewrite EP'.
  destruct (vget_in_range (sw_V sw) i ltac:(lia)) as (V & E1 & NV). apply ends_bind. eapply ends_lift_ok; [exact E1|]. destruct (vget_in_range (sw_X sw) i ltac:(lia)) as (X & E2 & NX). apply ends_bind. eapply ends_lift_ok; [exact E2|].
  destruct (vget_in_range (sw_lbX sw) i ltac:(lia)) as (lx & E3 & Nlx). apply ends_bind. eapply ends_lift_ok; [exact E3|]. destruct (vget_in_range (sw_lbf sw) i ltac:(lia)) as (lf & E4 & Nlf). apply ends_bind. eapply ends_lift_ok; [exact E4|].
  destruct (vget_in_range (sw_nb sw) i ltac:(lia)) as (nb & E5 & Nnb). apply ends_bind. eapply ends_lift_ok; [exact E5|].
  rewrite Forall_forall in FX, FL, FF. pose proof (nth_error_In _ _ NX) as IX. pose proof (nth_error_In _ _ Nlx) as ILX. pose proof (nth_error_In _ _ Nlf) as ILF. pose proof (nth_error_In _ _ Nnb) as INB. pose proof (nth_error_In _ _ NV) as IV.
  assert (NBI : uses_nb -> nb <> [] /\ length nb <= most /\ forall j, In j nb -> (0 <= j < Z.of_nat n)%Z) by (intros U; destruct (NB U) as [_ H]; now apply H).
  apply ends_bind. apply (ends_weak _ _ (fun bn s' => s' = s /\ point bn) _ (pso_fails a p)); [| |auto].
  { destruct (negb (Nat.eqb (ps_ntype a) 1) && negb (Nat.eqb (ps_variant a) 6)) eqn:C; [|apply ends_ret; auto]. apply andb_true_iff in C. destruct C as [C1 _]. apply negb_true_iff, Nat.eqb_neq in C1.
    destruct (NBI (or_introl C1)) as (NE & _ & HR). destruct (best_neighbor_ok nb (sw_lbX sw) (sw_lbf sw) n 0 NE L1 L2 FF HR) as (kk & x & f & -> & _ & Nx & _). eapply ends_lift_ok; [reflexivity|]. split; [reflexivity|]. apply FL. eapply nth_error_In; eauto. }
  intros bn ? [-> PB]. apply ends_bind. destruct (FV V IV) as [LVi FVi]. eapply ends_eng; [apply (velocity_ok nb (sw_lbX sw) V X lx bn (pso_fails a p) LVi FVi); auto; [now apply Forall_forall|intros E6; apply NBI; now right]|].
  intros V1 g (LV1 & FV1). cbv beta. destruct (moved_ok V1 X LV1 FV1 (FX X IX)) as (mv & Em & Lm & FG & PM & BM). apply ends_bind. eapply ends_lift_ok; [exact Em|]. cbv zeta.
  apply ends_bind. apply (ends_peval p); [exact EP'|exact FD|exact (proj1 PM)|intros e He; now left|]. intros f EVf. cbn [fst snd].
  assert (VV : forall v, In v (upd (sw_V sw) i (map fst mv ++ skipn (get_nx p) V)) -> dim <= length v /\ Forall GV v).
  { intros v Hv. apply upd_in in Hv. destruct Hv as [->|Hv]; [|now apply FV]. split; [rewrite app_length, map_length; lia|]. apply Forall_app. split; [exact FG|]. rewrite Forall_forall in FVi |- *. intros w Hw. apply FVi.
    rewrite <- (firstn_skipn (get_nx p) V). apply in_app_iff. now right. }
  assert (XX : Forall point (upd (sw_X sw) i (map snd mv))) by (apply Forall_forall; intros x Hx; apply upd_in in Hx; destruct Hx as [->|Hx]; auto).
  assert (CC : exists c0, with_fevals (snd s) (wrap64 (po_fevals (snd s) + 1)) = with_fevals s0 c0) by (rewrite Es; eexists; reflexivity).
  pose proof (evals_S k s0 (snd s) EV) as EV'. assert (Lf : length f = 1) by (destruct EVf as (_ & Lf & _); lia). pose proof (FF lf ILF) as Llf.
  destruct (vec_le f lf) eqn:LE; apply ends_ret; unfold inv; cbn [sw_V sw_X sw_lbX sw_lbf sw_bn sw_bf sw_nb snd]; rewrite ?upd_len; (split; [exact CC|]); (split; [exact EV'|]); (split; [exact LV|]); (split; [exact VV|]); (split; [exact LX|]); (split; [exact XX|]).
  - split.
    { split; [now rewrite upd_len|]. split; [now rewrite upd_len|]. split; [apply Forall_forall; intros x Hx; apply upd_in in Hx; destruct Hx as [->|Hx]; auto|]. split; [apply Forall_forall; intros x Hx; apply upd_in in Hx; destruct Hx as [->|Hx]; auto|].
      intros j x0 f0 x' f' A B C D. destruct (Nat.eq_dec j i) as [->|N]; [|rewrite upd_other in C, D by exact N; now apply (HM j)]. rewrite upd_same in C, D by lia. injection C as <-. injection D as <-. right.
      split; [exact EVf|]. split; [exact BM|]. intros N0 NN. assert (NEW : obj f <> NaN) by (apply (NN (map snd mv)); [exact EVf|exact BM]).
      assert (OLD : obj lf <> NaN /\ dle (obj lf) (obj f0) = true).
      { destruct (HM i x0 f0 lx lf A B Nlx Nlf) as [(_ & ->)|(Elf & Blf & Dlf)]; [split; [exact N0|now apply dle_refl]|]. split; [now apply (NN lx)|now apply Dlf]. }
      destruct OLD as [N1 D1]. apply (dle_trans _ (obj lf)); [|exact D1]. destruct f as [|v [|]]; try discriminate Lf. destruct lf as [|w [|]]; try discriminate Llf. rewrite vec_le1 in LE. apply negb_true_iff in LE. unfold obj in *. cbn [nth] in *. now apply dlt_false_dle. }
    split; [destruct (_ && _); [exact PM|exact PB]|]. split; [exact LN|exact NB].
  - split; [exact MM|]. split; [exact PB|]. split; [exact LN|exact NB].
Qed.
Context (Hmost4 : ps_ntype a = 4 -> n * ps_nparam a <= most) (Hparam : ps_ntype a = 4 -> 1 <= ps_nparam a).
Lemma generation_ok s0 k sw g s : valid_pop s0 -> po_prob s0 = p -> length (po_id s0) = n -> inv s0 k sw s -> ends (pso_generation r a n sw g) s (inv s0 (k + n)) (pso_fails a p).
Proof.
  intros V0 EP EN I. unfold pso_generation. cbv zeta. apply ends_bind.
  eapply ends_weak; [apply (ends_seq _ (fun i sw s => inv s0 (k + i) sw s) (pso_fails a p) n 0)| |auto].
  - rewrite Nat.add_0_r. exact I.
  - intros i sw' s' Hi I'. rewrite Nat.add_assoc. apply particle_ok; auto; lia.
  - intros sw1 s1 I1. cbn [plus] in I1. destruct (Nat.eqb_spec (ps_ntype a) 4) as [E4|N4]; [|apply ends_ret; exact I1]. destruct (negb (sw_improved sw1)); cbn [andb]; [|apply ends_ret; exact I1].
    apply ends_bind. eapply ends_eng; [apply (adaptive_nb r RC n (ps_nparam a)); [exact Hn|now apply Hparam]|]. intros nb g' (LN & HN). apply ends_ret.
    destruct I1 as (A1 & A2 & A3 & A4 & A5 & A6 & A7 & A8 & _ & _). unfold inv. cbn [sw_V sw_X sw_lbX sw_lbf sw_bn sw_bf sw_nb snd] in *. do 8 (split; [assumption|]). split; [exact LN|]. intros _. split; [exact LN|].
    intros l Hl. destruct (HN l Hl) as (B1 & B2 & B3). specialize (Hmost4 E4). split; [exact B1|]. split; [lia|exact B3].
Qed.
Lemma speeds_ok V0 : (ps_memory a = true -> length V0 = n -> forall v, In v V0 -> dim <= length v /\ Forall GV v) ->
  always (pso_speeds r a n p V0) (fun V => length V = n /\ forall v, In v V -> dim <= length v /\ Forall GV v) (pso_fails a p).
Proof.
  intros H0. unfold pso_speeds. destruct (Nat.eqb_spec (length V0) n) as [EL|NL]; [destruct (ps_memory a) eqn:EM|]; cbn [negb orb].
  { apply always_ret. split; [exact EL|]. intros v Hv. now apply H0. }
  all: eapply always_weak; [apply (always_map _ (fun (_ : nat) V => dim <= length V /\ Forall GV V) (pso_fails a p))| |auto].
  2, 4: intros V F; apply f2_seq in F; destruct F as [L F]; split; [exact L|]; intros v Hv; apply In_nth_error in Hv; destruct Hv as (i & Hi); now apply (F i).
  all: intros i _; destruct (prob_obj_lens p PO) as [Ll Lu]; (eapply always_weak; [apply (always_map _ (fun (_ : nat) v => GV v) (pso_fails a p))| |auto]).
  2, 4: intros V F; apply f2_seq in F; destruct F as [L F]; fold dim in L; split; [lia|]; apply Forall_forall; intros v Hv; apply In_nth_error in Hv; destruct Hv as (j & Hj); now apply (F j).
  all: intros j Hj; apply in_seq in Hj; destruct (vget_in_range (p_lb p) j ltac:(lia)) as (l & _ & Nl); destruct (vget_in_range (p_ub p) j ltac:(lia)) as (u & _ & Nu);
    apply (always_bind _ _ (fun w => w = l)); [apply (always_vget _ _ l); [exact Nl|reflexivity]|]; intros ? ->; apply (always_bind _ _ (fun w => w = u)); [apply (always_vget _ _ u); [exact Nu|reflexivity]|]; intros ? ->;
    (eapply always_weak; [apply (urr_any r RC)|intros v Hv; exact (Hspeed j l u v Nl Nu Hv)|]); intros e [-> Hne]; right; (split; [reflexivity|]); exists j, l, u; (split; [exact Nl|]); (split; [exact Nu|]); cbv zeta; intros OK; apply Hne; (split; [now apply (Hwide j l u)|exact OK]).
Qed.
Context (Hring : ring_fits a n) (Hsize : (Z.of_nat n < 2 ^ 64)%Z) (Hmost : n <= most /\ 4 <= most /\ (ps_ntype a = 2 -> ps_nparam a <= most)) (Htype : 1 <= ps_ntype a <= 4).
Lemma topology_ok (s : G * pop P) : valid_pop (snd s) -> po_prob (snd s) = p -> length (po_id (snd s)) = n -> Forall point (po_x (snd s)) ->
  ends (pso_topology srt r a n) s (fun t s' => snd s' = snd s /\ let '(nb, bn, bf) := t in length nb = n /\ (uses_nb -> nb_ok n most nb) /\ point bn) (pso_fails a p).
Proof.
  intros V EP EN FX. pose proof V as (_ & ST & _). pose proof ST as (S1 & S2 & _). pose proof PS as (NC & NF & _). destruct (prob_obj_facts p PO) as (NOB & _).
  assert (NO : p_nobj p = 1) by (unfold get_nf, get_nc in *; lia).
  destruct (best_idx_lt srt (snd s)) as (b & EB & HB); [now rewrite EP|now rewrite EP|exact ST|intros Q; rewrite Q in EN; cbn in EN; lia|].
  assert (PZ : point (repeat dzero (get_nx p))) by (split; [apply repeat_length|apply Forall_forall; intros v Hv; apply repeat_spec in Hv; subst v; exact Hgood0]).
  unfold pso_topology. apply ends_bind, ends_getp. rewrite EP. destruct (Nat.eqb_spec (ps_ntype a) 1) as [E1|N1].
  { apply ends_bind. eapply ends_lift_ok; [exact EB|]. destruct (vget_in_range (po_x (snd s)) b ltac:(lia)) as (x & Ex & Nx). apply ends_bind. eapply ends_lift_ok; [exact Ex|].
    destruct (vget_in_range (po_f (snd s)) b ltac:(lia)) as (f & Ef & _). apply ends_bind. eapply ends_lift_ok; [exact Ef|]. apply ends_ret. split; [reflexivity|].
    assert (PX : point x) by (rewrite Forall_forall in FX; apply FX; eapply nth_error_In; eauto).
    destruct (Nat.eqb_spec (ps_variant a) 6) as [E6|N6]; (split; [now rewrite repeat_length|]); (split; [|exact PX]); [|intros [Q|Q]; congruence]. intros _. split; [now rewrite repeat_length|].
    intros l Hl. apply repeat_spec in Hl. subst l. rewrite map_length, seq_length. split; [intros Q; apply map_eq_nil in Q; destruct n; [lia|discriminate]|]. split; [lia|]. intros j Hj. apply in_map_iff in Hj. destruct Hj as (q & <- & Hq). apply in_seq in Hq. lia. }
  destruct (Nat.eqb_spec (ps_ntype a) 3) as [E3|N3].
  { destruct (von_nb n Hn) as (nb & -> & LN & HN). apply ends_bind. eapply ends_lift_ok; [reflexivity|]. apply ends_ret. split; [reflexivity|]. split; [exact LN|]. split; [|exact PZ]. intros _. split; [exact LN|]. intros l Hl. destruct (HN l Hl) as (A & B & C). split; [exact A|]. split; [lia|exact C]. }
  destruct (Nat.eqb_spec (ps_ntype a) 4) as [E4|N4].
  { apply ends_bind. eapply ends_eng; [apply (adaptive_nb r RC n (ps_nparam a)); [exact Hn|now apply Hparam]|]. intros nb g' (LN & HN). apply ends_bind. eapply ends_lift_ok; [exact EB|].
    destruct (vget_in_range (po_f (snd s)) b ltac:(lia)) as (f & Ef & _). apply ends_bind. eapply ends_lift_ok; [exact Ef|]. apply ends_ret. split; [reflexivity|]. split; [exact LN|]. split; [|exact PZ]. intros _. split; [exact LN|].
    intros l Hl. destruct (HN l Hl) as (B1 & B2 & B3). specialize (Hmost4 E4). split; [exact B1|]. split; [lia|exact B3]. }
  assert (E2 : ps_ntype a = 2) by lia. specialize (Hring E2). destruct Hmost as (_ & _ & M2). specialize (M2 E2). destruct (lbest_nb n (ps_nparam a) Hring Hsize) as [LN HN].
  apply ends_ret. split; [reflexivity|]. split; [exact LN|]. split; [|exact PZ]. intros _. split; [exact LN|]. intros l Hl. destruct (HN l Hl) as (B1 & B2 & B3). split; [exact B1|]. split; [|exact B3].
  pose proof (Nat.div_mod (ps_nparam a) 2 ltac:(lia)). lia.
Qed.
Lemma evolve_ok (V0 : list (list dbl)) (s : G * pop P) : valid_pop (snd s) -> po_prob (snd s) = p -> length (po_id (snd s)) = n -> (forall x v, In x (po_x (snd s)) -> In v x -> Good v) ->
  (ps_memory a = true -> length V0 = n -> forall v, In v V0 -> dim <= length v /\ Forall GV v) ->
  ends (pso_evolve srt r a V0) s (fun V s' => valid_pop (snd s') /\ replaced (remembered p boxc) (snd s) (snd s') /\ evals (ps_gen a * n) (snd s) (snd s') /\ length V = n /\ forall v, In v V -> dim <= length v /\ Forall GV v) (pso_fails a p).
Proof.
  intros V EP EN GX GV0. pose proof PS as (NC & NF & NS). pose proof V as (_ & ST & _). pose proof ST as (S1 & S2 & SX & SF & _). rewrite EP in SX, SF.
  assert (FX : Forall point (po_x (snd s))) by (apply Forall_forall; intros x Hx; split; [now apply SX|apply Forall_forall; intros v Hv; now apply (GX x)]).
  unfold pso_evolve. apply ends_bind, ends_getp. cbv zeta. rewrite EP, EN, NC, NF, NS. destruct (Nat.eqb_spec n 0) as [Q|_]; [lia|]. cbn [Nat.eqb negb].
  apply ends_bind. eapply ends_eng; [apply (speeds_ok V0 GV0)|]. intros V1 g (LV & FV). cbv beta.
  apply ends_bind. eapply ends_weak; [apply (topology_ok (g, snd s) V EP EN FX)| |auto]. intros [[nb bn] bf] s1 (E1 & LN & HN & PB). cbn [snd] in E1.
  apply ends_bind. eapply ends_weak; [apply (ends_seq _ (fun i sw s' => inv (snd s) ((i - 1) * n) sw s') (pso_fails a p) (ps_gen a) 1)| |auto].
  - cbn [Nat.sub Nat.mul]. split; [exists (po_fevals (snd s)); rewrite E1; destruct (snd s); reflexivity|]. split; [rewrite E1; apply evals_0|]. cbn [sw_V sw_X sw_lbX sw_lbf sw_bn sw_nb]. split; [exact LV|]. split; [exact FV|]. split; [lia|]. split; [exact FX|].
    split; [|split; [exact PB|split; [exact LN|exact HN]]]. split; [lia|]. split; [lia|]. split; [exact FX|]. split; [apply Forall_forall; intros f Hf; rewrite <- NF; now apply SF|]. intros i x f x' f' A B C D. left. split; congruence.
  - intros i sw s' Hi I'. replace ((i + 1 - 1) * n) with ((i - 1) * n + n) by (replace (i + 1 - 1) with (i - 1 + 1) by lia; lia). now apply generation_ok.
  - intros sw s2 I2. replace (1 + ps_gen a - 1) with (ps_gen a) in I2 by lia. destruct I2 as ((c & E2) & EV & LV2 & FV2 & _ & _ & (L1 & L2 & FL & FF & HM) & _).
    apply ends_bind. eapply ends_weak; [apply (ends_fold _ (fun _ s' => valid_pop (snd s') /\ replaced (fun x f x' f' => (x' = x /\ f' = f) \/ remembered p boxc x f x' f') (snd s) (snd s') /\ evals (ps_gen a * n) (snd s) (snd s')) (pso_fails a p))| |auto].
    + rewrite E2 in *. split; [exact V|]. split; [apply replaced_fevals, replaced_refl|exact EV].
    + intros i [] s3 Hi (V3 & R3 & EV3). apply in_seq in Hi. destruct (vget_in_range (sw_lbX sw) i ltac:(lia)) as (x & Ex & Nx). apply ends_bind. eapply ends_lift_ok; [exact Ex|]. destruct (vget_in_range (sw_lbf sw) i ltac:(lia)) as (f & Ef & Nf). apply ends_bind. eapply ends_lift_ok; [exact Ef|].
      pose proof R3 as (RP & RI & _). apply ends_pset; [exact V3|rewrite RI; lia|rewrite RP, EP; rewrite Forall_forall in FL; apply (FL x); eapply nth_error_In; eauto|rewrite RP, EP, NF; rewrite Forall_forall in FF; apply FF; eapply nth_error_In; eauto|].
      intros cc _ V4. split; [exact V4|]. split; [|exact EV3]. apply replaced_set; [exact R3|lia|]. intros x0 f0 A B. now apply (HM i).
    + intros [] s3 (V3 & R3 & EV3). apply ends_ret. split; [exact V3|]. split; [|split; [exact EV3|split; [exact LV2|exact FV2]]].
      destruct R3 as (A & B & C & D & H). do 4 (split; [assumption|]). intros i x f x' f' H1 H2 H3 H4. destruct (H i x f x' f' H1 H2 H3 H4) as [?|[?|?]]; auto.
Qed.
End E.
