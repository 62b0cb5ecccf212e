From Coq Require Import List Bool Arith ZArith Lia.
From Verif Require Import Dbl DblFacts IntDbl Outcome BaseFacts StdSort Problem SpecProblem ProblemFacts Rng Generic SpecGeneric GenericFacts3 SpecGenetic RmFacts
  GeneticOps GeneticFacts Population SpecPopulation PopulationFacts PopulationFacts3 Algo SpecAlgo AlgoFacts AlgoFacts2 AlgDe AlgDeFacts AlgDeFacts2 AlgGwoFacts AlgSade SpecSade AlgSadeFacts.
Import ListNotations.
Local Opaque one_z.

(** ** The constructors *)
Lemma variant_bad_iff v : variant_bad v = false <-> 1 <= v <= 18.
Proof. unfold variant_bad. destruct (Nat.ltb_spec v 1), (Nat.ltb_spec 18 v); cbn; split; try discriminate; try lia; auto. Qed.
Lemma sade_ctor_else a : sade_ctor a = Ok (mkkept [] [] []) \/ sade_ctor a = Throw InvalidArgument.
Proof. unfold sade_ctor. match goal with |- context [if ?b then Throw _ else _] => destruct b end; [now right|]. destruct (_ || _)%bool; auto. Qed.
Lemma sade_ctor_iff a : sade_ctor a = Ok (mkkept [] [] []) <->
  match sa_pool a with Fixed v => 1 <= v <= 18 | Among l => forall v, In v l -> 1 <= v <= 18 end /\ (sa_adptv a = 1 \/ sa_adptv a = 2).
Proof.
  unfold sade_ctor. assert (K : (match sa_pool a with Fixed v => variant_bad v | Among l => existsb variant_bad l end = false) <-> match sa_pool a with Fixed v => 1 <= v <= 18 | Among l => forall v, In v l -> 1 <= v <= 18 end).
  { destruct (sa_pool a) as [v|l]; [apply variant_bad_iff|]. induction l as [|v l IH]; cbn [existsb]; [split; [intros _ w []|reflexivity]|]. rewrite orb_false_iff, variant_bad_iff, IH. split.
    - intros [A B] w [<-|Hw]; auto.
    - intros H. split; [apply H; now left|intros w Hw; apply H; now right]. }
  rewrite <- K. clear K. match goal with |- context [if ?b then Throw _ else if _ then _ else _] => destruct b end; [split; [discriminate|intros [? _]; discriminate]|].
  destruct (Nat.ltb_spec (sa_adptv a) 1), (Nat.ltb_spec 2 (sa_adptv a)); cbn; split; try discriminate; try (intros [_ ?]; lia); intros; split; auto; lia.
Qed.

(** ** The preconditions *)
Section E.
Context {G P : Type} (r : rng G) (srt : sorter) (a : sade_params).
Lemma sade_rejects k (s : G * pop P) : ~ plain_single (po_prob (snd s)) \/ (0 < sa_gen a /\ length (po_id (snd s)) < 7) -> sade_evolve r srt a k s = (Throw InvalidArgument, s).
Proof.
  intros H. unfold sade_evolve, rbind, getp. cbv beta iota zeta. destruct (Nat.eqb_spec (get_nc (po_prob (snd s))) 0) as [E1|E1]; cbn [negb]; [|reflexivity].
  destruct (Nat.eqb_spec (get_nf (po_prob (snd s))) 1) as [E2|E2]; cbn [negb]; [|reflexivity]. destruct (u_set_seed _) eqn:E3; [reflexivity|].
  destruct H as [H|[H1 H2]]; [elim H; repeat split; assumption|]. destruct (Nat.eqb_spec (sa_gen a) 0); [lia|]. destruct (Nat.ltb_spec (length (po_id (snd s))) 7); [reflexivity|lia].
Qed.
Lemma sade_zero k (s : G * pop P) : plain_single (po_prob (snd s)) -> sa_gen a = 0 -> sade_evolve r srt a k s = (Ok k, s).
Proof. intros (E1 & E2 & E3) H. unfold sade_evolve, rbind, getp. cbv beta iota zeta. rewrite E1, E2, E3, H. reflexivity. Qed.

(** What is kept is forgotten without memory, or when the population has another size. *)
Lemma start_kept_new k k' NP : start_new a k NP = true -> start_new a k' NP = true -> start_kept r a k NP = start_kept r a k' NP.
Proof. intros A B. unfold start_kept. now rewrite A, B. Qed.
Lemma start_forgets k NP : sa_memory a = false \/ length (k_F k) <> NP -> start_new a k NP = true.
Proof.
  intros H. unfold start_new. destruct H as [->|H]; [now rewrite orb_true_r|]. destruct (Nat.eqb_spec (length (k_F k)) NP); [contradiction|]. cbn [negb].
  now rewrite orb_true_r.
Qed.
Lemma sade_forgets k k' (s : G * pop P) : 0 < sa_gen a -> sa_memory a = false \/ (length (k_F k) <> length (po_id (snd s)) /\ length (k_F k') <> length (po_id (snd s))) ->
  sade_evolve r srt a k s = sade_evolve r srt a k' s.
Proof.
  intros HG H. assert (E : start_kept r a k (length (po_id (snd s))) = start_kept r a k' (length (po_id (snd s)))).
  { apply start_kept_new; apply start_forgets; destruct H as [H|[H1 H2]]; auto. }
  unfold sade_evolve, rbind, getp. cbv beta iota zeta. rewrite E. destruct (Nat.eqb_spec (sa_gen a) 0); [lia|]. reflexivity.
Qed.

(** ** With no allowed variant *)
Lemma draw_variant_empty g : fst (draw_variant r [] g) = UB.
Proof.
  unfold draw_variant, rbind, draw_int. change ((Z.of_nat (length (@nil nat)) - 1) mod 2 ^ 64)%Z with (2 ^ 64 - 1)%Z. change (0 <=? 2 ^ 64 - 1)%Z with true. cbv iota.
  unfold rdraw. destruct (g_int r 0 (2 ^ 64 - 1) g) as [k g']. cbv beta iota. unfold rlift, vget. now destruct (Z.to_nat k).
Qed.
Lemma sade_empty (s : G * pop P) : rng_contract r -> valid_pop (snd s) -> plain_single (po_prob (snd s)) -> sa_pool a = Among [] -> 0 < sa_gen a -> 7 <= length (po_id (snd s)) ->
  fst (sade_evolve r srt a (mkkept [] [] []) s) = UB.
Proof.
  intros RC V (E1 & E2 & E3) EP HG H7. unfold sade_evolve. pose proof V as (PO & (S1 & S2 & _) & _).
  assert (NO : p_nobj (po_prob (snd s)) = 1) by (destruct (prob_obj_facts _ PO) as (_ & _ & _ & X); lia).
  assert (NE : po_id (snd s) <> []) by (intros X; rewrite X in H7; cbn in H7; lia).
  destruct (best_idx_lt srt (snd s) NO E1 (proj1 (proj2 V)) NE) as (b & Eb & Hb).
  destruct (vget_in_range (po_x (snd s)) b ltac:(lia)) as (xb & Exb & _). destruct (vget_in_range (po_f (snd s)) b ltac:(lia)) as (fb & Efb & _).
  unfold rbind at 1, getp. cbv beta iota zeta. rewrite E1, E2, E3. cbn [Nat.eqb negb]. destruct (Nat.eqb_spec (sa_gen a) 0); [lia|]. destruct (Nat.ltb_spec (length (po_id (snd s))) 7); [lia|].
  rewrite Eb. unfold rbind at 1, rlift at 1. cbv beta iota. rewrite Exb. unfold rbind at 1, rlift at 1. cbv beta iota. rewrite Efb. unfold rbind at 1, rlift at 1. cbv beta iota.
  set (NP := length (po_id (snd s))) in *. unfold rbind at 1, eng at 1.
  assert (K : fst (start_kept r a (mkkept [] [] []) NP (fst s)) = UB).
  { unfold start_kept. rewrite start_forgets by (right; cbn; lia). rewrite EP. unfold rbind at 1.
    assert (A : always (rmap (fun _ : nat => if Nat.eqb (sa_adptv a) 1 then rbind (draw01 r) (fun c => rbind (draw_F r) (fun f => rret (f, c))) else rbind (draw_half r) (fun c => rbind (draw_half r) (fun f => rret (f, c)))) (seq 0 NP)) (fun _ => True) never).
    { eapply always_weak; [apply (always_map _ (fun _ _ => True))| |intros e X; exact X].
      - intros j _. destruct (Nat.eqb _ 1).
        + eapply always_bind; [apply (draw01_any r RC)|]. intros c _. eapply always_bind with (P := fun _ => True); [|intros f _; now apply always_ret]. unfold draw_F. eapply always_bind; [apply (draw01_any r RC)|]. intros u _. now apply always_ret.
        + eapply always_bind; [apply half_any|]. intros c _. eapply always_bind; [apply half_any|]. intros f _. now apply always_ret.
      - auto. }
    specialize (A (fst s)). destruct (rmap _ _ (fst s)) as [[FC| | |] g]; cbn [fst] in A; try contradiction. destruct NP as [|NP']; [lia|]. cbn [seq rmap]. unfold rbind. pose proof (draw_variant_empty g) as U.
    destruct (draw_variant r [] g) as [o g']. cbn [fst] in U. subst o. reflexivity. }
  destruct (start_kept r a (mkkept [] [] []) NP (fst s)) as [o g]. cbn [fst] in K. subst o. reflexivity.
Qed.
End E.

Lemma sade_evolve_gen {G P} (r : rng G) (RC : rng_contract r) srt a (FV CV Val Res : dbl -> Prop) (Box : list dbl -> Prop) k (s : G * pop P) :
  valid_pop (snd s) -> plain_single (po_prob (snd s)) -> fitness_defined (po_prob (snd s)) -> pool_ok a -> 0 < sa_gen a -> 7 <= length (po_id (snd s)) ->
  (forall E, always (draw_F r) FV E) -> (forall E, always (draw01 r) CV E) -> (sa_adptv a <> 1 -> (forall x, FV x) /\ (forall x, CV x)) ->
  (forall v F g t xi x0 x1 x2 x3 x4 x5 x6, good_variant v -> FV F -> Val g -> Val t -> Val xi -> Val x0 -> Val x1 -> Val x2 -> Val x3 -> Val x4 -> Val x5 -> Val x6 ->
    Res (mut2 v F g t xi x0 x1 x2 x3 x4 x5 x6)) ->
  (forall x y, length x = get_nx (po_prob (snd s)) -> Forall (Any Val Res) x -> bounded_from (p_lb (po_prob (snd s))) (p_ub (po_prob (snd s))) x y -> Box y /\ Forall Val y) ->
  (forall x, In x (po_x (snd s)) -> Forall Val x) -> vals a FV CV k ->
  ends (sade_evolve r srt a k) s
    (fun k' s' => valid_pop (snd s') /\ replaced (better_point (po_prob (snd s)) Box) (snd s) (snd s') /\
       (exists k, 1 <= k <= sa_gen a /\ evals (k * length (po_id (snd s))) (snd s) (snd s') /\ (k < sa_gen a -> flat srt (sa_xtol a) (sa_ftol a) (snd s'))) /\
       full a FV CV (length (po_id (snd s))) k')
    (fails (po_prob (snd s))).
Proof.
  intros V (E1 & E2 & E3) FD PK HG H7 HF HC H2 VR HB HX HK. unfold sade_evolve. apply ends_bind, ends_getp. cbv zeta. rewrite E1, E2, E3. cbn [Nat.eqb negb].
  destruct (Nat.eqb_spec (sa_gen a) 0); [lia|]. destruct (Nat.ltb_spec (length (po_id (snd s))) 7); [lia|]. pose proof V as (PO & (S1 & S2 & Fx & Ff & _) & _).
  assert (NO : p_nobj (po_prob (snd s)) = 1) by (destruct (prob_obj_facts _ PO) as (_ & _ & _ & X); lia).
  assert (NE : po_id (snd s) <> []) by (intros X; rewrite X in H7; cbn in H7; lia).
  destruct (best_idx_lt srt (snd s) NO E1 (proj1 (proj2 V)) NE) as (b & Eb & Hb). apply ends_bind. eapply ends_lift_ok; [exact Eb|].
  destruct (vget_in_range (po_x (snd s)) b ltac:(lia)) as (xb & Exb & Nxb). destruct (vget_in_range (po_f (snd s)) b ltac:(lia)) as (fb & Efb & Nfb).
  apply ends_bind. eapply ends_lift_ok; [exact Exb|]. apply ends_bind. eapply ends_lift_ok; [exact Efb|].
  assert (GX : Forall (goodx (po_prob (snd s)) Val) (po_x (snd s))) by (apply Forall_forall; intros x Hx; split; [apply Fx; exact Hx|apply HX; exact Hx]).
  assert (GB : goodx (po_prob (snd s)) Val xb) by (rewrite Forall_forall in GX; apply GX; eapply nth_error_In; eauto).
  apply ends_bind. eapply ends_eng; [apply (start_kept_ok r RC a FV CV HF HC H2 PK k (length (po_id (snd s))) _ HK)|]. intros k1 g FU. cbv beta. pose proof FU as (K1 & K2 & _).
  destruct (vget_in_range (k_F k1) 0 ltac:(lia)) as (F0 & EF0 & _). destruct (vget_in_range (k_CR k1) 0 ltac:(lia)) as (C0 & EC0 & _).
  apply ends_bind. eapply ends_lift_ok; [exact EF0|]. apply ends_bind. eapply ends_lift_ok; [exact EC0|].
  apply (sade_gens_ok r RC srt a FV CV HF HC H2 PK (po_prob (snd s)) PO E1 E2 FD Val Res Box VR HB (snd s) eq_refl V (sa_gen a) H7 (sa_gen a) 0); [lia|lia| |lia].
  split; [|exact FU]. unfold inv. cbn [s_de d_fit d_old d_new d_gbX d_gbfit d_gbIter snd]. split; [exact V|]. split; [apply replaced_refl|].
  split; [apply evals_0|].
  split; [reflexivity|]. split; [lia|]. split; [lia|]. split; [exact GX|]. split; [exact GX|]. split; [exact GB|]. split; [exact GB|]. rewrite <- E2. apply Ff. eapply nth_error_In; eauto.
Qed.

(** ** jDE's ranges *)
Lemma sandwich l x u : dle (Fin l) x = true -> dle x (Fin u) = true -> exists w, x = Fin w /\ (l <= w <= u)%Z.
Proof. intros A B. destruct x as [| |w|]; [discriminate A|discriminate A| |discriminate B]. exists w. split; [reflexivity|]. rewrite dle_fin in A, B. lia. Qed.
Lemma lits : exists c9 c1, lit_0_9 = Fin c9 /\ lit_0_1 = Fin c1 /\ (0 <= c9)%Z /\ rnd 0 one_z = Fin 0 /\ rnd (one_z * c9) one_z = Fin c9 /\ rnd (0 + c1) 1 = tenth /\ rnd (c9 + c1) 1 = done.
Proof. eexists. eexists. split; [vm_compute; reflexivity|]. split; [vm_compute; reflexivity|]. split; [discriminate|]. repeat split; vm_compute; reflexivity. Qed.
Lemma F_shift u : within dzero done u -> F_range (dadd (dmul u lit_0_9) lit_0_1).
Proof.
  intros [A B]. destruct (sandwich 0 u one_z A B) as (z & -> & Hz). destruct lits as (c9 & c1 & -> & -> & P9 & R0 & R9 & RL & RU). pose proof one_z_pos as OP. cbn [dmul].
  destruct (sandwich 0 (rnd (z * c9) one_z) c9) as (w & -> & Hw).
  - rewrite <- R0. apply rnd_mono; [exact OP|nia].
  - rewrite <- R9. apply rnd_mono; [exact OP|nia].
  - cbn [dadd]. split; [rewrite <- RL|rewrite <- RU]; apply rnd_mono; lia.
Qed.
Lemma draw_F_range {G} (r : rng G) (RC : rng_contract r) E : always (draw_F r) F_range E.
Proof. unfold draw_F. eapply always_bind; [apply (draw01_in r RC)|]. intros u Hu. apply always_ret. now apply F_shift. Qed.

(** ** The instances *)
Section I.
Context {G P : Type} (r : rng G) (RC : rng_contract r) (srt : sorter) (a : sade_params) (k : kept) (s : G * pop P).
Let p := po_prob (snd s).
Context (V : valid_pop (snd s)) (PS : plain_single p) (FD : fitness_defined p) (PK : pool_ok a) (HG : 0 < sa_gen a) (H7 : 7 <= length (po_id (snd s))).
Definition sade_post (Box : list dbl -> Prop) (FV CV : dbl -> Prop) (k' : kept) (s' : G * pop P) : Prop :=
  valid_pop (snd s') /\ replaced (better_point p Box) (snd s) (snd s') /\
  (exists k, 1 <= k <= sa_gen a /\ evals (k * length (po_id (snd s))) (snd s) (snd s') /\ (k < sa_gen a -> flat srt (sa_xtol a) (sa_ftol a) (snd s'))) /\
  full a FV CV (length (po_id (snd s))) k'.
Lemma sade_evolve_nan : V_ok a (k_V k) -> ends (sade_evolve r srt a k) s (sade_post (in_box_or_nan (p_lb p) (p_ub p)) (fun _ => True) (fun _ => True)) (fails p).
Proof.
  intros HK. destruct (prob_obj_lens p (proj1 V)) as [L1 L2].
  apply (sade_evolve_gen r RC srt a (fun _ => True) (fun _ => True) (fun _ => True) (fun _ => True)); auto.
  - intros E. eapply always_weak; [apply (draw_F_range r RC E)|auto|auto].
  - intros E. apply (draw01_any r RC).
  - intros x y L _ B. split; [eapply bounded_in_box_or_nan; [| |exact B]; fold p in L |- *; lia|]. apply Forall_forall. auto.
  - intros x _. apply Forall_forall. auto.
  - split; [apply Forall_forall; auto|]. split; [apply Forall_forall; auto|exact HK].
Qed.
Lemma sade_evolve_ranges : sa_adptv a = 1 -> Forall F_range (k_F k) -> Forall CR_range (k_CR k) -> V_ok a (k_V k) ->
  ends (sade_evolve r srt a k) s (sade_post (in_box_or_nan (p_lb p) (p_ub p)) F_range CR_range) (fails p).
Proof.
  intros EA K1 K2 K3. destruct (prob_obj_lens p (proj1 V)) as [L1 L2].
  apply (sade_evolve_gen r RC srt a F_range CR_range (fun _ => True) (fun _ => True)); auto.
  - apply (draw_F_range r RC).
  - apply (draw01_in r RC).
  - intros X. contradiction.
  - intros x y L _ B. split; [eapply bounded_in_box_or_nan; [| |exact B]; fold p in L |- *; lia|]. apply Forall_forall. auto.
  - intros x _. apply Forall_forall. auto.
  - split; [exact K1|]. split; [exact K2|exact K3].
Qed.
Lemma F_range_bnd F : F_range F -> bnd 1074 F.
Proof. intros [A B]. apply bnd_unit; [|exact B]. apply (dle_trans _ tenth); [vm_compute; reflexivity|exact A]. Qed.
Lemma mut2_bnd v F g t xi x0 x1 x2 x3 x4 x5 x6 : bnd 1074 F -> bnd 2093 g -> bnd 2093 t -> bnd 2093 xi -> bnd 2093 x0 -> bnd 2093 x1 -> bnd 2093 x2 -> bnd 2093 x3 -> bnd 2093 x4 -> bnd 2093 x5 -> bnd 2093 x6 ->
  mut2 v F g t xi x0 x1 x2 x3 x4 x5 x6 <> NaN.
Proof.
  intros BF Hg Ht Hi H0 H1 H2 H3 H4 H5 H6. apply (bnd_not_nan 2097).
  assert (L : forall x y, bnd 2093 x -> bnd 2093 y -> bnd 2094 (dmul F (dsub x y))) by (intros x y Hx Hy; apply bnd_mul_unit; [lia|exact BF|]; apply (bnd_sub 2093); auto; lia).
  assert (R : forall x y, bnd 2093 x -> bnd 2093 y -> bnd 2094 (dmul (dsub x y) F)) by (intros x y Hx Hy; apply bnd_mul_unit_r; [lia| |exact BF]; apply (bnd_sub 2093); auto; lia).
  assert (A1 : forall x y, bnd 2093 x -> bnd 2094 y -> bnd 2095 (dadd x y)) by (intros x y Hx Hy; apply (bnd_add 2094); [lia|eapply bnd_weak; [|exact Hx]; lia|exact Hy]).
  assert (A2 : forall x y, bnd 2095 x -> bnd 2094 y -> bnd 2096 (dadd x y)) by (intros x y Hx Hy; apply (bnd_add 2095); [lia|exact Hx|eapply bnd_weak; [|exact Hy]; lia]).
  assert (A3 : forall x y, bnd 2096 x -> bnd 2094 y -> bnd 2097 (dadd x y)) by (intros x y Hx Hy; apply (bnd_add 2096); [lia|exact Hx|eapply bnd_weak; [|exact Hy]; lia]).
  assert (S2 : forall x y, bnd 2095 x -> bnd 2094 y -> bnd 2096 (dsub x y)) by (intros x y Hx Hy; apply (bnd_sub 2095); [lia|exact Hx|eapply bnd_weak; [|exact Hy]; lia]).
  assert (W5 : forall x, bnd 2095 x -> bnd 2097 x) by (intros x; apply bnd_weak; lia). assert (W6 : forall x, bnd 2096 x -> bnd 2097 x) by (intros x; apply bnd_weak; lia).
  unfold mut2. clear BF. destruct (strategy v) as [|[|[|[|[|[|[|[|]]]]]]]].
  - apply W5, A1, L; assumption.
  - apply W5, A1, L; assumption.
  - apply W6, A2; [apply A1|]; try apply L; assumption.
  - apply W6, A2; [apply A1|]; try apply R; assumption.
  - apply W6, A2; [apply A1|]; try apply R; assumption.
  - apply A3; [apply A2; [apply A1|]|]; try apply R; assumption.
  - apply A3; [apply A2; [apply A1|]|]; try apply R; assumption.
  - apply W6, A2; [apply A1|]; try apply R; assumption.
  - apply W6, S2; [apply A1|]; try apply R; assumption.
Qed.
Lemma sade_evolve_box : sa_adptv a = 1 -> Forall F_range (k_F k) -> Forall CR_range (k_CR k) -> V_ok a (k_V k) ->
  (forall l, In l (p_lb p) -> bnd 2093 l) -> (forall u, In u (p_ub p) -> bnd 2093 u) -> (forall x, In x (po_x (snd s)) -> in_box (p_lb p) (p_ub p) x) ->
  ends (sade_evolve r srt a k) s (sade_post (in_box (p_lb p) (p_ub p)) F_range CR_range) (fails p).
Proof.
  intros EA K1 K2 K3 BL BU HX. destruct (prob_obj_lens p (proj1 V)) as [L1 L2].
  assert (W : forall x, in_box (p_lb p) (p_ub p) x -> Forall (bnd 2093) x).
  { intros x (A1 & A2 & A3). apply Forall_forall. intros v Hv. apply In_nth_error in Hv. destruct Hv as (i & Hi). assert (i < length x) by (apply nth_error_Some; congruence).
    destruct (nth_ex (p_lb p) i ltac:(lia)) as (l & El). destruct (nth_ex (p_ub p) i ltac:(lia)) as (u & Eu).
    apply (bnd_within 2093 l u); [apply BL; eapply nth_error_In; eauto|apply BU; eapply nth_error_In; eauto|eapply A3; eauto]. }
  apply (sade_evolve_gen r RC srt a F_range CR_range (bnd 2093) (fun v => v <> NaN)); auto.
  - apply (draw_F_range r RC).
  - apply (draw01_in r RC).
  - intros X. contradiction.
  - intros v F g t xi x0 x1 x2 x3 x4 x5 x6 _ HF. intros. apply mut2_bnd; try assumption. now apply F_range_bnd.
  - intros x y L A B. fold p in L, B |- *. assert (IB : in_box (p_lb p) (p_ub p) y).
    { eapply bounded_in_box; [| | |exact B]; [lia|lia|]. eapply Forall_impl; [|exact A]. intros v [H|H]; [eapply bnd_not_nan; eauto|exact H]. }
    split; [exact IB|apply W; exact IB].
  - split; [exact K1|]. split; [exact K2|exact K3].
Qed.
End I.
