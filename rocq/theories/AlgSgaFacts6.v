From Coq Require Import String List Bool Arith ZArith Lia Permutation.
From Verif Require Import Dbl DblFacts IntDbl Outcome BaseFacts StdSort Compare SpecOrder Problem SpecProblem Rng Generic SpecGeneric GenericFacts GenericFacts2 GenericFacts3 SpecGenetic RmFacts
  GeneticOps GeneticFacts GeneticFacts3 Population SpecPopulation PopulationFacts ProblemFacts Algo SpecAlgo AlgoFacts AlgoFacts2 AlgSga SpecSga AlgSgaFacts AlgSgaFacts2 AlgSgaFacts3 AlgSgaFacts4 AlgSgaFacts5 AlgExamples.
Import ListNotations.

(** ** The constructor *)
Lemma outside_iff l u x : l <> NaN -> u <> NaN -> (dlt x l || dgt x u = false <-> not_outside l u x).
Proof.
  intros Hl Hu. unfold not_outside, within, dgt. split.
  - intros H. apply orb_false_iff in H. destruct H as [H1 H2]. destruct x as [| |z|]; [now left|right; split; apply dlt_false_dle; congruence..].
  - intros [->|[H1 H2]]; [destruct l, u; reflexivity|]. apply orb_false_iff. split; now apply dle_dlt_false.
Qed.
Lemma outside_iff' l u x : l <> NaN -> u <> NaN -> (dgt x u || dlt x l = false <-> not_outside l u x).
Proof. rewrite orb_comm. apply outside_iff. Qed.
Lemma crossover_named_iff s c : crossover_named s = Some c <-> In (s, c) crossover_names.
Proof.
  unfold crossover_named, crossover_names. split.
  - repeat match goal with |- context [String.eqb s ?n] => destruct (String.eqb_spec s n) as [->|] end; intros E; inversion E; cbn; tauto.
  - cbn [In]. intros [E|[E|[E|[E|[]]]]]; injection E as <- <-; reflexivity.
Qed.
Lemma mutation_named_iff s c : mutation_named s = Some c <-> In (s, c) mutation_names.
Proof.
  unfold mutation_named, mutation_names. split.
  - repeat match goal with |- context [String.eqb s ?n] => destruct (String.eqb_spec s n) as [->|] end; intros E; inversion E; cbn; tauto.
  - cbn [In]. intros [E|[E|[E|[]]]]; injection E as <- <-; reflexivity.
Qed.
Lemma selection_named_iff s c : selection_named s = Some c <-> In (s, c) selection_names.
Proof.
  unfold selection_named, selection_names. split.
  - repeat match goal with |- context [String.eqb s ?n] => destruct (String.eqb_spec s n) as [->|] end; intros E; inversion E; cbn; tauto.
  - cbn [In]. intros [E|[E|[]]]; injection E as <- <-; reflexivity.
Qed.
Lemma dhundred_nn : dhundred <> NaN. Proof. unfold dhundred. rewrite d_of_Z_int by reflexivity. discriminate. Qed.
Lemma dzero_nn : dzero <> NaN. Proof. discriminate. Qed.
Lemma done_nn' : done <> NaN. Proof. discriminate. Qed.
Lemma sga_constructor gen cr eta m pm ps cx mu se a :
  sga_construct gen cr eta m pm ps cx mu se = Ok a <->
  sg_gen a = gen /\ sg_cr a = cr /\ sg_eta a = eta /\ sg_m a = m /\ sg_pm a = pm /\ sg_ps a = ps /\ In (cx, sg_cross a) crossover_names /\ In (mu, sg_mut a) mutation_names /\ In (se, sg_sel a) selection_names /\
  not_outside dzero done cr /\ not_outside done dhundred eta /\ not_outside dzero done m /\ 0 < ps /\ match sg_mut a with Polynomial => not_outside done dhundred pm | _ => not_outside dzero done pm end.
Proof.
  unfold sga_construct. pose proof (outside_iff' dzero done cr dzero_nn done_nn') as I1. pose proof (outside_iff done dhundred eta done_nn' dhundred_nn) as I2. pose proof (outside_iff dzero done m dzero_nn done_nn') as I3.
  pose proof (outside_iff dzero done pm dzero_nn done_nn') as I4. pose proof (outside_iff done dhundred pm done_nn' dhundred_nn) as I5.
  pose proof (crossover_named_iff cx) as N1. pose proof (mutation_named_iff mu) as N2. pose proof (selection_named_iff se) as N3.
  split.
  - destruct (dgt cr done || dlt cr dzero); [discriminate|]. destruct (dlt eta done || dgt eta dhundred); [discriminate|]. destruct (dlt m dzero || dgt m done); [discriminate|]. destruct (Nat.eqb_spec ps 0); [discriminate|].
    destruct (mutation_named mu) as [mu'|]; [|discriminate]. destruct (selection_named se) as [se'|]; [|discriminate]. destruct (crossover_named cx) as [cx'|]; [|discriminate].
    intros E. assert (B : (match mu' with Polynomial => dlt pm done || dgt pm dhundred | _ => dlt pm dzero || dgt pm done end) = false) by (destruct mu'; [destruct (dlt pm dzero || dgt pm done)|destruct (dlt pm dzero || dgt pm done)|destruct (dlt pm done || dgt pm dhundred)]; congruence).
    rewrite B in E. injection E as <-. cbn [sg_gen sg_cr sg_eta sg_m sg_pm sg_ps sg_cross sg_mut sg_sel]. repeat (split; [first [reflexivity|apply N1; reflexivity|apply N2; reflexivity|apply N3; reflexivity|apply I1; reflexivity|apply I2; reflexivity|apply I3; reflexivity|lia]|]).
    destruct mu'; [apply I4|apply I4|apply I5]; exact B.
  - intros (E1 & E2 & E3 & E4 & E5 & E6 & H1 & H2 & H3 & H4 & H5 & H6 & H7 & H8). rewrite (proj2 I1 H4), (proj2 I2 H5), (proj2 I3 H6). destruct (Nat.eqb_spec ps 0); [lia|]. rewrite (proj2 (N2 _) H2), (proj2 (N3 _) H3), (proj2 (N1 _) H1).
    assert (B : (match sg_mut a with Polynomial => dlt pm done || dgt pm dhundred | _ => dlt pm dzero || dgt pm done end) = false) by (destruct (sg_mut a); [apply I4|apply I4|apply I5]; exact H8). rewrite B. clear - E1 E2 E3 E4 E5 E6. destruct a as [a1 a2 a3 a4 a5 a6 a7 a8 a9]. cbn [sg_gen sg_cr sg_eta sg_m sg_pm sg_ps sg_cross sg_mut sg_sel] in *. subst. reflexivity.
Qed.

(** ** The theorems *)
Section T.
Context {G P : Type} (r : rng G) (RC : rng_contract r) (srt : sorter) (HS : sort_contract srt) (pw : dbl -> dbl -> dbl) (reseed : problem -> Z -> problem)
  (shuf : forall A, list A -> G -> list A * G) (HSh : shuffle_contract shuf) (binom : nat -> dbl -> G -> nat * G) (HB : binomial_contract binom) (a : sga_params).
Lemma sga_evolve_any (s : G * pop P) p : po_prob (snd s) = p -> valid_pop (snd s) -> plain_single p -> fitness_defined p -> draws_ok a p -> ready a (length (po_id (snd s))) ->
  ends (sga_evolve r srt pw reseed shuf binom a) s (fun _ s' => valid_pop (snd s') /\ generations p (in_box_or_nan (p_lb p) (p_ub p)) (sg_gen a) (snd s) (snd s') /\ evals (sg_gen a * length (po_id (snd s))) (snd s) (snd s')) (fails p).
Proof.
  intros EP V PS FD DO RD. pose proof V as (PO & _). rewrite EP in PO. apply (evolve_ok r RC srt HS pw reseed shuf HSh binom HB a p (fun _ => True) (in_box_or_nan (p_lb p) (p_ub p)) s (breeding_any r RC pw a p PO DO) EP V PS FD RD). auto.
Qed.
Lemma sga_evolve_tame (s : G * pop P) p : pow_contract pw -> finite_normals r -> po_prob (snd s) = p -> valid_pop (snd s) -> plain_single p -> fitness_defined p -> draws_ok a p -> ready a (length (po_id (snd s))) ->
  moderate_bounds p -> sane_mutation a -> within done dhundred (sg_eta a) -> (forall x, In x (po_x (snd s)) -> tame p x) ->
  ends (sga_evolve r srt pw reseed shuf binom a) s (fun _ s' => valid_pop (snd s') /\ generations p (tame p) (sg_gen a) (snd s) (snd s') /\ (forall x, In x (po_x (snd s')) -> tame p x) /\ evals (sg_gen a * length (po_id (snd s))) (snd s) (snd s')) (fails p).
Proof.
  intros PC FN EP V PS FD DO RD MB SM EB HT. pose proof V as (PO & _). rewrite EP in PO.
  eapply ends_weak; [apply (evolve_ok r RC srt HS pw reseed shuf HSh binom HB a p (tame p) (tame p) s (breeding_tame r RC pw a p PC FN PO DO MB SM EB) EP V PS FD RD HT)| |auto].
  intros u s' (V' & GN & CE). split; [exact V'|]. split; [exact GN|]. split; [|exact CE].
  assert (K : forall n (s1 s2 : pop P), generations p (tame p) n s1 s2 -> (forall i, In i (individuals s1) -> tame p (fst i)) -> forall i, In i (individuals s2) -> tame p (fst i)).
  { intros n s1 s2. induction 1 as [|n s1 s2 s3 _ IH (_ & _ & _ & born & dead & _ & HBn & PM & _)]; auto. intros H i Hi. assert (Ii : In i (born ++ individuals s2)) by (eapply Permutation_in; [apply Permutation_sym; exact PM|apply in_or_app; now left]). apply in_app_or in Ii. destruct Ii as [Ii|Ii]; [apply (HBn i Ii)|apply IH; auto]. }
  intros x Hx. apply In_nth_error in Hx. destruct Hx as (i & Ni). pose proof V' as (_ & (_ & S2' & _) & _). destruct (nth_ex (po_f (snd s')) i) as (f & Nf); [rewrite <- S2'; apply nth_error_Some; congruence|].
  apply (K _ _ _ GN) with (i := (x, f)).
  - intros q Hq. unfold individuals in Hq. apply combine_in_nth in Hq. destruct Hq as (j & Nj & _). apply HT. eapply nth_error_In; eauto.
  - apply (nth_error_In _ i). now apply combine_nth_error.
Qed.
Lemma sga_crossover_ok X lb ub nix dim : 0 < dim -> (forall x, In x X -> length x = dim) -> 2 <= length X -> sg_cross a <> SBX ->
  always (sga_cross r pw shuf a X lb ub nix) (fun Y => length Y = length X /\ forall i, i < length X -> exists q c x b, q <> i /\ nth_error X q = Some b /\ nth_error X i = Some x /\ nth_error Y i = Some c /\ crossed (sg_cross a) c x b) never.
Proof.
  intros Hd HX H2 NS. unfold sga_cross. destruct (nth_ex X 0 ltac:(lia)) as (x0 & N0). eapply always_bind; [apply (always_vget _ _ x0 (fun w => w = x0)); auto|]. intros ? ->. assert (L0 : length x0 = dim) by (apply HX; eapply nth_error_In; eauto). rewrite L0.
  pose proof (cross_loop_ok r RC a X dim never Hd HX H2 NS) as K. destruct (sg_cross a); try congruence; (eapply always_bind; [exact K|]; intros st (L & H); apply always_ret; auto).
Qed.
Lemma sga_sbx_ok X lb ub nix (Q2 : list dbl -> list dbl -> list dbl * list dbl -> Prop) : X <> [] -> Nat.even (length X) = true -> sg_cross a = SBX ->
  (forall p1 p2, In p1 X -> In p2 X -> always (sbx_crossover_impl r pw p1 p2 lb ub nix (sg_cr a) (sg_eta a)) (Q2 p1 p2) never) ->
  always (sga_cross r pw shuf a X lb ub nix) (fun Y => length Y = length X /\ exists Z, Permutation X Z /\ forall h, 2 * h + 1 < length X ->
    exists p1 p2 c1 c2, nth_error Z (2 * h) = Some p1 /\ nth_error Z (2 * h + 1) = Some p2 /\ nth_error Y (2 * h) = Some c1 /\ nth_error Y (2 * h + 1) = Some c2 /\ Q2 p1 p2 (c1, c2)) never.
Proof.
  intros NE EV ES HQ. unfold sga_cross. destruct (nth_ex X 0) as (x0 & N0); [destruct X; [congruence|cbn; lia]|]. eapply always_bind; [apply (always_vget _ _ x0 (fun w => w = x0)); auto|]. intros ? ->. rewrite ES.
  eapply always_bind; [apply (draw_always _ (fun Y => Permutation X Y)); intros g; apply HSh|]. intros Z PZ. cbv beta in PZ. apply Nat.even_spec in EV. destruct EV as [H EH]. rewrite EH. replace ((2 * H + 1) / 2) with H by (rewrite Nat.mul_comm, Nat.div_add_l by lia; cbn; lia).
  assert (LZ : length Z = 2 * H) by (rewrite <- (Permutation_length PZ); exact EH).
  eapply always_weak; [apply (sbx_loop_ok r pw a Z lb ub nix Q2 never H LZ)| |auto].
  - intros p1 p2 I1 I2. apply HQ; (eapply Permutation_in; [apply Permutation_sym; exact PZ|assumption]).
  - intros Y (L & HP). split; [lia|]. exists Z. split; [exact PZ|]. intros h Hh. apply HP. lia.
Qed.
Lemma sga_good p Box n (s s' : pop P) v k : generations p Box n s s' -> has_good s v k -> has_good s' v k.
Proof. apply generations_good. Qed.
End T.

(** ** Examples *)
Definition no_shuffle (A : Type) (l : list A) (g : list Z) : list A * list Z := (l, g).
Definition one_gene (n : nat) (p : dbl) (g : list Z) : nat * list Z := (Nat.min n 1, g).
Definition all_genes (n : nat) (p : dbl) (g : list Z) : nat * list Z := (n, g).
Lemma no_shuffle_contract : shuffle_contract no_shuffle. Proof. intros A l g. apply Permutation_refl. Qed.
Lemma one_gene_contract : binomial_contract one_gene. Proof. intros n p g _ _. cbn. lia. Qed.
Lemma all_genes_contract : binomial_contract all_genes. Proof. intros n p g _ _. cbn. lia. Qed.
(** The stream with normal draws that are always 1 *)
Definition calm_rng : rng (list Z) := {| g_real := g_real stream_rng; g_int := g_int stream_rng; g_norm := fun _ _ g => (done, g) |}.
Lemma calm_contract : rng_contract calm_rng. Proof. destruct stream_contract as [A B C]. split; assumption. Qed.
Lemma calm_normals : finite_normals calm_rng. Proof. intros g. reflexivity. Qed.
Definition sga_example (c : sga_crossover) (m : sga_mutation) (se : sga_selection) : sga_params := mksga 1 done done done done 2 c m se.
Lemma unit_ok : not_outside dzero done done. Proof. right. split; reflexivity. Qed.
Lemma one_hundred : within done dhundred done.
Proof. split; [reflexivity|]. unfold dhundred. rewrite d_of_Z_int by reflexivity. rewrite done_int, dle_int. reflexivity. Qed.
Lemma example_made : sga_construct 1 done done done done 2 "exponential" "uniform" "tournament" = Ok (sga_example Exponential Uniform Tournament).
Proof.
  refine (proj2 (sga_constructor 1 done done done done 2 "exponential" "uniform" "tournament" (sga_example Exponential Uniform Tournament)) _). cbn [sga_example sg_gen sg_cr sg_eta sg_m sg_pm sg_ps sg_cross sg_mut sg_sel].
  exact (conj eq_refl (conj eq_refl (conj eq_refl (conj eq_refl (conj eq_refl (conj eq_refl (conj (or_introl eq_refl) (conj (or_intror (or_introl eq_refl)) (conj (or_introl eq_refl) (conj unit_ok (conj (or_intror one_hundred) (conj unit_ok (conj (le_S 1 1 (le_n 1)) unit_ok))))))))))))).
Qed.
Lemma alg_moderate : moderate_bounds alg_problem.
Proof. split; intros x [<-|[<-|[]]]; eexists; (split; [reflexivity|]); vm_compute; discriminate. Qed.
Lemma alg_tame x : In x (po_x alg_pop) -> tame alg_problem x.
Proof. intros H. split; [now apply alg_pop_in_box|]. intros i v Hi Nv. cbn [alg_problem p_nix] in Hi. assert (i < length x) by (apply nth_error_Some; congruence). lia. Qed.
