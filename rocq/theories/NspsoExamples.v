(** Concrete cases for NSPSO. *)
From Coq Require Import List Bool Arith ZArith Lia.
From Verif Require Import Dbl DblFacts Outcome StdSort MultiObj SpecMultiObj SpecOrder Problem SpecProblem Rng Generic SpecGeneric GenericFacts3 SpecGenetic GeneticOps GeneticFacts3 Population SpecPopulation Algo SpecAlgo AlgSaFacts2 AlgExamples SpecNsga2 SpecCmaes SpecSwarm SgaExamples Nsga2Examples MoeadGenExamples AlgNspso SpecNspso.
Import ListNotations.

Definition np_params (gen : nat) (d : diversity) (mem : bool) : nspso_params := mknspso gen done done done done done 60 d mem.
Definition no_mem : nspso_mem := mknspmem [] [] [].
Definition np_run (a : nspso_params) (m : nspso_mem) (g : list Z) (s : pop (list Z)) := np_evolve (@isort) stream_rng pow_toy 20 None a m (g, s).
Definition np_xs (o : outcome nspso_mem * (list Z * pop (list Z))) : list (list dbl) := match fst o with Ok _ => po_x (snd (snd o)) | _ => [] end.
Definition np_mx (o : outcome nspso_mem * (list Z * pop (list Z))) : list (list dbl) := match fst o with Ok m => nm_x m | _ => [] end.
Definition two_points : list (list dbl) := [[Fin 1; Fin 1]; [Fin 9; Fin 9]].
Definition two_pop : pop (list Z) :=
  {| po_prob := xy_problem; po_fevals := 2; po_id := [1; 2]%Z; po_x := two_points; po_f := two_points; po_cx := []; po_cf := []; po_rng := [] |}.
Definition up_draws : list Z := [1; 1; 1; 1; 1; 0; 0; 0; 0; 0]%Z.
Lemma two_valid : valid_pop two_pop.
Proof.
  split; [exact (proj1 xy_valid)|]. split; [|left; split; reflexivity]. split; [reflexivity|]. split; [reflexivity|]. split; [intros x [<-|[<-|[]]]; reflexivity|]. split; [intros x [<-|[<-|[]]]; reflexivity|].
  intros i H. cbn [two_pop po_id In] in H. lia.
Qed.
Lemma xy_np : np_problem xy_problem. Proof. split; [reflexivity|]. split; [reflexivity|cbn; lia]. Qed.
Lemma np_made_ex gen d mem : np_made (np_params gen d mem).
Proof. unfold np_made, np_accepts, nan_or, within. cbn [np_params np_omega np_c1 np_c2 np_chi np_vcoeff np_range]. repeat split; try (right; vm_compute; repeat split; reflexivity); lia. Qed.
Lemma np_moderate_ex gen d mem : np_moderate (np_params gen d mem).
Proof. unfold np_moderate, within. cbn [np_params np_omega np_c1 np_c2 np_chi np_vcoeff np_range]. repeat split; try (vm_compute; reflexivity); lia. Qed.
Lemma np_construct_ex gen d mem : nspso_construct gen done done done done done 60 (Some d) mem = Ok (np_params gen d mem).
Proof. vm_compute. reflexivity. Qed.
Lemma no_mem_fits a p n : 0 < n -> np_fits a p n no_mem.
Proof. intros H _. split; cbn; intros E; lia. Qed.
(** Two particles that fly to the upper corner *)
Definition np_x (o : outcome nspso_mem * (list Z * pop (list Z))) : outcome (list (list dbl) * list (list dbl)) := match fst o with Ok m => Ok (po_x (snd (snd o)), nm_x m) | Throw e => Throw e | UB => UB | NoFuel => NoFuel end.
Lemma np_up d : np_x (np_run (np_params 1 d false) no_mem up_draws two_pop) = Ok ([[Fin 10; Fin 10]; [Fin 10; Fin 10]], two_points).
Proof. destruct d; vm_compute; reflexivity. Qed.
Definition np_ldr (o : outcome nspso_mem * (list Z * pop (list Z))) : outcome (list nat * list (list dbl)) :=
  match fst o with Ok m => match np_leaders (@isort) pow_toy Crowding 2 (po_f (snd (snd o))) (po_x (snd (snd o))) with Ok b => Ok (b, nm_f m) | _ => UB end | _ => UB end.
Lemma np_ldr_eq : np_ldr (np_run (np_params 1 Crowding false) no_mem up_draws two_pop) = Ok ([0; 1], two_points).
Proof. vm_compute. reflexivity. Qed.
Lemma nine_dominated : dom_idx two_points 0 1.
Proof. exists [Fin 1; Fin 1], [Fin 9; Fin 9]. split; [reflexivity|]. split; [reflexivity|]. split; [reflexivity|]. split; [|exists 0, (Fin 1), (Fin 9); repeat split; vm_compute; reflexivity]. intros [|[|[|i]]] x y; cbn; intros E1 E2; try discriminate; injection E1 as <-; injection E2 as <-; intros Q; vm_compute in Q; discriminate Q. Qed.
Lemma np_flies : np_x (np_run (np_params 2 NicheCount true) no_mem [0; 1; 1; 0; 1; 0; 0; 0; 0; 0; 1; 0; 1; 0; 1; 1]%Z two_pop) = Ok ([[Fin 10; Fin 0]; [Fin 0; Fin 10]], [[Fin 10; Fin 0]; [Fin 0; Fin 10]]).
Proof. vm_compute. reflexivity. Qed.
Lemma np_other : np_x (np_run (np_params 1 Crowding true) (mknspmem [[Fin 1; Fin 1]; [Fin 2; Fin 2]] [[Fin 1]; [Fin 1]] [[Fin 0]; [Fin 0]]) [1; 0; 0; 0; 0; 0; 0]%Z two_pop) = UB.
Proof. vm_compute. reflexivity. Qed.
Lemma np_bad_leader : exists a m s' b, np_made a /\ np_run a no_mem up_draws two_pop = (Ok m, s') /\ np_leaders (@isort) pow_toy (np_div a) 2 (po_f (snd s')) (po_x (snd s')) = Ok b /\ exists i j, In i b /\ dom_idx (nm_f m) j i.
Proof.
  exists (np_params 1 Crowding false). pose proof np_ldr_eq as E. destruct (np_run (np_params 1 Crowding false) no_mem up_draws two_pop) as [[m|e| |] s'] eqn:R; try discriminate E. unfold np_ldr in E. cbn [fst snd] in E. 
  destruct (np_leaders (@isort) pow_toy Crowding 2 (po_f (snd s')) (po_x (snd s'))) as [b|e| |] eqn:L; try discriminate E. injection E as -> E. exists m, s', [0; 1]. split; [apply np_made_ex|]. split; [reflexivity|]. split; [exact L|]. exists 1, 0. split; [right; left; reflexivity|]. rewrite E. exact nine_dominated.
Qed.
Lemma np_not_elitist d : exists a m s', np_made a /\ np_div a = d /\ np_run a no_mem up_draws two_pop = (Ok m, s') /\ length (po_x (snd s')) = 2 /\ forall x y, In x (po_x (snd s')) -> In y (po_x two_pop) -> dominates y x.
Proof.
  assert (D : forall y, In y two_points -> dominates y [Fin 10; Fin 10]). { intros y [<-|[<-|[]]]; (split; [reflexivity|]; split; [|eexists 0, _, (Fin 10); repeat split; vm_compute; reflexivity]; intros [|[|[|i]]] x z; cbn; intros E1 E2; try discriminate; injection E1 as <-; injection E2 as <-; intros Q; vm_compute in Q; discriminate Q). }
  exists (np_params 1 d false). pose proof (np_up d) as E. destruct (np_run (np_params 1 d false) no_mem up_draws two_pop) as [[m|e| |] s'] eqn:R; try discriminate E. unfold np_x in E. cbn [fst snd] in E. injection E as E _. exists m, s'. split; [apply np_made_ex|]. split; [reflexivity|]. split; [reflexivity|]. rewrite E. split; [reflexivity|]. intros x y [<-|[<-|[]]] Hy; now apply D.
Qed.
Lemma np_x_ub o : np_x o = UB -> fst o = UB.
Proof. unfold np_x. destruct (fst o); try discriminate. reflexivity. Qed.
Lemma two_below x v : In x two_points -> In v x -> below_2p900 v.
Proof. intros [<-|[<-|[]]] [<-|[<-|[]]]; eexists; (split; [reflexivity|]); vm_compute; discriminate. Qed.
Lemma xy_below_l v : In v (p_lb xy_problem) -> below_2p900 v.
Proof. intros [<-|[<-|[]]]; eexists; (split; [reflexivity|]); vm_compute; discriminate. Qed.
Lemma xy_below_u v : In v (p_ub xy_problem) -> below_2p900 v.
Proof. intros [<-|[<-|[]]]; eexists; (split; [reflexivity|]); vm_compute; discriminate. Qed.
Lemma np_select_ex : np_select (@isort) NicheCount 2 [[Fin 3; Fin 3]; [Fin 1; Fin 2]; [Fin 2; Fin 1]; [Fin 4; Fin 0]] = Ok [1; 2] \/ np_select (@isort) NicheCount 2 [[Fin 3; Fin 3]; [Fin 1; Fin 2]; [Fin 2; Fin 1]; [Fin 4; Fin 0]] = Ok [1; 3] \/ np_select (@isort) NicheCount 2 [[Fin 3; Fin 3]; [Fin 1; Fin 2]; [Fin 2; Fin 1]; [Fin 4; Fin 0]] = Ok [3; 1].
Proof. vm_compute. auto. Qed.
Lemma np_not_saved : forall old mold (B : Type) (b : option B), np_memory old = false -> exists a m, np_made a /\ np_memory a = true /\ nm_x m <> nm_x mold /\ let '(a', m', b') := nspso_load old mold (nspso_save a m b) in np_memory a' = false /\ m' = mold /\ b' = b.
Proof.
  intros old mold B b H. exists (np_params 1 Crowding true). destruct (nm_x mold) as [|x l] eqn:E.
  - exists (mknspmem two_points two_points two_points). split; [apply np_made_ex|]. split; [reflexivity|]. split; [discriminate|]. cbn. auto.
  - exists no_mem. split; [apply np_made_ex|]. split; [reflexivity|]. split; [discriminate|]. cbn. auto.
Qed.
Definition line_points : list (list dbl) := [[Fin 0; Fin 2]; [Fin 0; Fin 1]; [Fin 0; Fin 0]].
Lemma np_maxmin : np_select (@isort) MaxMin 2 line_points = Ok [2; 0] /\ dom_idx line_points 1 0.
Proof.
  split; [vm_compute; reflexivity|]. exists [Fin 0; Fin 1], [Fin 0; Fin 2]. split; [reflexivity|]. split; [reflexivity|]. split; [reflexivity|]. split; [|exists 1, (Fin 1), (Fin 2); repeat split; vm_compute; reflexivity].
  intros [|[|[|i]]] x y; cbn; intros E1 E2; try discriminate; injection E1 as <-; injection E2 as <-; intros Q; vm_compute in Q; discriminate Q.
Qed.
Lemma line_uniform : uniform line_points 2. Proof. intros x [<-|[<-|[<-|[]]]]; reflexivity. Qed.
Lemma line_leaders : np_leaders (@isort) pow_toy NicheCount 2 line_points line_points = Ok [2; 1]. Proof. vm_compute. reflexivity. Qed.
Lemma np_maxmin_loses : exists srt fit sel i j, sort_contract srt /\ uniform fit 2 /\ np_select srt MaxMin 2 fit = Ok sel /\ In i sel /\ ~ In j sel /\ dom_idx fit j i.
Proof.
  exists (@isort), line_points, [2; 0], 0, 1. split; [exact isort_c|]. split; [exact line_uniform|]. split; [exact (proj1 np_maxmin)|]. split; [right; left; reflexivity|]. split; [intros [E|[E|[]]]; discriminate E|exact (proj2 np_maxmin)].
Qed.
