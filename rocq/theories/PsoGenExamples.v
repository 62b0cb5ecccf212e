From Coq Require Import List Bool Arith ZArith Lia.
From Verif Require Import Dbl DblFacts Outcome StdSort Compare SpecOrder Problem SpecProblem Rng Generic SpecGeneric GenericFacts3 SpecGenetic GeneticOps Population SpecPopulation Algo SpecAlgo SpecNsga2 SpecCmaes AlgPso SpecPso AlgPsoFacts3 AlgPsoFacts4 AlgPsoGen SpecPsoGen AlgExamples CmaesExamples.
Import ListNotations.

(** gbest, canonical variant *)
Definition pg_params (gen ntype : nat) (mem : bool) : pso_params := mkpso gen done done done done 5 ntype 4 mem.
Lemma pg_construct gen ntype mem : 1 <= ntype <= 4 -> pso_construct (pg_params gen ntype mem) = Ok tt.
Proof. intros H. apply params_construct; lia. Qed.
Lemma pg_valid gen ntype mem : 1 <= ntype <= 4 -> pso_valid (pg_params gen ntype mem).
Proof. intros H. apply params_valid; lia. Qed.
Definition pg_run (a : pso_params) (V0 : list (list dbl)) (g : list Z) (s : pop (list Z)) := pgen_evolve (@isort) stream_rng sto_reseed None a V0 (g, s).
Definition sto_two : pop (list Z) :=
  {| po_prob := sto_problem 0; po_fevals := 2; po_id := [1; 2]%Z; po_x := [[Fin 4; Fin 9]; [Fin 2; Fin 2]]; po_f := [[Fin 4]; [Fin 2]]; po_cx := []; po_cf := []; po_rng := [] |}.
Definition fs_of {P} (o : outcome (list (list dbl)) * (list Z * pop P)) : list (list dbl) := match fst o with Ok _ => po_f (snd (snd o)) | _ => [] end.
Definition xs_of' {P} (o : outcome (list (list dbl)) * (list Z * pop P)) : list (list dbl) := match fst o with Ok _ => po_x (snd (snd o)) | _ => [] end.

Lemma sto_two_valid : valid_pop sto_two.
Proof.
  split; [exact (proj1 (sto_es [] (fun _ => eq_refl)))|]. split; [|left; split; reflexivity]. split; [reflexivity|]. split; [reflexivity|]. split; [intros x [<-|[<-|[]]]; reflexivity|]. split; [intros x [<-|[<-|[]]]; reflexivity|].
  intros i H. cbn [sto_two po_id In] in H. lia.
Qed.
Lemma pg_example : xs_of' (pg_run (pg_params 2 1 false) [] [1; 0; 0; 1; 2; 0; 0; 2; 1; 1]%Z alg_pop) = [[Fin 10; Fin 0]; [Fin 2; Fin 2]; [Fin 0; Fin 0]; [Fin 0; Fin 0]; [Fin 6; Fin 6]] /\
  fs_of (pg_run (pg_params 2 1 false) [] [1; 0; 0; 1; 2; 0; 0; 2; 1; 1]%Z alg_pop) = [[Fin 10]; [Fin 4]; [Fin 0]; [Fin 0]; [Fin 12]].
Proof. vm_compute. split; reflexivity. Qed.
Lemma pg_sto : exists x y, xs_of' (pg_run (pg_params 2 1 false) [] [1; 0; 0; 1; 2; 0; 0; 2; 1; 1]%Z sto_two) = [x; y] /\ y <> [Fin 2; Fin 2].
Proof. vm_compute. eexists. eexists. split; [reflexivity|discriminate]. Qed.
Lemma pg_stale : fst (pg_run (pg_params 1 1 true) [[Fin 0]] [] (one_pop alg_fit)) = UB.
Proof. vm_compute. reflexivity. Qed.
Lemma pg_small : ~ ring_fits (pg_params 1 2 false) 1 /\ fst (pg_run (pg_params 1 2 false) [] [] (one_pop alg_fit)) = UB.
Proof. split; [intros H; specialize (H eq_refl); cbn in H; lia|]. vm_compute. reflexivity. Qed.
(** After a new seed the best point known to the swarm is the remembered one, but best_neighb is
    the present position. *)
Definition pg_swarm : swarm := mkswarm [[Fin 0; Fin 0]] [[Fin 5; Fin 5]] [[Fin 1; Fin 1]] [[Fin 1]] [Fin 1; Fin 1] [Fin 1] false [[]].
Definition sto_one : pop (list Z) :=
  {| po_prob := sto_problem 0; po_fevals := 1; po_id := [1]%Z; po_x := [[Fin 1; Fin 1]]; po_f := [[Fin 1]]; po_cx := []; po_cf := []; po_rng := [] |}.
Lemma pg_gbest : exists fs sw s' f, pgen_evaluate stream_rng sto_reseed None pg_swarm ([7]%Z, sto_one) = (Ok (fs, sw), s') /\ sw_lbX sw = [[Fin 1; Fin 1]] /\ sw_lbf sw = [[f]] /\
  evaluated (po_prob (snd s')) [Fin 1; Fin 1] [f] /\ sw_bn sw = [Fin 5; Fin 5] /\ evaluated (po_prob (snd s')) (sw_bn sw) (sw_bf sw) /\ better f (obj (sw_bf sw)).
Proof. vm_compute. do 4 eexists. split; [reflexivity|]. cbn. repeat split. Qed.
Lemma pg_memory (old : pso_params) : ps_memory old = false -> exists a, pso_construct a = Ok tt /\ ps_memory a = true /\ ps_memory (fst (pgen_load (B := unit) old (pgen_save a None))) = false.
Proof. intros H. exists (pg_params 1 1 true). split; [apply pg_construct; lia|]. split; [reflexivity|exact H]. Qed.
(** A batch evaluator *)
Fixpoint pairs_fit (f : list dbl -> outcome (list dbl)) (xs : list dbl) : outcome (list dbl) :=
  match xs with a :: b :: t => bind (f [a; b]) (fun v => bind (pairs_fit f t) (fun vs => Ok (v ++ vs))) | _ => Ok [] end.
Definition pg_bfe (p : problem) (xs : list dbl) : outcome (list dbl) := pairs_fit (u_fitness (p_udp p)) xs.
Lemma pg_bfe_faithful p : get_nx p = 2 -> faithful_bfe pg_bfe p.
Proof.
  intros N X F H. induction H as [|x f X F (Lx & Lf & E) _ IH]; [reflexivity|]. rewrite N in Lx. destruct x as [|a [|b [|c x]]]; try discriminate Lx. cbn [concat app]. unfold pg_bfe in *. cbn [pairs_fit]. rewrite E. cbn [bind]. rewrite IH. reflexivity.
Qed.
Lemma sto_es_bfe : es_problem sto_reseed (Some pg_bfe) (sto_problem 0).
Proof.
  intros ks H. destruct (sto_es ks H) as (A1 & A2 & A3 & A4 & A5 & A6 & _). cbv zeta. repeat (split; [assumption|]). assert (E : exists k, fold_left sto_reseed ks (sto_problem 0) = sto_problem k).
  { clear. induction ks as [|k ks IH] using rev_ind; [exists 0%Z; reflexivity|]. exists k. rewrite fold_left_app. reflexivity. }
  destruct E as (k & ->). split; [|now apply pg_bfe_faithful]. intros x Lx. destruct x as [|a [|b [|c x]]]; try discriminate Lx. exists [dadd (Fin k) a]. split; [reflexivity|]. split; reflexivity.
Qed.
Lemma pg_fits a : ps_ntype a <> 2 -> forall n, ring_fits a n.
Proof. intros H n E. contradiction. Qed.
