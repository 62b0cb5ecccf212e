(** Runs of xnes on small populations. *)
From Coq Require Import List Bool Arith ZArith Lia.
From Verif Require Import Dbl DblFacts Outcome StdSort BaseFacts Problem SpecProblem Rng GenericFacts3 SpecGeneric SpecGenetic Population SpecPopulation Algo SpecAlgo SpecNsga2 AlgoFacts AlgEigen AlgEigenFacts AlgMem AlgCmaes SpecCmaes AlgCmaesFacts AlgXnes SpecXnes AlgExamples CmaesExamples.
Import ListNotations.

Definition xn_example (gen : nat) (sigma0 : dbl) (mem force : bool) : xnes_params := mkxnes gen m1 m1 m1 sigma0 dzero dzero mem force.
Definition xmem0 (sigma0 : dbl) : xmem := mkxmem sigma0 (zeros 1) (ident 1).
Lemma xn_example_ctor gen mem force : xnes_ctor (xn_example gen half mem force) = Ok (xmem0 half).
Proof. vm_compute. reflexivity. Qed.
Lemma xn_example_nan gen mem force : xnes_ctor (xn_example gen NaN mem force) = Ok (xmem0 NaN).
Proof. vm_compute. reflexivity. Qed.
Lemma xmem0_ready s : xnes_ready (xmem0 s).
Proof. exists 1. split; [reflexivity|apply square_sq, ident_sq]. Qed.
Lemma suits4 {P} (s : pop P) : es_suits 5 s -> es_suits 4 s.
Proof. intros (A & B & C & D & E). split; [exact A|]. split; [exact B|]. split; [exact C|]. split; [lia|exact E]. Qed.

(** One variable in [4, 5] *)
Definition one_udp (f : list dbl -> outcome (list dbl)) : udp :=
  {| u_fitness := f; u_lb := [d_of_Z 4]; u_ub := [d_of_Z 5]; u_nobj := 1; u_nec := 0; u_nic := 0; u_nix := 0;
     u_batch := None; u_gradient := None; u_gs := None; u_hessians := None; u_hs := None; u_set_seed := false; u_ts := TSbasic |}.
Definition one_problem (f : list dbl -> outcome (list dbl)) : problem :=
  {| p_udp := one_udp f; p_lb := [d_of_Z 4]; p_ub := [d_of_Z 5]; p_nobj := 1; p_nec := 0; p_nic := 0; p_nix := 0; p_ctol := []; p_gs_dim := 1; p_hs_dim := [1]%Z |}.
Lemma one_problem_obj f : prob_obj (one_problem f).
Proof. apply (obj_new (one_udp f)). vm_compute. reflexivity. Qed.
(** Never NaN; NaN below 2 *)
Definition fit_zero (x : list dbl) : outcome (list dbl) := match x with [Fin z] => Ok [Fin z] | _ => Ok [dzero] end.
Definition fit_nan (x : list dbl) : outcome (list dbl) := match x with [a] => Ok [if dlt a (d_of_Z 2) then NaN else a] | _ => Ok [dzero] end.
Definition one_pop (f : list dbl -> outcome (list dbl)) : pop (list Z) :=
  {| po_prob := one_problem f; po_fevals := 4; po_id := [1; 2; 3; 4]%Z; po_x := [[d_of_Z 5]; [d_of_Z 4]; [d_of_Z 5]; [d_of_Z 5]]; po_f := [[d_of_Z 5]; [d_of_Z 4]; [d_of_Z 5]; [d_of_Z 5]];
     po_cx := [d_of_Z 4]; po_cf := [d_of_Z 4]; po_rng := [] |}.
Lemma one_suits f : es_suits 4 (one_pop f).
Proof.
  split; [|split; [reflexivity|split; [reflexivity|split; [apply le_n|intros b [[<-|[]]|[<-|[]]]; vm_compute; reflexivity]]]].
  split; [exact (one_problem_obj f)|]. split; [|right; split; reflexivity]. split; [reflexivity|]. split; [reflexivity|].
  split; [apply (proj1 (Forall_forall (fun x => length x = 1) (po_x (one_pop f)))); repeat constructor|].
  split; [apply (proj1 (Forall_forall (fun x => length x = 1) (po_f (one_pop f)))); repeat constructor|]. intros i H. cbn [one_pop po_id In] in H. lia.
Qed.
Lemma one_es f : (forall x, f x <> UB /\ f x <> NoFuel) -> es_problem sto_reseed None (one_problem f).
Proof. intros D ks H. rewrite (H eq_refl). cbn [fold_left]. split; [exact (one_problem_obj f)|]. repeat (split; [reflexivity|]). intros x _. apply D. Qed.
Lemma zero_defined x : fit_zero x <> UB /\ fit_zero x <> NoFuel.
Proof. unfold fit_zero. destruct x as [|[| | |] [|]]; split; discriminate. Qed.
Lemma nan_defined x : fit_nan x <> UB /\ fit_nan x <> NoFuel.
Proof. unfold fit_nan. destruct x as [|? [|]]; split; discriminate. Qed.
Lemma zero_never_nan : never_nan sto_reseed (one_problem fit_zero).
Proof.
  intros ks H x f (_ & _ & E). rewrite (H eq_refl) in E. cbn [fold_left one_problem p_udp one_udp u_fitness] in E. unfold fit_zero in E. destruct x as [|[| | |] [|]]; injection E as <-; discriminate.
Qed.
Definition xn_run (a : xnes_params) (g : list Z) (s : pop (list Z)) := xnes_evolve stream_rng (@isort) toy sto_reseed a ((g, xmem0 (xn_sigma0 a)), s).
Definition xxs_of {P} (o : outcome unit * ((list Z * xmem) * pop P)) : list (list dbl) := match fst o with Ok _ => po_x (snd (snd o)) | _ => [] end.
Lemma xn_ub : fst (xn_run (xn_example 1 half true false) [1; 2; 3; 4]%Z (one_pop fit_nan)) = UB.
Proof. vm_compute. reflexivity. Qed.
Lemma xn_first : xxs_of (xn_run (xn_example 1 half true false) [] (one_pop fit_zero)) = repeat [dzero] 4 /\ xxs_of (xn_run (xn_example 1 half false false) [] (one_pop fit_zero)) = repeat [d_of_Z 4] 4.
Proof. split; vm_compute; reflexivity. Qed.
Lemma xn_nan : xxs_of (xn_run (xn_example 1 NaN false true) [] alg_pop) = repeat [NaN; NaN] 5.
Proof. vm_compute. reflexivity. Qed.
Lemma xn_two : xxs_of (xn_run (xn_example 2 half false true) [1; 2; 0; 3]%Z (one_pop fit_zero)) <> [].
Proof. vm_compute. discriminate. Qed.
