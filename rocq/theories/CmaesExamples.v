(** Runs of cmaes and xnes on small populations. *)
From Coq Require Import List Bool Arith ZArith Lia.
From Verif Require Import Dbl DblFacts Outcome StdSort BaseFacts Problem SpecProblem Rng GenericFacts3 SpecGeneric SpecGenetic Population SpecPopulation Algo SpecAlgo SpecNsga2 AlgoFacts AlgEigen AlgEigenFacts AlgMem AlgCmaes SpecCmaes AlgCmaesFacts AlgExamples.
Import ListNotations.

(** Sums from the left; every matrix is taken to be diagonal *)
Definition toy : eigen :=
  mkeigen (fun u v => fold_left dadd (map2 dmul u v) dzero) (fun v => fold_left dadd v dzero)
    (fun M => Some (ident (length M), map (fun i => nth i (nth i M []) NaN) (seq 0 (length M)))) (fun M => M) (fun x => x) (fun x => x) (fun x _ => x).
Lemma toy_contract : eigen_contract toy.
Proof.
  split; [|auto]. intros n M V l (L & _) E. cbn [toy e_eigh] in E. injection E as <- <-. rewrite L. split; [apply square_sq, ident_sq|]. now rewrite map_length, seq_length.
Qed.
Definition half : dbl := ddiv (d_of_Z 1) (d_of_Z 2).
Definition m1 : dbl := d_of_Z (-1).
Definition cm_example (gen : nat) (sigma0 : dbl) (mem force : bool) : cmaes_params := mkcmaes gen m1 m1 m1 m1 sigma0 dzero dzero mem force.
Definition cmem0 (sigma0 : dbl) : cmem := mkcmem sigma0 (zeros 1) [] (ident 1) (ident 1) (ident 1) (ident 1) (zeros 1) (zeros 1) 0 0.
Lemma cm_example_ctor gen s mem force : cmaes_ctor (cm_example gen s mem force) = Ok (cmem0 s).
Proof. vm_compute. reflexivity. Qed.
Lemma alg_suits : es_suits 5 alg_pop.
Proof.
  split; [exact alg_pop_valid|]. split; [reflexivity|]. split; [reflexivity|]. split; [apply le_n|]. intros b [[<-|[<-|[]]]|[<-|[<-|[]]]]; reflexivity.
Qed.
Lemma alg_es : es_problem sto_reseed None alg_problem.
Proof. intros ks H. rewrite (H eq_refl). cbn [fold_left]. split; [exact alg_problem_obj|]. repeat (split; [reflexivity|]). exact alg_problem_defined. Qed.
Lemma sto_es : es_problem sto_reseed None (sto_problem 0).
Proof. intros ks _. destruct (sto_fine ks) as (A1 & A2 & A3 & A4 & A5 & A6 & A7 & A8). cbv zeta. repeat (split; [assumption|]). exact A8. Qed.
Lemma cmem0_ready s : cmaes_ready (cmem0 s).
Proof. exists 1. split; [intros v []|]. repeat (split; [first [reflexivity|apply square_sq, ident_sq]|]). reflexivity. Qed.

(** A box of width 5 with an integer variable, and a population of integer points *)
Definition int_udp : udp :=
  {| u_fitness := alg_fit; u_lb := [d_of_Z 0; d_of_Z 0]; u_ub := [d_of_Z 5; d_of_Z 5]; u_nobj := 1; u_nec := 0; u_nic := 0; u_nix := 1;
     u_batch := None; u_gradient := None; u_gs := None; u_hessians := None; u_hs := None; u_set_seed := false; u_ts := TSbasic |}.
Definition int_problem : problem :=
  {| p_udp := int_udp; p_lb := [d_of_Z 0; d_of_Z 0]; p_ub := [d_of_Z 5; d_of_Z 5]; p_nobj := 1; p_nec := 0; p_nic := 0; p_nix := 1; p_ctol := []; p_gs_dim := 2; p_hs_dim := [3]%Z |}.
Lemma int_problem_obj : prob_obj int_problem.
Proof.
  apply (obj_new int_udp). unfold int_udp, int_problem. remember (d_of_Z 0) as a eqn:Ea. remember (d_of_Z 5) as b eqn:Eb.
  transitivity (construct {| u_fitness := alg_fit; u_lb := [a; a]; u_ub := [b; b]; u_nobj := 1; u_nec := 0; u_nic := 0; u_nix := 1;
     u_batch := None; u_gradient := None; u_gs := None; u_hessians := None; u_hs := None; u_set_seed := false; u_ts := TSbasic |}); [reflexivity|]. rewrite Ea, Eb. vm_compute. reflexivity.
Qed.
Definition int_pop : pop (list Z) :=
  {| po_prob := int_problem; po_fevals := 5; po_id := [1; 2; 3; 4; 5]%Z;
     po_x := [[d_of_Z 1; d_of_Z 0]; [d_of_Z 2; d_of_Z 2]; [d_of_Z 3; d_of_Z 5]; [d_of_Z 4; d_of_Z 4]; [d_of_Z 3; d_of_Z 3]];
     po_f := [[d_of_Z 1]; [d_of_Z 4]; [d_of_Z 8]; [d_of_Z 8]; [d_of_Z 6]]; po_cx := [d_of_Z 1; d_of_Z 0]; po_cf := [d_of_Z 1]; po_rng := [] |}.
Lemma int_suits : es_suits 5 int_pop.
Proof.
  split; [|split; [reflexivity|split; [reflexivity|split; [apply le_n|intros b [[<-|[<-|[]]]|[<-|[<-|[]]]]; vm_compute; reflexivity]]]].
  split; [exact int_problem_obj|]. split; [|right; split; reflexivity]. split; [reflexivity|]. split; [reflexivity|].
  split; [apply (proj1 (Forall_forall (fun x => length x = 2) (po_x int_pop))); repeat constructor|].
  split; [apply (proj1 (Forall_forall (fun x => length x = 1) (po_f int_pop))); repeat constructor|]. intros i H. cbn [int_pop po_id In] in H. lia.
Qed.
Definition cm_run (a : cmaes_params) (g : list Z) (s : pop (list Z)) := cmaes_evolve stream_rng (@isort) toy sto_reseed a None ((g, cmem0 (cm_sigma0 a)), s).
Definition xs_of {P} (o : outcome unit * ((list Z * cmem) * pop P)) : list (list dbl) := match fst o with Ok _ => po_x (snd (snd o)) | _ => [] end.
Lemma cm_integer : xs_of (cm_run (cm_example 1 half false true) [0; 1; 0; 1; 0; 1; 0; 1; 0; 1]%Z int_pop) = repeat [d_of_Z 1; ddiv (d_of_Z 5) (d_of_Z 2)] 5.
Proof. vm_compute. reflexivity. Qed.
Lemma cm_nan : xs_of (cm_run (cm_example 1 NaN false true) [] alg_pop) = repeat [NaN; NaN] 5.
Proof. vm_compute. reflexivity. Qed.
Lemma cm_two : xs_of (cm_run (cm_example 2 half true true) [1; 0; 0; 1; 2; 0; 0; 2; 1; 1]%Z int_pop) <> [] /\ xs_of (cm_run (cm_example 2 half true true) [1; 0; 0; 1; 2; 0; 0; 2; 1; 1]%Z int_pop) <> po_x int_pop.
Proof. split; vm_compute; discriminate. Qed.
(** Four individuals: too few *)
Definition few_pop : pop (list Z) :=
  {| po_prob := alg_problem; po_fevals := 4; po_id := [1; 2; 3; 4]%Z; po_x := repeat [Fin 1; Fin 9] 4; po_f := repeat [Fin 10] 4; po_cx := [Fin 1; Fin 9]; po_cf := [Fin 10]; po_rng := [] |}.
