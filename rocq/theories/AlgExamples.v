(** A problem and a population for the examples of the algorithms. *)
From Coq Require Import List Bool Arith ZArith Lia.
From Verif Require Import Dbl DblFacts IntDbl Outcome BaseFacts StdSort Problem SpecProblem ProblemFacts Rng Generic SpecGeneric GenericFacts3 Population SpecPopulation PopulationFacts PopulationFacts3 Algo SpecAlgo AlgoFacts AlgoFacts2.
Import ListNotations.

(** Two variables in [0,10u] x [0,10u], u = 2^-1074, and a given fitness function. *)
Definition box_udp (nobj nec nic : nat) (f : list dbl -> outcome (list dbl)) : udp :=
  {| u_fitness := f; u_lb := [Fin 0; Fin 0]; u_ub := [Fin 10; Fin 10]; u_nobj := nobj; u_nec := nec; u_nic := nic; u_nix := 0;
     u_batch := None; u_gradient := None; u_gs := None; u_hessians := None; u_hs := None; u_set_seed := false; u_ts := TSbasic |}.
(** f(x) = x0 + x1 *)
Definition alg_fit (x : list dbl) : outcome (list dbl) := match x with [a; b] => Ok [dadd a b] | _ => Throw (UserExn 1) end.
Definition alg_problem : problem :=
  {| p_udp := box_udp 1 0 0 alg_fit; p_lb := [Fin 0; Fin 0]; p_ub := [Fin 10; Fin 10]; p_nobj := 1; p_nec := 0; p_nic := 0; p_nix := 0; p_ctol := []; p_gs_dim := 2; p_hs_dim := [3]%Z |}.
Lemma alg_problem_gen f : construct (box_udp 1 0 0 f) =
  Ok {| p_udp := box_udp 1 0 0 f; p_lb := [Fin 0; Fin 0]; p_ub := [Fin 10; Fin 10]; p_nobj := 1; p_nec := 0; p_nic := 0; p_nix := 0; p_ctol := []; p_gs_dim := 2; p_hs_dim := [3]%Z |}.
Proof. vm_compute. reflexivity. Qed.
Lemma alg_problem_obj : prob_obj alg_problem.
Proof. exact (obj_new _ _ (alg_problem_gen alg_fit)). Qed.
Lemma alg_problem_defined : fitness_defined alg_problem.
Proof. intros x _. cbn [alg_problem p_udp box_udp u_fitness]. unfold alg_fit. destruct x as [|a [|b [|c x]]]; split; discriminate. Qed.
Lemma alg_problem_drawable : drawable alg_problem.
Proof.
  intros [|[|i]] l u A B; try (cbn in A; destruct i; discriminate); inversion A; inversion B; subst; (split; [reflexivity|]); (split; [reflexivity|]); vm_compute; reflexivity.
Qed.
Definition alg_pop : pop (list Z) :=
  {| po_prob := alg_problem; po_fevals := 5; po_id := [1; 2; 3; 4; 5]%Z;
     po_x := [[Fin 1; Fin 9]; [Fin 2; Fin 2]; [Fin 3; Fin 5]; [Fin 8; Fin 4]; [Fin 6; Fin 6]];
     po_f := [[Fin 10]; [Fin 4]; [Fin 8]; [Fin 12]; [Fin 12]]; po_cx := [Fin 2; Fin 2]; po_cf := [Fin 4]; po_rng := [] |}.
Lemma alg_pop_valid : valid_pop alg_pop.
Proof.
  split; [exact alg_problem_obj|]. split.
  - split; [reflexivity|]. split; [reflexivity|]. split; [apply (proj1 (Forall_forall (fun x => length x = 2) (po_x alg_pop))); repeat constructor|].
    split; [apply (proj1 (Forall_forall (fun x => length x = 1) (po_f alg_pop))); repeat constructor|].
    intros i H. cbn [alg_pop po_id In] in H. lia.
  - right. split; reflexivity.
Qed.
Lemma box2 (l0 l1 u0 u1 a b : dbl) : within l0 u0 a -> within l1 u1 b -> in_box [l0; l1] [u0; u1] [a; b].
Proof.
  intros H1 H2. split; [reflexivity|]. split; [reflexivity|]. intros [|[|i]] l u v A B C; cbn in A, B, C; [congruence|congruence|destruct i; discriminate].
Qed.
Lemma alg_pop_in_box : forall x, In x (po_x alg_pop) -> in_box (p_lb alg_problem) (p_ub alg_problem) x.
Proof.
  apply (proj1 (Forall_forall (in_box (p_lb alg_problem) (p_ub alg_problem)) (po_x alg_pop))).
  repeat (apply Forall_cons; [apply box2; split; vm_compute; reflexivity|]). apply Forall_nil.
Qed.
Lemma alg_problem_no_fail e : ~ fails alg_problem e.
Proof.
  intros [(x & L & H)|[_ H]]; [|exact (H alg_problem_drawable)]. destruct x as [|a [|b [|c x]]]; try discriminate L.
  unfold fitness in H. cbn [alg_problem p_udp box_udp u_fitness alg_fit] in H. vm_compute in H. discriminate H.
Qed.
Lemma alg_problem_plain : plain_single alg_problem.
Proof. repeat split. Qed.
Lemma alg_problem_below : Forall below_2p1019 (p_lb alg_problem) /\ Forall below_2p1019 (p_ub alg_problem).
Proof.
  assert (H : forall z, (Z.abs z <= 10)%Z -> below_2p1019 (Fin z)).
  { intros z Hz. exists z. split; [reflexivity|]. eapply Z.le_trans; [exact Hz|]. apply (Z.le_trans _ (2 ^ 4)); [discriminate|]. apply Z.pow_le_mono_r; lia. }
  split; repeat (apply Forall_cons; [apply H; lia|]); apply Forall_nil.
Qed.
Lemma sea_example : best_at alg_pop 1 /\ worst_idx (@isort) alg_pop = Ok 3.
Proof.
  split; [|vm_compute; reflexivity]. exists [Fin 4]. split; [reflexivity|]. intros j fj H. apply nth_error_In in H. revert fj H.
  apply (proj1 (Forall_forall (fun fj => dle (obj [Fin 4]) (obj fj) = true) (po_f alg_pop))). repeat constructor.
Qed.

(** A stochastic problem: f(x) = seed + x0 *)
Definition sto_problem (k : Z) : problem :=
  {| p_udp := {| u_fitness := fun x => match x with a :: _ => Ok [dadd (Fin k) a] | _ => Throw (UserExn 1) end; u_lb := [Fin 0; Fin 0]; u_ub := [Fin 10; Fin 10]; u_nobj := 1; u_nec := 0; u_nic := 0; u_nix := 0;
     u_batch := None; u_gradient := None; u_gs := None; u_hessians := None; u_hs := None; u_set_seed := true; u_ts := TSbasic |};
     p_lb := [Fin 0; Fin 0]; p_ub := [Fin 10; Fin 10]; p_nobj := 1; p_nec := 0; p_nic := 0; p_nix := 0; p_ctol := []; p_gs_dim := 2; p_hs_dim := [3]%Z |}.
Definition sto_reseed (p : problem) (k : Z) : problem := sto_problem k.
Lemma sto_gen f : construct {| u_fitness := f; u_lb := [Fin 0; Fin 0]; u_ub := [Fin 10; Fin 10]; u_nobj := 1; u_nec := 0; u_nic := 0; u_nix := 0;
     u_batch := None; u_gradient := None; u_gs := None; u_hessians := None; u_hs := None; u_set_seed := true; u_ts := TSbasic |} =
  Ok {| p_udp := {| u_fitness := f; u_lb := [Fin 0; Fin 0]; u_ub := [Fin 10; Fin 10]; u_nobj := 1; u_nec := 0; u_nic := 0; u_nix := 0;
     u_batch := None; u_gradient := None; u_gs := None; u_hessians := None; u_hs := None; u_set_seed := true; u_ts := TSbasic |};
     p_lb := [Fin 0; Fin 0]; p_ub := [Fin 10; Fin 10]; p_nobj := 1; p_nec := 0; p_nic := 0; p_nix := 0; p_ctol := []; p_gs_dim := 2; p_hs_dim := [3]%Z |}.
Proof. vm_compute. reflexivity. Qed.
Lemma sto_fine : stays_fine sto_reseed (sto_problem 0).
Proof.
  assert (H : forall k, prob_obj (sto_problem k) /\ fitness_defined (sto_problem k)).
  { intros k. split; [exact (obj_new _ _ (sto_gen _))|]. intros x _. cbn [sto_problem p_udp u_fitness]. destruct x; split; discriminate. }
  intros ks. cbv zeta. assert (E : exists k, fold_left sto_reseed ks (sto_problem 0) = sto_problem k).
  { induction ks as [|k ks IH] using rev_ind; [exists 0%Z; reflexivity|]. exists k. rewrite fold_left_app. reflexivity. }
  destruct E as (k & ->). destruct (H k) as [H1 H2]. split; [exact H1|]. repeat (split; [reflexivity|]). exact H2.
Qed.
Lemma sto_differs : sto_problem 3 <> sto_problem 4.
Proof.
  intros E. assert (F : u_fitness (p_udp (sto_problem 3)) [Fin 0] = u_fitness (p_udp (sto_problem 4)) [Fin 0]) by (now rewrite E). vm_compute in F. discriminate F.
Qed.
