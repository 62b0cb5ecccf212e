(** Meta-problems: the outer problem, and concrete problems. *)
From Coq Require Import List Bool Arith ZArith Lia.
From Verif Require Import Dbl DblFacts IntDbl Outcome BaseFacts Constrained SpecConstrained MultiObj Problem Bfe SpecProblem ProblemFacts2 SpecGeneric GenericFacts MetaProblems SpecMeta MetaFacts MetaFacts2 MetaFacts3 MetaFacts4.
Import ListNotations.

Lemma translate_outer ck p t u q c x : real_problem p -> translate_udp ck p t = Ok u -> construct u = Ok q ->
  get_nx q = get_nx p /\ get_nf q = get_nf p /\ p_nobj q = p_nobj p /\ p_nec q = p_nec p /\ p_nic q = p_nic p /\ p_nix q = p_nix p /\
  (length x <> get_nx p -> fst (fitness q c x) = Throw InvalidArgument) /\
  (length x = get_nx p -> exists y, shifted dsub x t y /\ fst (fitness q c x) = fst (fitness p 0 y)).
Proof.
  intros R T C. destruct (translate_udp_inv _ _ _ _ T) as (Lt & _). destruct (proj2 (translate_construct ck p t R) Lt) as (u' & T' & (S1 & S2 & _) & _ & N1 & N2 & N3 & N4 & _). rewrite T in T'. injection T' as <-.
  destruct (construct_spec u) as [(q' & E & G & B)|[E _]]; [|congruence]. rewrite C in E. injection E as <-.
  destruct B as (B0 & B1 & B2 & B3 & B4 & B5 & B6 & B7 & B8 & _). destruct (real_bounds p R) as (L1 & L2 & _ & _ & _ & NF).
  assert (NX : get_nx q = get_nx p) by lia. assert (NQ : get_nf q = get_nf p) by lia.
  repeat (split; [congruence|]). split.
  - intros L. destruct (fitness q c x) as [r c'] eqn:EF. destruct (fitness_spec q c x r c' EF) as (_ & K & _). cbn [fst]. apply K. congruence.
  - intros L. destruct (translate_evaluate ck p t u x T L) as (y & Sy & H). exists y. split; [exact Sy|]. destruct (H 0%Z) as (EV & _).
    unfold fitness at 1, prob_check_dv, prob_check_fv, throw_if. rewrite B0, NX, L, Nat.eqb_refl. cbn [negb bind]. rewrite EV.
    destruct (fst (fitness p 0 y)) as [f| | |] eqn:Ef; try reflexivity. cbn [bind]. destruct (fitness_len _ _ _ _ Ef) as [Lf _]. rewrite NQ, Lf, Nat.eqb_refl. reflexivity.
Qed.

(** A problem with two objectives, an equality and an inequality constraint. *)
Definition ex_con : udp :=
  {| u_fitness := fun x => match x with [a] => Ok [a; Fin 3; a; Fin (-1)] | _ => Throw (UserExn 1) end; u_lb := [Fin (-8)]; u_ub := [Fin 8];
     u_nobj := 2; u_nec := 1; u_nic := 1; u_nix := 0;
     u_batch := Some (fun xs => Ok (flat_map (fun a => [a; Fin 3; a; Fin (-1)]) xs));
     u_gradient := None; u_gs := None; u_hessians := None; u_hs := None; u_set_seed := false; u_ts := TSnone |}.
(** And one without constraints; it rejects negative arguments. *)
Definition ex_bi : udp :=
  {| u_fitness := fun x => match x with [a] => if dlt a dzero then Throw (UserExn 2) else Ok [a; dsub (Fin 9) a] | _ => Throw (UserExn 1) end; u_lb := [Fin (-8)]; u_ub := [Fin 8];
     u_nobj := 2; u_nec := 0; u_nic := 0; u_nix := 0; u_batch := None;
     u_gradient := None; u_gs := None; u_hessians := None; u_hs := None; u_set_seed := false; u_ts := TSnone |}.
Definition ex_con_p : problem := {| p_udp := ex_con; p_lb := [Fin (-8)]; p_ub := [Fin 8]; p_nobj := 2; p_nec := 1; p_nic := 1; p_nix := 0; p_ctol := [dzero; dzero]; p_gs_dim := 4; p_hs_dim := [1; 1; 1; 1]%Z |}.
Definition ex_bi_p : problem := {| p_udp := ex_bi; p_lb := [Fin (-8)]; p_ub := [Fin 8]; p_nobj := 2; p_nec := 0; p_nic := 0; p_nix := 0; p_ctol := []; p_gs_dim := 2; p_hs_dim := [1; 1]%Z |}.
Lemma ex_con_real : real_problem ex_con_p.
Proof. exists ex_con, ex_con_p. split; [vm_compute; reflexivity|left; reflexivity]. Qed.
Lemma ex_bi_gen f : construct {| u_fitness := f; u_lb := [Fin (-8)]; u_ub := [Fin 8]; u_nobj := 2; u_nec := 0; u_nic := 0; u_nix := 0; u_batch := None;
     u_gradient := None; u_gs := None; u_hessians := None; u_hs := None; u_set_seed := false; u_ts := TSnone |} =
  Ok {| p_udp := {| u_fitness := f; u_lb := [Fin (-8)]; u_ub := [Fin 8]; u_nobj := 2; u_nec := 0; u_nic := 0; u_nix := 0; u_batch := None;
     u_gradient := None; u_gs := None; u_hessians := None; u_hs := None; u_set_seed := false; u_ts := TSnone |};
     p_lb := [Fin (-8)]; p_ub := [Fin 8]; p_nobj := 2; p_nec := 0; p_nic := 0; p_nix := 0; p_ctol := []; p_gs_dim := 2; p_hs_dim := [1; 1]%Z |}.
Proof. vm_compute. reflexivity. Qed.
Lemma ex_bi_real : real_problem ex_bi_p.
Proof. exists ex_bi, ex_bi_p. split; [exact (ex_bi_gen _)|left; reflexivity]. Qed.
Lemma ex_con_batch : exists b, u_batch (p_udp ex_con_p) = Some b /\ batch_consistent ex_con_p b.
Proof.
  eexists. split; [reflexivity|]. intros xs fs F H. cbv beta. f_equal. revert F. induction H as [|x v xs fs E H IH]; intros F; [reflexivity|]. inversion F as [|? ? Lx F']; subst. cbn in Lx.
  destruct x as [|a [|b x]]; try discriminate. cbn in E. injection E as <-. cbn [concat app flat_map]. rewrite IH by exact F'. reflexivity.
Qed.
Lemma ex_con_tol : finite_all (p_ctol ex_con_p).
Proof. repeat constructor. Qed.
Lemma ex_con_args m : m = Death \/ m = Kuri \/ m = IgnoreC \/ m = IgnoreO -> unconstrain_args ex_con_p m [].
Proof. intros [->|[->|[->| ->]]]; (split; [discriminate|]; split; [discriminate|reflexivity]). Qed.
Lemma ex_con_feasible : feasible_f ex_con_p [dzero; Fin 3; dzero; Fin (-1)].
Proof. intros [|[|i]] H; [eexists; eexists; split; [reflexivity|]; split; reflexivity|eexists; eexists; split; [reflexivity|]; split; reflexivity|cbn in H; lia]. Qed.
Lemma ex_con_infeasible : ~ feasible_f ex_con_p [Fin 1; Fin 3; Fin 1; Fin (-1)].
Proof. intros H. destruct (H 0) as (c & t & E1 & E2 & W); [cbn; lia|]. injection E1 as <-. injection E2 as <-. discriminate. Qed.
Lemma ignore_o_underflow : exists p u x f, real_problem p /\ unconstrain_udp p IgnoreO [] = Ok u /\ fst (fitness p 0 x) = Ok f /\ ~ feasible_f p f /\ u_fitness u x = Ok [dzero].
Proof.
  exists ex_con_p. eexists. exists [Fin 1], [Fin 1; Fin 3; Fin 1; Fin (-1)]. split; [exact ex_con_real|]. split; [reflexivity|]. split; [reflexivity|]. split; [exact ex_con_infeasible|].
  vm_compute. reflexivity.
Qed.
Lemma batch_ub : exists p u g x v, real_problem p /\ unconstrain_udp p IgnoreO [] = Ok u /\ u_fitness u x = Ok v /\ u_batch u = Some g /\
  (exists b, u_batch (p_udp p) = Some b /\ batch_consistent p b) /\ g x = UB.
Proof.
  exists ex_con_p. do 2 eexists. exists [Fin 1], [dzero]. split; [exact ex_con_real|]. split; [reflexivity|]. split; [vm_compute; reflexivity|]. split; [reflexivity|]. split; [exact ex_con_batch|]. vm_compute. reflexivity.
Qed.
Lemma zero_weight_args : decompose_args ex_bi_p [done; dzero] [dzero; dzero] Tchebycheff.
Proof.
  split; [cbn; lia|]. split; [reflexivity|]. split; [discriminate|]. split; [reflexivity|]. split; [reflexivity|]. split; [intros x [<-|[<-|[]]]; split; reflexivity|]. split; [intros x [<-|[<-|[]]]; reflexivity|]. vm_compute. reflexivity.
Qed.
Lemma zero_weight : exists p w z m, real_problem p /\ decompose_check p w z m = Ok tt /\ In dzero w.
Proof. exists ex_bi_p, [done; dzero], [dzero; dzero], Tchebycheff. split; [exact ex_bi_real|]. split; [apply decompose_accepts, zero_weight_args|right; left; reflexivity]. Qed.
