(** Worked examples and counterexamples for populations. *)
From Coq Require Import List Bool Arith ZArith Lia.
From Verif Require Import Dbl DblFacts Outcome BaseFacts StdSort Compare CompareFacts SpecOrder Constrained SpecConstrained Problem SpecProblem ProblemFacts3 Rng Generic SpecGeneric GenericFacts3
  Population SpecPopulation PopulationFacts PopulationFacts2 PopulationFacts3.
Import ListNotations.

(** One variable, f(x) = x, no constraints. *)
Definition pop_udp : udp :=
  {| u_fitness := fun x => match x with [Fin 9] => Throw (UserExn 3) | _ => Ok x end; u_lb := [Fin 0]; u_ub := [Fin 0]; u_nobj := 1; u_nec := 0; u_nic := 0; u_nix := 0;
     u_batch := None; u_gradient := None; u_gs := None; u_hessians := None; u_hs := None; u_set_seed := false; u_ts := TSbasic |}.
Definition pop_problem : problem :=
  {| p_udp := pop_udp; p_lb := [Fin 0]; p_ub := [Fin 0]; p_nobj := 1; p_nec := 0; p_nic := 0; p_nix := 0; p_ctol := []; p_gs_dim := 1; p_hs_dim := [1]%Z |}.
Lemma pop_problem_obj : prob_obj pop_problem.
Proof. apply (obj_new pop_udp). vm_compute. reflexivity. Qed.
(** One objective and one inequality constraint, f(x) = (x0, x1). *)
Definition popc_udp : udp :=
  {| u_fitness := fun x => Ok x; u_lb := [Fin 0; Fin 0]; u_ub := [Fin 0; Fin 0]; u_nobj := 1; u_nec := 0; u_nic := 1; u_nix := 0;
     u_batch := None; u_gradient := None; u_gs := None; u_hessians := None; u_hs := None; u_set_seed := false; u_ts := TSbasic |}.
Definition popc_problem : problem :=
  {| p_udp := popc_udp; p_lb := [Fin 0; Fin 0]; p_ub := [Fin 0; Fin 0]; p_nobj := 1; p_nec := 0; p_nic := 1; p_nix := 0; p_ctol := [Fin 0]; p_gs_dim := 4; p_hs_dim := [3; 3]%Z |}.
Lemma popc_problem_obj : prob_obj popc_problem.
Proof. apply (obj_new popc_udp). vm_compute. reflexivity. Qed.

Definition ex_ops : list pop_op := [PushBack [Fin 5]; PushBackXF [Fin 1] [NaN]; PushBack [Fin 9]; SetX 4 [Fin 1]; SetXF 0 [Fin 7] [Fin 7]; PushBack [Fin 6]; RandomDV].
Lemma ex_history : exists s tr, pop_run stream_rng (empty_pop pop_problem [11; 12; 13]%Z) ex_ops = (s, tr) /\
  map snd tr = [Ok tt; Ok tt; Throw (UserExn 3); Throw InvalidArgument; Ok tt; Ok tt; Ok tt] /\
  po_id s = [11; 12; 13]%Z /\ po_x s = [[Fin 7]; [Fin 1]; [Fin 6]] /\ po_f s = [[Fin 7]; [NaN]; [Fin 6]] /\ po_cx s = [Fin 5] /\ po_cf s = [Fin 5] /\ po_fevals s = 3%Z /\
  inserted pop_problem tr = [([Fin 5], [Fin 5]); ([Fin 1], [NaN]); ([Fin 7], [Fin 7]); ([Fin 6], [Fin 6])].
Proof.
  destruct (pop_run stream_rng (empty_pop pop_problem [11; 12; 13]%Z) ex_ops) as [s tr] eqn:E. exists s, tr. split; [reflexivity|]. vm_compute in E. inversion E; subst s tr. repeat split.
Qed.
Lemma ex_history_c : exists s tr, pop_run stream_rng (empty_pop popc_problem [11; 12]%Z) [PushBack [Fin 5; Fin (-1)]; PushBack [Fin 3; Fin (-1)]; SetXF 1 [Fin 4; Fin 0] [Fin 4; Fin 0]] = (s, tr) /\
  po_cx s = [Fin 3; Fin (-1)] /\ (forall q, In q (inserted popc_problem tr) -> fc_lt 0 [Fin 0] (snd q) (snd q) = false).
Proof.
  match goal with |- context [pop_run ?a ?b ?c] => destruct (pop_run a b c) as [s tr] eqn:E end. exists s, tr. split; [reflexivity|]. vm_compute in E. inversion E; subst s tr.
  split; [reflexivity|]. intros q Hq. cbn [inserted puts p_udp popc_problem u_fitness popc_udp app] in Hq.
  repeat (destruct Hq as [<-|Hq]; [vm_compute; reflexivity|]). destruct Hq.
Qed.

(** set_x with a bad index: the evaluation is counted although the call is rejected. *)
Lemma set_x_counts : exists p (s : pop (list Z)) i x, prob_obj p /\ reachable stream_rng p s /\
  snd (pop_step stream_rng s (SetX i x)) = Throw InvalidArgument /\ po_fevals (fst (pop_step stream_rng s (SetX i x))) <> po_fevals s.
Proof.
  exists pop_problem, (empty_pop pop_problem []), 0, [Fin 1]. split; [exact pop_problem_obj|]. split; [exists [], [], []; reflexivity|]. split; [reflexivity|discriminate].
Qed.
(** best_idx on a population whose first fitness is NaN, worst_idx with a later NaN. *)
Lemma best_idx_nan : exists p (s : pop (list Z)) f f0, prob_obj p /\ reachable stream_rng p s /\ p_nobj p = 1 /\ get_nc p = 0 /\
  (forall srt, best_idx srt s = Ok 0) /\ nth_error (po_f s) 0 = Some f0 /\ In f (po_f s) /\ better (nth 0 f NaN) (nth 0 f0 NaN).
Proof.
  destruct (pop_run stream_rng (empty_pop pop_problem []) [PushBack [NaN]; PushBack [Fin 1]]) as [s tr] eqn:E.
  exists pop_problem, s, [Fin 1], [NaN]. split; [exact pop_problem_obj|]. split; [exists [], [PushBack [NaN]; PushBack [Fin 1]], tr; exact E|]. split; [reflexivity|]. split; [reflexivity|].
  vm_compute in E. inversion E; subst. split; [intros srt; reflexivity|]. split; [reflexivity|]. split; [right; left; reflexivity|]. exact I.
Qed.
Lemma worst_idx_nan : exists p (s : pop (list Z)) f f0, prob_obj p /\ reachable stream_rng p s /\ p_nobj p = 1 /\ get_nc p = 0 /\
  (forall srt, worst_idx srt s = Ok 0) /\ nth_error (po_f s) 0 = Some f0 /\ In f (po_f s) /\ better (nth 0 f0 NaN) (nth 0 f NaN).
Proof.
  destruct (pop_run stream_rng (empty_pop pop_problem []) [PushBack [Fin 1]; PushBack [NaN]]) as [s tr] eqn:E.
  exists pop_problem, s, [NaN], [Fin 1]. split; [exact pop_problem_obj|]. split; [exists [], [PushBack [Fin 1]; PushBack [NaN]], tr; exact E|]. split; [reflexivity|]. split; [reflexivity|].
  vm_compute in E. inversion E; subst. split; [intros srt; reflexivity|]. split; [reflexivity|]. split; [right; left; reflexivity|]. exact I.
Qed.
Lemma idx_example : exists s : pop (list Z), reachable stream_rng pop_problem s /\ po_f s = [[Fin 3]; [Fin 1]; [Fin 2]] /\ best_idx (@isort) s = Ok 1 /\ worst_idx (@isort) s = Ok 0.
Proof.
  destruct (pop_run stream_rng (empty_pop pop_problem []) [PushBack [Fin 3]; PushBack [Fin 1]; PushBack [Fin 2]]) as [s tr] eqn:E.
  exists s. split; [eexists; eexists; eexists; exact E|]. vm_compute in E. inversion E; subst. split; [reflexivity|]. split; reflexivity.
Qed.
Lemma idx_example_c : exists s : pop (list Z), reachable stream_rng popc_problem s /\ po_f s = [[Fin 3; Fin (-1)]; [Fin 1; Fin (-2)]] /\
  strict_weak_on (fc_lt 0 [Fin 0]) (po_f s) /\ best_idx (@isort) s = Ok 1 /\ worst_idx (@isort) s = Ok 0.
Proof.
  destruct (pop_run stream_rng (empty_pop popc_problem []) [PushBack [Fin 3; Fin (-1)]; PushBack [Fin 1; Fin (-2)]]) as [s tr] eqn:E.
  exists s. split; [eexists; eexists; eexists; exact E|]. vm_compute in E. inversion E; subst. split; [reflexivity|].
  split; [apply swo_b_spec; vm_compute; reflexivity|]. split; vm_compute; reflexivity.
Qed.
Lemma ctor_example : bounded_problem pop_problem /\ usable pop_problem /\
  (forall x, in_box (p_lb pop_problem) (p_ub pop_problem) x -> exists f, u_fitness (p_udp pop_problem) x = Ok f /\ length f = get_nf pop_problem) /\
  (forall vs fs, Forall2 (fun x f => u_fitness (p_udp pop_problem) x = Ok f) vs fs -> (fun _ xs => Ok xs) pop_problem (concat vs) = Ok (concat fs)) /\
  match bfe_ctor stream_rng (fun _ xs => Ok xs) pop_problem 0 2 [5; 6]%Z with Ok s => po_id s = [5; 6]%Z /\ po_x s = [[Fin 0]; [Fin 0]] | _ => False end.
Proof.
  split.
  { split; [|split; repeat constructor; exists 0%Z, 0%Z; repeat split; lia]. destruct (construct_iff pop_udp) as ((C & _) & _). destruct C as (G & _); [exists pop_problem; vm_compute; reflexivity|exact G]. }
  split.
  { intros [|[|i]] l u Hl Hu; try discriminate. injection Hl as <-. injection Hu as <-. cbn. repeat split. }
  split.
  { intros x (L1 & _ & B). destruct x as [|a [|]]; try discriminate. specialize (B 0 _ _ _ eq_refl eq_refl eq_refl). destruct B as [B1 B2]. exists [a].
    destruct a as [| |z|]; try discriminate. destruct z; try discriminate.
    split; reflexivity. }
  split.
  { intros vs fs F. f_equal. induction F as [|x f vs fs H F IH]; [reflexivity|]. cbn [concat]. rewrite IH. f_equal. cbn in H.
    repeat match type of H with context [match ?y with _ => _ end] => destruct y end; congruence. }
  vm_compute. split; reflexivity.
Qed.
