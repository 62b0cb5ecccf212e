(** Model of pagmo::problem (include/pagmo/problem.hpp, src/problem.cpp) and of the
    batch checks (src/detail/bfe_impl.cpp, src/bfe.cpp).

    Simplifications. User code (the UDP) is a record of pure functions that may
    throw. Sizes are natural numbers; the guards that compare them with the 64-bit
    maximum are kept, arithmetic that may wrap is done modulo 2^64. Failures of
    memory allocation (std::bad_alloc, std::length_error) are not modelled. *)
From Coq Require Import List Bool Arith ZArith.
From Verif Require Import Dbl Outcome Constrained.
Import ListNotations.
Local Open Scope Z_scope.

(** std::numeric_limits<vector_double::size_type>::max() *)
Definition u64max : Z := 2 ^ 64 - 1.
Definition wrap64 (n : Z) : Z := n mod 2 ^ 64.

(** pagmo::sparsity_pattern, types.hpp:44 *)
Definition sparsity := list (nat * nat).

Inductive thread_safety := TSnone | TSbasic | TSconstant.

(** A user-defined problem. [None] stands for a method that is not provided. *)
Record udp := {
  u_fitness : list dbl -> outcome (list dbl);
  u_lb : list dbl; u_ub : list dbl;
  u_nobj : nat; u_nec : nat; u_nic : nat; u_nix : nat;
  u_batch : option (list dbl -> outcome (list dbl));
  u_gradient : option (list dbl -> outcome (list dbl));
  u_gs : option sparsity;
  u_hessians : option (list dbl -> outcome (list (list dbl)));
  u_hs : option (list sparsity);
  u_set_seed : bool;
  u_ts : thread_safety }.

(** The data members of pagmo::problem (problem.hpp, class problem). *)
Record problem := {
  p_udp : udp;
  p_lb : list dbl; p_ub : list dbl;
  p_nobj : nat; p_nec : nat; p_nic : nat; p_nix : nat;
  p_ctol : list dbl;
  p_gs_dim : Z; p_hs_dim : list Z }.

(** problem.hpp get_nx, get_nf, get_nc, get_ncx *)
Definition get_nx (p : problem) : nat := length (p_lb p).
Definition get_nf (p : problem) : nat := (p_nobj p + p_nic p + p_nec p)%nat.
Definition get_nc (p : problem) : nat := (p_nec p + p_nic p)%nat.

(** check_problem_bounds, problem.cpp:65-109. First the loop over the pairs, lines
    80-90, then the integer part, lines 92-107. *)
Fixpoint check_bound_pairs (lb ub : list dbl) : outcome unit :=
  match lb, ub with
  | l :: lb', u :: ub' =>
      if isnan l || isnan u then Throw InvalidArgument
      else if dgt l u then Throw InvalidArgument
      else check_bound_pairs lb' ub'
  | _, _ => Ok tt
  end.
Fixpoint check_integral (lb ub : list dbl) : outcome unit :=
  match lb, ub with
  | l :: lb', u :: ub' =>
      if isfinite l && dneq l (dtrunc l) then Throw InvalidArgument
      else if isfinite u && dneq u (dtrunc u) then Throw InvalidArgument
      else check_integral lb' ub'
  | _, _ => Ok tt
  end.
Definition check_problem_bounds (lb ub : list dbl) (nix : nat) : outcome unit :=
  if Nat.eqb (length lb) 0 then Throw InvalidArgument
  else if negb (Nat.eqb (length lb) (length ub)) then Throw InvalidArgument
  else bind (check_bound_pairs lb ub) (fun _ =>
    if Nat.eqb nix 0 then Ok tt
    else if Nat.ltb (length lb) nix then Throw InvalidArgument
    else let ncx := (length lb - nix)%nat in check_integral (skipn ncx lb) (skipn ncx ub)).

(** dense_hessian, problem.cpp:113-122 *)
Definition dense_hessian (dim : nat) : sparsity :=
  flat_map (fun j => map (fun i => (j, i)) (seq 0 (S j))) (seq 0 dim).
(** dense_hessians, problem.cpp:125-129 *)
Definition dense_hessians (f_dim dim : nat) : list sparsity := repeat (dense_hessian dim) f_dim.
(** dense_gradient, problem.cpp:132-141 *)
Definition dense_gradient (f_dim dim : nat) : sparsity :=
  flat_map (fun j => map (fun i => (j, i)) (seq 0 dim)) (seq 0 f_dim).

(** operator< of std::pair, used in problem.cpp:849 and 893 *)
Definition pair_lt (a b : nat * nat) : bool :=
  Nat.ltb (fst a) (fst b) || (negb (Nat.ltb (fst b) (fst a)) && Nat.ltb (snd a) (snd b)).

(** The loop shared by check_gradient_sparsity (problem.cpp:832-857) and
    check_hessian_sparsity (problem.cpp:875-901); [bad] is the test on one pair,
    [prev] the previous pair. *)
Fixpoint check_pattern (bad : nat * nat -> bool) (prev : option (nat * nat)) (l : sparsity) : outcome unit :=
  match l with
  | [] => Ok tt
  | a :: l' =>
      if bad a then Throw InvalidArgument
      else match prev with
           | None => check_pattern bad (Some a) l'
           | Some b => if negb (pair_lt b a) then Throw InvalidArgument else check_pattern bad (Some a) l'
           end
  end.
Definition check_gradient_sparsity (nf nx : nat) (gs : sparsity) : outcome unit :=
  check_pattern (fun a => Nat.leb nf (fst a) || Nat.leb nx (snd a)) None gs.
Definition check_hessian_sparsity (nx : nat) (hs : sparsity) : outcome unit :=
  check_pattern (fun a => Nat.leb nx (fst a) || Nat.ltb (fst a) (snd a)) None hs.
(** check_hessians_sparsity, problem.cpp:859-873 *)
Definition check_hessians_sparsity (nf nx : nat) (hs : list sparsity) : outcome unit :=
  if negb (Nat.eqb (length hs) nf) then Throw InvalidArgument
  else mfold (fun _ h => check_hessian_sparsity nx h) tt hs.

(** The cached sizes of the dense patterns, problem.cpp:207-216 and 226-236. *)
Definition grad_dense_dim (nx nf : Z) : outcome Z :=
  if u64max / nf <? nx then Throw InvalidArgument else Ok (wrap64 (nx * nf)).
Definition hess_dense_dim (nx : Z) : outcome Z :=
  if (nx =? u64max) || (u64max / (nx + 1) <? nx / 2) then Throw InvalidArgument
  else Ok (wrap64 (wrap64 (nx * (nx - 1)) / 2 + nx)).

(** problem::generic_ctor_impl, problem.cpp:154-240 *)
Definition construct (u : udp) : outcome problem :=
  if Nat.ltb (length (u_lb u)) (u_nix u) then Throw InvalidArgument
  else bind (check_problem_bounds (u_lb u) (u_ub u) (u_nix u)) (fun _ =>
  if Nat.eqb (u_nobj u) 0 then Throw InvalidArgument
  else if u64max / 3 <? Z.of_nat (u_nobj u) then Throw InvalidArgument
  else if u64max / 3 <? Z.of_nat (u_nec u) then Throw InvalidArgument
  else if u64max / 3 <? Z.of_nat (u_nic u) then Throw InvalidArgument
  else
    let nx := length (u_lb u) in
    let nf := (u_nobj u + u_nic u + u_nec u)%nat in
    bind (match u_gs u with
          | Some gs => bind (check_gradient_sparsity nf nx gs) (fun _ => Ok (Z.of_nat (length gs)))
          | None => grad_dense_dim (Z.of_nat nx) (Z.of_nat nf)
          end) (fun gs_dim =>
    bind (match u_hs u with
          | Some hs => bind (check_hessians_sparsity nf nx hs) (fun _ => Ok (map (fun h => Z.of_nat (length h)) hs))
          | None => bind (hess_dense_dim (Z.of_nat nx)) (fun d => Ok (repeat d nf))
          end) (fun hs_dim =>
    Ok {| p_udp := u; p_lb := u_lb u; p_ub := u_ub u; p_nobj := u_nobj u; p_nec := u_nec u; p_nic := u_nic u;
          p_nix := u_nix u; p_ctol := repeat dzero (u_nec u + u_nic u); p_gs_dim := gs_dim; p_hs_dim := hs_dim |}))).

(** prob_check_dv, problem.cpp:937-950; prob_check_fv, problem.cpp:954-965 *)
Definition prob_check_dv (p : problem) (s : nat) : outcome unit := throw_if (negb (Nat.eqb s (get_nx p))) InvalidArgument.
Definition prob_check_fv (p : problem) (s : nat) : outcome unit := throw_if (negb (Nat.eqb s (get_nf p))) InvalidArgument.

(** problem::fitness, problem.cpp:353-379. The evaluation counter is passed in and
    out; it is left alone when an exception is raised. *)
Definition fitness (p : problem) (fevals : Z) (dv : list dbl) : outcome (list dbl) * Z :=
  match bind (prob_check_dv p (length dv)) (fun _ =>
        bind (u_fitness (p_udp p) dv) (fun retval =>
        bind (prob_check_fv p (length retval)) (fun _ => Ok retval))) with
  | Ok retval => (Ok retval, wrap64 (fevals + 1))
  | o => (o, fevals)
  end.

(** bfe_check_input_dvs, bfe_impl.cpp:63-88 (the per-vector check always succeeds:
    it is called with the length n_dim) *)
Definition bfe_check_input_dvs (p : problem) (dvs : list dbl) : outcome unit :=
  if negb (Nat.eqb (length dvs mod get_nx p) 0) then Throw InvalidArgument
  else mfold (fun _ _ => prob_check_dv p (get_nx p)) tt (seq 0 (length dvs / get_nx p)).
(** bfe_check_output_fvs, bfe_impl.cpp:92-129 *)
Definition bfe_check_output_fvs (p : problem) (dvs fvs : list dbl) : outcome unit :=
  let n_dvs := (length dvs / get_nx p)%nat in
  let n_fvs := (length fvs / get_nf p)%nat in
  if negb (Nat.eqb (length fvs mod get_nf p) 0) then Throw InvalidArgument
  else if negb (Nat.eqb n_fvs n_dvs) then Throw InvalidArgument
  else mfold (fun _ _ => prob_check_fv p (get_nf p)) tt (seq 0 n_fvs).

(** prob_invoke_mem_batch_fitness, problem.cpp:972-984; a UDP without
    batch_fitness() throws not_implemented_error. *)
Definition udp_batch (p : problem) (dvs : list dbl) : outcome (list dbl) :=
  match u_batch (p_udp p) with Some f => f dvs | None => Throw NotImplemented end.
Definition prob_invoke_mem_batch_fitness (p : problem) (fevals : Z) (dvs : list dbl) (incr : bool) : outcome (list dbl) * Z :=
  match udp_batch p dvs with
  | Ok retval => (Ok retval, if incr then wrap64 (fevals + Z.of_nat (length dvs / get_nx p)) else fevals)
  | o => (o, fevals)
  end.

(** problem::batch_fitness, problem.cpp:413-426 *)
Definition batch_fitness (p : problem) (fevals : Z) (dvs : list dbl) : outcome (list dbl) * Z :=
  match bfe_check_input_dvs p dvs with
  | Ok _ =>
      match prob_invoke_mem_batch_fitness p fevals dvs true with
      | (Ok retval, fe) => (bind (bfe_check_output_fvs p dvs retval) (fun _ => Ok retval), fe)
      | (o, fe) => (o, fe)
      end
  | Throw e => (Throw e, fevals)
  | UB => (UB, fevals)
  | NoFuel => (NoFuel, fevals)
  end.

(** bfe::operator(), bfe.cpp:91-110; [ud] is the user-defined evaluator. *)
Definition bfe_call (ud : problem -> list dbl -> outcome (list dbl)) (p : problem) (fevals : Z) (dvs : list dbl) : outcome (list dbl) * Z :=
  match bind (bfe_check_input_dvs p dvs) (fun _ =>
        bind (ud p dvs) (fun retval =>
        bind (bfe_check_output_fvs p dvs retval) (fun _ => Ok retval))) with
  | Ok retval => (Ok retval, wrap64 (fevals + Z.of_nat (length dvs / get_nx p)))
  | o => (o, fevals)
  end.

(** problem::gradient, problem.cpp:456-467; hessians, 539-550. *)
Definition gradient (p : problem) (gevals : Z) (dv : list dbl) : outcome (list dbl) * Z :=
  match bind (prob_check_dv p (length dv)) (fun _ =>
        bind (match u_gradient (p_udp p) with Some g => g dv | None => Throw NotImplemented end) (fun retval =>
        bind (throw_if (negb (Z.of_nat (length retval) =? p_gs_dim p)) InvalidArgument) (fun _ => Ok retval))) with
  | Ok retval => (Ok retval, wrap64 (gevals + 1))
  | o => (o, gevals)
  end.
(** check_hessians_vector, problem.cpp:912-930 *)
Definition check_hessians_vector (p : problem) (hs : list (list dbl)) : outcome unit :=
  if negb (Nat.eqb (length hs) (get_nf p)) then Throw InvalidArgument
  else mfold (fun _ i => bind (vget hs i) (fun h => bind (vget (p_hs_dim p) i) (fun d =>
         throw_if (negb (Z.of_nat (length h) =? d)) InvalidArgument))) tt (seq 0 (length hs)).
Definition hessians (p : problem) (hevals : Z) (dv : list dbl) : outcome (list (list dbl)) * Z :=
  match bind (prob_check_dv p (length dv)) (fun _ =>
        bind (match u_hessians (p_udp p) with Some g => g dv | None => Throw NotImplemented end) (fun retval =>
        bind (check_hessians_vector p retval) (fun _ => Ok retval))) with
  | Ok retval => (Ok retval, wrap64 (hevals + 1))
  | o => (o, hevals)
  end.

(** problem::gradient_sparsity, problem.cpp:488-507 *)
Definition gradient_sparsity (p : problem) : outcome sparsity :=
  match u_gs (p_udp p) with
  | Some gs => bind (check_gradient_sparsity (get_nf p) (get_nx p) gs) (fun _ =>
               if negb (Z.of_nat (length gs) =? p_gs_dim p) then Throw InvalidArgument else Ok gs)
  | None => Ok (dense_gradient (get_nf p) (get_nx p))
  end.
(** problem::hessians_sparsity, problem.cpp:571-598 *)
Definition hessians_sparsity (p : problem) : outcome (list sparsity) :=
  match u_hs (p_udp p) with
  | Some hs => bind (check_hessians_sparsity (get_nf p) (get_nx p) hs) (fun _ =>
               bind (mfold (fun _ i => bind (vget hs i) (fun h => bind (vget (p_hs_dim p) i) (fun d =>
                        throw_if (negb (Z.of_nat (length h) =? d)) InvalidArgument))) tt (seq 0 (length (p_hs_dim p)))) (fun _ => Ok hs))
  | None => Ok (dense_hessians (get_nf p) (get_nx p))
  end.

(** problem::set_c_tol, problem.cpp:620-638 (vector) and 645-655 (scalar) *)
Definition set_ctol_field (p : problem) (t : list dbl) : problem :=
  {| p_udp := p_udp p; p_lb := p_lb p; p_ub := p_ub p; p_nobj := p_nobj p; p_nec := p_nec p; p_nic := p_nic p;
     p_nix := p_nix p; p_ctol := t; p_gs_dim := p_gs_dim p; p_hs_dim := p_hs_dim p |}.
Definition set_c_tol (p : problem) (c_tol : list dbl) : outcome problem :=
  if negb (Nat.eqb (length c_tol) (get_nc p)) then Throw InvalidArgument
  else bind (mfold (fun _ t => if isnan t then Throw InvalidArgument else if dlt t dzero then Throw InvalidArgument else Ok tt) tt c_tol)
            (fun _ => Ok (set_ctol_field p c_tol)).
Definition set_c_tol_scalar (p : problem) (c_tol : dbl) : outcome problem :=
  if isnan c_tol then Throw InvalidArgument
  else if dlt c_tol dzero then Throw InvalidArgument
  else Ok (set_ctol_field p (repeat c_tol (get_nc p))).

(** problem::feasibility_x, problem.cpp:692-696 *)
Definition feasibility_x (p : problem) (fevals : Z) (x : list dbl) : outcome bool * Z :=
  match fitness p fevals x with
  | (Ok f, fe) => (feasibility_f (p_nobj p) (p_nec p) (p_nic p) (p_ctol p) f, fe)
  | (Throw e, fe) => (Throw e, fe)
  | (UB, fe) => (UB, fe)
  | (NoFuel, fe) => (NoFuel, fe)
  end.
