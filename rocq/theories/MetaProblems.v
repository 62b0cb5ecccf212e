(** Meta-problems: src/problems/translate.cpp, unconstrain.cpp, decompose.cpp.

    A meta-problem holds an inner problem and is itself a user-defined problem. The
    evaluation counter of the inner problem and its seed are not modelled here, nor are
    names and extra info. *)
From Coq Require Import List Bool Arith ZArith.
From Verif Require Import Dbl Outcome Constrained MultiObj Problem Bfe.
Import ListNotations.

(** ** translate *)

(** std::transform(x.begin(), x.end(), t.begin(), ...): reads t as far as x goes *)
Fixpoint transform2 (f : dbl -> dbl -> dbl) (x t : list dbl) : outcome (list dbl) :=
  match x with
  | [] => Ok []
  | a :: x' => match t with [] => UB | b :: t' => bind (transform2 f x' t') (fun r => Ok (f a b :: r)) end
  end.
(** translate_back, translate.cpp:414-423; apply_translation, :425-431 *)
Definition translate_back (t x : list dbl) : outcome (list dbl) := transform2 dsub x t.
Definition apply_translation (t x : list dbl) : outcome (list dbl) := transform2 dadd x t.

(** translate::fitness, translate.cpp:101-105; gradient, :245-249; hessians, :295-299 *)
Definition translate_fitness (p : problem) (t x : list dbl) : outcome (list dbl) :=
  bind (translate_back t x) (fun y => fst (fitness p 0 y)).
Definition translate_gradient (p : problem) (t x : list dbl) : outcome (list dbl) :=
  bind (translate_back t x) (fun y => fst (gradient p 0 y)).
Definition translate_hessians (p : problem) (t x : list dbl) : outcome (list (list dbl)) :=
  bind (translate_back t x) (fun y => fst (hessians p 0 y)).
(** translate::batch_fitness, translate.cpp:118-154. The parallel loop writes disjoint
    slots, each a function of its own input: it is taken as the loop in order. [checked]
    tells a debug build (line 151) from a release one (line 149). *)
Definition translate_batch (checked : bool) (p : problem) (t xs : list dbl) : outcome (list dbl) :=
  let nx := get_nx p in
  bind (mmap (fun i => translate_back t (slice xs (i * nx) nx)) (seq 0 (length xs / nx))) (fun ys =>
  if checked then fst (batch_fitness p 0 (concat ys))
  else fst (prob_invoke_mem_batch_fitness p 0 (concat ys) true)).
(** The constructor, translate.hpp:84-89 and translate.cpp:81-88, and the interface of the
    object as a user-defined problem. get_bounds, :175-181; the other methods forward. *)
Definition translate_udp (checked : bool) (p : problem) (t : list dbl) : outcome udp :=
  if negb (Nat.eqb (length t) (get_nx p)) then Throw InvalidArgument else
  bind (apply_translation t (p_lb p)) (fun lb =>
  bind (apply_translation t (p_ub p)) (fun ub =>
  Ok {| u_fitness := translate_fitness p t; u_lb := lb; u_ub := ub;
        u_nobj := p_nobj p; u_nec := p_nec p; u_nic := p_nic p; u_nix := p_nix p;
        u_batch := match u_batch (p_udp p) with Some _ => Some (translate_batch checked p t) | None => None end;
        u_gradient := match u_gradient (p_udp p) with Some _ => Some (translate_gradient p t) | None => None end;
        u_gs := u_gs (p_udp p);
        u_hessians := match u_hessians (p_udp p) with Some _ => Some (translate_hessians p t) | None => None end;
        u_hs := u_hs (p_udp p);
        u_set_seed := u_set_seed (p_udp p); u_ts := u_ts (p_udp p) |})).

(** ** unconstrain *)
Inductive umethod := Death | Kuri | UWeighted | IgnoreC | IgnoreO | UnknownMethod.
Definition umethod_eqb (a b : umethod) : bool :=
  match a, b with
  | Death, Death | Kuri, Kuri | UWeighted, UWeighted | IgnoreC, IgnoreC | IgnoreO, IgnoreO | UnknownMethod, UnknownMethod => true
  | _, _ => false
  end.
(** generic_ctor_impl, unconstrain.cpp:67-100 *)
Definition unconstrain_check (p : problem) (m : umethod) (w : list dbl) : outcome unit :=
  if Nat.eqb (get_nc p) 0 then Throw InvalidArgument
  else if negb (Nat.eqb (length w) (get_nc p)) && umethod_eqb m UWeighted then Throw InvalidArgument
  else if umethod_eqb m UnknownMethod then Throw InvalidArgument
  else if negb (Nat.eqb (length w) 0) && negb (umethod_eqb m UWeighted) then Throw InvalidArgument
  else Ok tt.

(** The constraints minus the tolerances, unconstrain.cpp:186-192; [i] counts from 0 *)
Fixpoint shifted_constraints (nec i : nat) (c tol : list dbl) : outcome (list dbl) :=
  match c with
  | [] => Ok []
  | x :: c' => match tol with
               | [] => UB
               | t :: tol' => bind (shifted_constraints nec (S i) c' tol') (fun r =>
                   Ok (dsub (if Nat.ltb i nec then dabs x else x) t :: r))
               end
  end.
(** :193-197 *)
Fixpoint weighted_penalty (c w : list dbl) (penalty : dbl) : outcome dbl :=
  match c with
  | [] => Ok penalty
  | x :: c' => match w with
               | [] => UB
               | wi :: w' => weighted_penalty c' w' (if negb (dle x dzero) then dadd penalty (dmul wi x) else penalty)
               end
  end.
(** penalize, unconstrain.cpp:132-222; [f] is the fitness vector returned by the inner
    problem, whose length problem::fitness has checked *)
Definition penalize (p : problem) (m : umethod) (w f : list dbl) : outcome (list dbl) :=
  let nobj := p_nobj p in let nec := p_nec p in
  let objs := firstn nobj f in
  let feas := feasibility_f nobj nec (p_nic p) (p_ctol p) f in
  let ec := test_eq_constraints (firstn nec (skipn nobj f)) (p_ctol p) in
  let ic := test_ineq_constraints (skipn (nobj + nec) f) (skipn nec (p_ctol p)) in
  match m with
  | Death => bind feas (fun b => Ok (if b then objs else repeat dbl_max nobj))
  | Kuri => bind feas (fun b => if b then Ok objs else
      bind ec (fun se => bind ic (fun si =>
      let penalty := dmul dbl_max (dsub done (ddiv (d_of_Z (Z.of_nat (fst se + fst si))) (d_of_Z (Z.of_nat (get_nc p))))) in
      Ok (repeat penalty nobj))))
  | UWeighted =>
      bind (shifted_constraints nec 0 (skipn nobj f) (p_ctol p)) (fun c =>
      bind (weighted_penalty c w dzero) (fun penalty => Ok (map (fun v => dadd v penalty) objs)))
  | IgnoreC => Ok objs
  | IgnoreO => bind ec (fun se => bind ic (fun si => Ok [dadd (snd se) (snd si)]))
  | UnknownMethod => UB
  end.
(** unconstrain::fitness, unconstrain.cpp:113-120 *)
Definition unconstrain_fitness (p : problem) (m : umethod) (w x : list dbl) : outcome (list dbl) :=
  bind (fst (fitness p 0 x)) (penalize p m w).
(** std::copy(z.data(), z.data() + n, ...): undefined when z is shorter than n *)
Definition copy_n (n : nat) (z : list dbl) : outcome (list dbl) := if Nat.ltb (length z) n then UB else Ok (firstn n z).
(** unconstrain::batch_fitness, unconstrain.cpp:245-263. The checked product of line 255
    cannot overflow on memory that exists. *)
Definition unconstrain_batch (p : problem) (m : umethod) (w xs : list dbl) : outcome (list dbl) :=
  bind (fst (batch_fitness p 0 xs)) (fun fs =>
  bind (mmap (fun i => bind (penalize p m w (slice fs (i * get_nf p) (get_nf p))) (copy_n (p_nobj p)))
             (seq 0 (length xs / get_nx p))) (fun zs => Ok (concat zs))).
(** get_nobj, unconstrain.cpp:269-276 *)
Definition unconstrain_nobj (p : problem) (m : umethod) : nat := if umethod_eqb m IgnoreO then 1 else p_nobj p.
Definition unconstrain_udp (p : problem) (m : umethod) (w : list dbl) : outcome udp :=
  bind (unconstrain_check p m w) (fun _ =>
  Ok {| u_fitness := unconstrain_fitness p m w; u_lb := p_lb p; u_ub := p_ub p;
        u_nobj := unconstrain_nobj p m; u_nec := 0; u_nic := 0; u_nix := p_nix p;
        u_batch := match u_batch (p_udp p) with Some _ => Some (unconstrain_batch p m w) | None => None end;
        u_gradient := None; u_gs := None; u_hessians := None; u_hs := None;
        u_set_seed := u_set_seed (p_udp p); u_ts := u_ts (p_udp p) |}).

(** ** decompose *)

(** 1e-8 as a double: 0x3E45798EE2308C3A *)
Definition d1em8 : dbl := Fin ((2 ^ 52 + 0x5798EE2308C3A) * 2 ^ 995)%Z.
(** generic_ctor_impl, decompose.cpp:66-123 *)
Definition decompose_check (p : problem) (w z : list dbl) (m : dmethod) : outcome unit :=
  if Nat.ltb (p_nobj p) 2 then Throw InvalidArgument
  else if negb (Nat.eqb (get_nc p) 0) then Throw InvalidArgument
  else if match m with OtherMethod => true | _ => false end then Throw InvalidArgument
  else if negb (Nat.eqb (length w) (p_nobj p)) then Throw InvalidArgument
  else if negb (forallb isfinite w) then Throw InvalidArgument
  else if negb (Nat.eqb (length z) (p_nobj p)) then Throw InvalidArgument
  else if negb (forallb isfinite z) then Throw InvalidArgument
  else if dgt (dabs (dsub (fold_left dadd w dzero) done)) d1em8 then Throw InvalidArgument
  else if existsb (fun x => dlt x dzero) w then Throw InvalidArgument
  else Ok tt.
(** The update of the reference point, decompose.cpp:141-147 *)
Fixpoint adapt (f z : list dbl) : outcome (list dbl) :=
  match f with
  | [] => Ok z
  | a :: f' => match z with [] => UB | b :: z' => bind (adapt f' z') (fun r => Ok ((if dlt a b then a else b) :: r)) end
  end.
(** decompose::fitness, decompose.cpp:136-150. The reference point is a mutable member:
    passed in and returned, changed only once the inner fitness is known. *)
Definition decompose_fitness (p : problem) (w : list dbl) (m : dmethod) (adaptive : bool) (z x : list dbl) : outcome (list dbl) * list dbl :=
  match fst (fitness p 0 x) with
  | Ok f => match (if adaptive then adapt f z else Ok z) with
            | Ok z' => (decompose_objectives f w z' m, z')
            | Throw e => (Throw e, z) | UB => (UB, z) | NoFuel => (NoFuel, z)
            end
  | Throw e => (Throw e, z) | UB => (UB, z) | NoFuel => (NoFuel, z)
  end.
(** A sequence of calls; the results and the final reference point *)
Fixpoint decompose_calls (p : problem) (w : list dbl) (m : dmethod) (adaptive : bool) (z : list dbl) (xs : list (list dbl)) : list (outcome (list dbl)) * list dbl :=
  match xs with
  | [] => ([], z)
  | x :: xs' => let (r, z') := decompose_fitness p w m adaptive z x in
                let (rs, z'') := decompose_calls p w m adaptive z' xs' in (r :: rs, z'')
  end.
