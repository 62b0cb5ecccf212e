(** Model of the serialization of pagmo's objects (include/pagmo/s11n.hpp,
    detail/s11n_wrappers.hpp and the save/load members of the classes).

    Simplifications. An archive is a sequence of typed values, as in Boost's text archives;
    reading past the end or a value of another kind throws archive_exception
    ([UserExn 0]). Class versions, object tracking and the header are left out. Sizes and
    counters are integers without their C++ range. The user-defined objects behind the
    type-erased pointers are values of an unspecified type with an unspecified codec, which
    stands for the export key followed by what the user's serialize() writes. *)
From Coq Require Import String List Bool Arith ZArith.
From Verif Require Import Dbl Outcome Problem Policies Migration.
Import ListNotations.
Local Open Scope list_scope.
Local Open Scope outcome_scope.

Inductive token := TInt (z : Z) | TDbl (d : dbl) | TBool (b : bool) | TStr (s : string).
Definition stream := list token.
Definition archive_exception : exn := UserExn 0.

(** Writing and reading by value. *)
Record codec (A : Type) := mkcodec { enc : A -> stream; dec : stream -> outcome (A * stream) }.
Arguments mkcodec {A}. Arguments enc {A}. Arguments dec {A}.

(** Primitive values, boost/archive/basic_text_iprimitive.hpp *)
Definition c_int : codec Z := mkcodec (fun z => [TInt z]) (fun ts => match ts with TInt z :: r => Ok (z, r) | _ => Throw archive_exception end).
Definition c_dbl : codec dbl := mkcodec (fun d => [TDbl d]) (fun ts => match ts with TDbl d :: r => Ok (d, r) | _ => Throw archive_exception end).
Definition c_bool : codec bool := mkcodec (fun b => [TBool b]) (fun ts => match ts with TBool b :: r => Ok (b, r) | _ => Throw archive_exception end).
Definition c_str : codec string := mkcodec (fun s => [TStr s]) (fun ts => match ts with TStr s :: r => Ok (s, r) | _ => Throw archive_exception end).
(** An enumeration is written as an int (boost/archive/detail/oserializer.hpp, save_enum_type). *)
Definition c_enum {A} (to : A -> Z) (of : Z -> A) : codec A := mkcodec (fun a => [TInt (to a)]) (fun ts => r <- dec c_int ts ;; Ok (of (fst r), snd r)).
(** std::vector: the count, then the elements (boost/serialization/vector.hpp). *)
Fixpoint dec_n {A} (d : stream -> outcome (A * stream)) (n : nat) (ts : stream) : outcome (list A * stream) :=
  match n with
  | O => Ok ([], ts)
  | S n' => r <- d ts ;; q <- dec_n d n' (snd r) ;; Ok (fst r :: fst q, snd q)
  end.
Definition c_list {A} (c : codec A) : codec (list A) :=
  mkcodec (fun l => TInt (Z.of_nat (List.length l)) :: concat (map (enc c) l)) (fun ts => r <- dec c_int ts ;; dec_n (dec c) (Z.to_nat (fst r)) (snd r)).
(** std::tuple: the last element first, s11n.hpp:66-98 *)
Definition c_snoc {A B} (ca : codec A) (cb : codec B) : codec (A * B) :=
  mkcodec (fun p => enc cb (snd p) ++ enc ca (fst p)) (fun ts => b <- dec cb ts ;; a <- dec ca (snd b) ;; Ok ((fst a, fst b), snd a)).
(** A record read through a tuple. *)
Definition c_via {A B} (to : A -> B) (of : B -> A) (c : codec B) : codec A := mkcodec (fun a => enc c (to a)) (fun ts => r <- dec c ts ;; Ok (of (fst r), snd r)).
(** individuals_group_t and the entries of the migration log, types.hpp:53-60, archipelago.hpp *)
Definition c_group : codec group :=
  c_via (fun g => (g_id g, g_x g, g_f g)) (fun t => mkgrp (fst (fst t)) (snd (fst t)) (snd t)) (c_snoc (c_snoc (c_list c_int) (c_list (c_list c_dbl))) (c_list (c_list c_dbl))).
Definition c_nat : codec nat := c_via Z.of_nat Z.to_nat c_int.
Definition c_entry : codec entry :=
  c_via (fun e => (e_ts e, e_id e, e_x e, e_f e, e_src e, e_dst e)) (fun t => let '(ts, i, x, f, a, b) := t in mken ts i x f a b)
    (c_snoc (c_snoc (c_snoc (c_snoc (c_snoc c_dbl c_int) (c_list c_dbl)) (c_list c_dbl)) c_nat) c_nat).

(** Loading in place: the target is changed member by member, so a failure in the middle
    leaves the members that were read. The result is what is left of the stream. *)
Definition loader (T : Type) := T -> stream -> outcome stream * T.
Definition prim {A} (c : codec A) : loader A := fun old ts => match dec c ts with Ok (a, r) => (Ok r, a) | Throw e => (Throw e, old) | UB => (UB, old) | NoFuel => (NoFuel, old) end.
Definition member {T B} (get : T -> B) (set : B -> T -> T) (l : loader B) : loader T := fun t ts => let (o, b) := l (get t) ts in (o, set b t).
Definition andthen {T} (l1 l2 : loader T) : loader T := fun t ts => let (o, t1) := l1 t ts in match o with Ok r => l2 t1 r | _ => (o, t1) end.
(** detail::from_archive, s11n_wrappers.hpp:73-83 *)
Definition from_archive {T} (ls : list (loader T)) : loader T := fold_right andthen (fun t ts => (Ok ts, t)) ls.
(** try { ... } catch (...) { *this = d; throw; } *)
Definition or_reset {T} (d : T) (l : loader T) : loader T := fun t ts => let (o, t1) := l t ts in match o with Throw e => (Throw e, d) | _ => (o, t1) end.
(** std::vector of objects that are loaded in place: resize, then load element by element;
    [fresh] are the new elements. *)
Fixpoint load_elems {T} (l : loader T) (ts : stream) (todo : list T) : outcome stream * list T :=
  match todo with
  | [] => (Ok ts, [])
  | t :: rest => let (o, t1) := l t ts in
      match o with
      | Ok r => let (o2, rest') := load_elems l r rest in (o2, t1 :: rest')
      | _ => (o, t1 :: rest)
      end
  end.

(** ** Random engines are written as text and parsed with operator>>, whose failure is
    ignored, s11n.hpp:101-131. [e_of s = None] when the text is malformed; the engine is then
    [e_bad s]. *)
Record engine_text (G : Type) := mket { e_to : G -> string; e_of : string -> option G; e_bad : string -> G }.
Arguments e_to {G}. Arguments e_of {G}. Arguments e_bad {G}. Arguments mket {G}.
Definition c_engine {G} (t : engine_text G) : codec G :=
  mkcodec (fun g => [TStr (e_to t g)]) (fun ts => r <- dec c_str ts ;; Ok (match e_of t (fst r) with Some g => g | None => e_bad t (fst r) end, snd r)).

Definition ts_to (t : thread_safety) : Z := match t with TSnone => 0 | TSbasic => 1 | TSconstant => 2 end.
Definition ts_of (z : Z) : thread_safety := match z with 0 => TSnone | 1 => TSbasic | _ => TSconstant end%Z.
Definition c_ts : codec thread_safety := c_enum ts_to ts_of.

(** ** pagmo::problem, problem.hpp:1603-1631 and the members 1653-1690 *)
Section Problem.
Context {U : Type} (cu : codec U).
Record problem_obj := mkprob {
  m_ptr : U; m_fevals : Z; m_gevals : Z; m_hevals : Z; m_lb : list dbl; m_ub : list dbl; m_nobj : Z; m_nec : Z; m_nic : Z; m_nix : Z; m_c_tol : list dbl;
  m_has_batch_fitness : bool; m_has_gradient : bool; m_has_gradient_sparsity : bool; m_has_hessians : bool; m_has_hessians_sparsity : bool; m_has_set_seed : bool;
  m_name : string; m_gs_dim : Z; m_hs_dim : list Z; m_thread_safety : thread_safety }.
Context (default : problem_obj).
Definition save_problem (p : problem_obj) : stream :=
  enc cu (m_ptr p) ++ enc c_int (m_fevals p) ++ enc c_int (m_gevals p) ++ enc c_int (m_hevals p) ++ enc (c_list c_dbl) (m_lb p) ++ enc (c_list c_dbl) (m_ub p) ++
  enc c_int (m_nobj p) ++ enc c_int (m_nec p) ++ enc c_int (m_nic p) ++ enc c_int (m_nix p) ++ enc (c_list c_dbl) (m_c_tol p) ++
  enc c_bool (m_has_batch_fitness p) ++ enc c_bool (m_has_gradient p) ++ enc c_bool (m_has_gradient_sparsity p) ++ enc c_bool (m_has_hessians p) ++ enc c_bool (m_has_hessians_sparsity p) ++
  enc c_bool (m_has_set_seed p) ++ enc c_str (m_name p) ++ enc c_int (m_gs_dim p) ++ enc (c_list c_int) (m_hs_dim p) ++ enc c_ts (m_thread_safety p).
(** The counters are read into local variables and stored at the end; [plocal] carries
    them beside the object. *)
Record plocal := mkpl { l_obj : problem_obj; l_f : Z; l_g : Z; l_h : Z }.
Definition on_obj (f : problem_obj -> problem_obj) (l : plocal) : plocal := mkpl (f (l_obj l)) (l_f l) (l_g l) (l_h l).
Definition load_problem_members : loader plocal := from_archive [
  member (fun l => m_ptr (l_obj l)) (fun v => on_obj (fun p => mkprob v (m_fevals p) (m_gevals p) (m_hevals p) (m_lb p) (m_ub p) (m_nobj p) (m_nec p) (m_nic p) (m_nix p) (m_c_tol p) (m_has_batch_fitness p) (m_has_gradient p) (m_has_gradient_sparsity p) (m_has_hessians p) (m_has_hessians_sparsity p) (m_has_set_seed p) (m_name p) (m_gs_dim p) (m_hs_dim p) (m_thread_safety p))) (prim cu);
  member l_f (fun v l => mkpl (l_obj l) v (l_g l) (l_h l)) (prim c_int);
  member l_g (fun v l => mkpl (l_obj l) (l_f l) v (l_h l)) (prim c_int);
  member l_h (fun v l => mkpl (l_obj l) (l_f l) (l_g l) v) (prim c_int);
  member (fun l => m_lb (l_obj l)) (fun v => on_obj (fun p => mkprob (m_ptr p) (m_fevals p) (m_gevals p) (m_hevals p) v (m_ub p) (m_nobj p) (m_nec p) (m_nic p) (m_nix p) (m_c_tol p) (m_has_batch_fitness p) (m_has_gradient p) (m_has_gradient_sparsity p) (m_has_hessians p) (m_has_hessians_sparsity p) (m_has_set_seed p) (m_name p) (m_gs_dim p) (m_hs_dim p) (m_thread_safety p))) (prim (c_list c_dbl));
  member (fun l => m_ub (l_obj l)) (fun v => on_obj (fun p => mkprob (m_ptr p) (m_fevals p) (m_gevals p) (m_hevals p) (m_lb p) v (m_nobj p) (m_nec p) (m_nic p) (m_nix p) (m_c_tol p) (m_has_batch_fitness p) (m_has_gradient p) (m_has_gradient_sparsity p) (m_has_hessians p) (m_has_hessians_sparsity p) (m_has_set_seed p) (m_name p) (m_gs_dim p) (m_hs_dim p) (m_thread_safety p))) (prim (c_list c_dbl));
  member (fun l => m_nobj (l_obj l)) (fun v => on_obj (fun p => mkprob (m_ptr p) (m_fevals p) (m_gevals p) (m_hevals p) (m_lb p) (m_ub p) v (m_nec p) (m_nic p) (m_nix p) (m_c_tol p) (m_has_batch_fitness p) (m_has_gradient p) (m_has_gradient_sparsity p) (m_has_hessians p) (m_has_hessians_sparsity p) (m_has_set_seed p) (m_name p) (m_gs_dim p) (m_hs_dim p) (m_thread_safety p))) (prim c_int);
  member (fun l => m_nec (l_obj l)) (fun v => on_obj (fun p => mkprob (m_ptr p) (m_fevals p) (m_gevals p) (m_hevals p) (m_lb p) (m_ub p) (m_nobj p) v (m_nic p) (m_nix p) (m_c_tol p) (m_has_batch_fitness p) (m_has_gradient p) (m_has_gradient_sparsity p) (m_has_hessians p) (m_has_hessians_sparsity p) (m_has_set_seed p) (m_name p) (m_gs_dim p) (m_hs_dim p) (m_thread_safety p))) (prim c_int);
  member (fun l => m_nic (l_obj l)) (fun v => on_obj (fun p => mkprob (m_ptr p) (m_fevals p) (m_gevals p) (m_hevals p) (m_lb p) (m_ub p) (m_nobj p) (m_nec p) v (m_nix p) (m_c_tol p) (m_has_batch_fitness p) (m_has_gradient p) (m_has_gradient_sparsity p) (m_has_hessians p) (m_has_hessians_sparsity p) (m_has_set_seed p) (m_name p) (m_gs_dim p) (m_hs_dim p) (m_thread_safety p))) (prim c_int);
  member (fun l => m_nix (l_obj l)) (fun v => on_obj (fun p => mkprob (m_ptr p) (m_fevals p) (m_gevals p) (m_hevals p) (m_lb p) (m_ub p) (m_nobj p) (m_nec p) (m_nic p) v (m_c_tol p) (m_has_batch_fitness p) (m_has_gradient p) (m_has_gradient_sparsity p) (m_has_hessians p) (m_has_hessians_sparsity p) (m_has_set_seed p) (m_name p) (m_gs_dim p) (m_hs_dim p) (m_thread_safety p))) (prim c_int);
  member (fun l => m_c_tol (l_obj l)) (fun v => on_obj (fun p => mkprob (m_ptr p) (m_fevals p) (m_gevals p) (m_hevals p) (m_lb p) (m_ub p) (m_nobj p) (m_nec p) (m_nic p) (m_nix p) v (m_has_batch_fitness p) (m_has_gradient p) (m_has_gradient_sparsity p) (m_has_hessians p) (m_has_hessians_sparsity p) (m_has_set_seed p) (m_name p) (m_gs_dim p) (m_hs_dim p) (m_thread_safety p))) (prim (c_list c_dbl));
  member (fun l => m_has_batch_fitness (l_obj l)) (fun v => on_obj (fun p => mkprob (m_ptr p) (m_fevals p) (m_gevals p) (m_hevals p) (m_lb p) (m_ub p) (m_nobj p) (m_nec p) (m_nic p) (m_nix p) (m_c_tol p) v (m_has_gradient p) (m_has_gradient_sparsity p) (m_has_hessians p) (m_has_hessians_sparsity p) (m_has_set_seed p) (m_name p) (m_gs_dim p) (m_hs_dim p) (m_thread_safety p))) (prim c_bool);
  member (fun l => m_has_gradient (l_obj l)) (fun v => on_obj (fun p => mkprob (m_ptr p) (m_fevals p) (m_gevals p) (m_hevals p) (m_lb p) (m_ub p) (m_nobj p) (m_nec p) (m_nic p) (m_nix p) (m_c_tol p) (m_has_batch_fitness p) v (m_has_gradient_sparsity p) (m_has_hessians p) (m_has_hessians_sparsity p) (m_has_set_seed p) (m_name p) (m_gs_dim p) (m_hs_dim p) (m_thread_safety p))) (prim c_bool);
  member (fun l => m_has_gradient_sparsity (l_obj l)) (fun v => on_obj (fun p => mkprob (m_ptr p) (m_fevals p) (m_gevals p) (m_hevals p) (m_lb p) (m_ub p) (m_nobj p) (m_nec p) (m_nic p) (m_nix p) (m_c_tol p) (m_has_batch_fitness p) (m_has_gradient p) v (m_has_hessians p) (m_has_hessians_sparsity p) (m_has_set_seed p) (m_name p) (m_gs_dim p) (m_hs_dim p) (m_thread_safety p))) (prim c_bool);
  member (fun l => m_has_hessians (l_obj l)) (fun v => on_obj (fun p => mkprob (m_ptr p) (m_fevals p) (m_gevals p) (m_hevals p) (m_lb p) (m_ub p) (m_nobj p) (m_nec p) (m_nic p) (m_nix p) (m_c_tol p) (m_has_batch_fitness p) (m_has_gradient p) (m_has_gradient_sparsity p) v (m_has_hessians_sparsity p) (m_has_set_seed p) (m_name p) (m_gs_dim p) (m_hs_dim p) (m_thread_safety p))) (prim c_bool);
  member (fun l => m_has_hessians_sparsity (l_obj l)) (fun v => on_obj (fun p => mkprob (m_ptr p) (m_fevals p) (m_gevals p) (m_hevals p) (m_lb p) (m_ub p) (m_nobj p) (m_nec p) (m_nic p) (m_nix p) (m_c_tol p) (m_has_batch_fitness p) (m_has_gradient p) (m_has_gradient_sparsity p) (m_has_hessians p) v (m_has_set_seed p) (m_name p) (m_gs_dim p) (m_hs_dim p) (m_thread_safety p))) (prim c_bool);
  member (fun l => m_has_set_seed (l_obj l)) (fun v => on_obj (fun p => mkprob (m_ptr p) (m_fevals p) (m_gevals p) (m_hevals p) (m_lb p) (m_ub p) (m_nobj p) (m_nec p) (m_nic p) (m_nix p) (m_c_tol p) (m_has_batch_fitness p) (m_has_gradient p) (m_has_gradient_sparsity p) (m_has_hessians p) (m_has_hessians_sparsity p) v (m_name p) (m_gs_dim p) (m_hs_dim p) (m_thread_safety p))) (prim c_bool);
  member (fun l => m_name (l_obj l)) (fun v => on_obj (fun p => mkprob (m_ptr p) (m_fevals p) (m_gevals p) (m_hevals p) (m_lb p) (m_ub p) (m_nobj p) (m_nec p) (m_nic p) (m_nix p) (m_c_tol p) (m_has_batch_fitness p) (m_has_gradient p) (m_has_gradient_sparsity p) (m_has_hessians p) (m_has_hessians_sparsity p) (m_has_set_seed p) v (m_gs_dim p) (m_hs_dim p) (m_thread_safety p))) (prim c_str);
  member (fun l => m_gs_dim (l_obj l)) (fun v => on_obj (fun p => mkprob (m_ptr p) (m_fevals p) (m_gevals p) (m_hevals p) (m_lb p) (m_ub p) (m_nobj p) (m_nec p) (m_nic p) (m_nix p) (m_c_tol p) (m_has_batch_fitness p) (m_has_gradient p) (m_has_gradient_sparsity p) (m_has_hessians p) (m_has_hessians_sparsity p) (m_has_set_seed p) (m_name p) v (m_hs_dim p) (m_thread_safety p))) (prim c_int);
  member (fun l => m_hs_dim (l_obj l)) (fun v => on_obj (fun p => mkprob (m_ptr p) (m_fevals p) (m_gevals p) (m_hevals p) (m_lb p) (m_ub p) (m_nobj p) (m_nec p) (m_nic p) (m_nix p) (m_c_tol p) (m_has_batch_fitness p) (m_has_gradient p) (m_has_gradient_sparsity p) (m_has_hessians p) (m_has_hessians_sparsity p) (m_has_set_seed p) (m_name p) (m_gs_dim p) v (m_thread_safety p))) (prim (c_list c_int));
  member (fun l => m_thread_safety (l_obj l)) (fun v => on_obj (fun p => mkprob (m_ptr p) (m_fevals p) (m_gevals p) (m_hevals p) (m_lb p) (m_ub p) (m_nobj p) (m_nec p) (m_nic p) (m_nix p) (m_c_tol p) (m_has_batch_fitness p) (m_has_gradient p) (m_has_gradient_sparsity p) (m_has_hessians p) (m_has_hessians_sparsity p) (m_has_set_seed p) (m_name p) (m_gs_dim p) (m_hs_dim p) v)) (prim c_ts) ].
(** problem.hpp:1621-1623 *)
Definition store_counters (l : plocal) : problem_obj :=
  let p := l_obj l in mkprob (m_ptr p) (l_f l) (l_g l) (l_h l) (m_lb p) (m_ub p) (m_nobj p) (m_nec p) (m_nic p) (m_nix p) (m_c_tol p) (m_has_batch_fitness p) (m_has_gradient p) (m_has_gradient_sparsity p) (m_has_hessians p) (m_has_hessians_sparsity p) (m_has_set_seed p) (m_name p) (m_gs_dim p) (m_hs_dim p) (m_thread_safety p).
Definition load_problem : loader problem_obj := or_reset default (fun p ts =>
  let (o, l) := load_problem_members (mkpl p 0 0 0) ts in match o with Ok r => (Ok r, store_counters l) | _ => (o, l_obj l) end).
End Problem.
Arguments problem_obj : clear implicits.

(** ** pagmo::algorithm, algorithm.hpp:725-744 *)
Section Algorithm.
Context {U : Type} (cu : codec U).
Record algorithm_obj := mkalgo { a_ptr : U; a_has_set_seed : bool; a_has_set_verbosity : bool; a_name : string; a_thread_safety : thread_safety }.
Context (default : algorithm_obj).
Definition save_algorithm (a : algorithm_obj) : stream :=
  enc cu (a_ptr a) ++ enc c_bool (a_has_set_seed a) ++ enc c_bool (a_has_set_verbosity a) ++ enc c_str (a_name a) ++ enc c_ts (a_thread_safety a).
Definition load_algorithm : loader algorithm_obj := or_reset default (from_archive [
  member a_ptr (fun v a => mkalgo v (a_has_set_seed a) (a_has_set_verbosity a) (a_name a) (a_thread_safety a)) (prim cu);
  member a_has_set_seed (fun v a => mkalgo (a_ptr a) v (a_has_set_verbosity a) (a_name a) (a_thread_safety a)) (prim c_bool);
  member a_has_set_verbosity (fun v a => mkalgo (a_ptr a) (a_has_set_seed a) v (a_name a) (a_thread_safety a)) (prim c_bool);
  member a_name (fun v a => mkalgo (a_ptr a) (a_has_set_seed a) (a_has_set_verbosity a) v (a_thread_safety a)) (prim c_str);
  member a_thread_safety (fun v a => mkalgo (a_ptr a) (a_has_set_seed a) (a_has_set_verbosity a) (a_name a) v) (prim c_ts) ]).
End Algorithm.
Arguments algorithm_obj : clear implicits.

(** ** pagmo::topology, r_policy and s_policy: pointer and name, topology.hpp:397-412,
    r_policy.hpp:320-335, s_policy.hpp (alike) *)
Section Named.
Context {U : Type} (cu : codec U).
Record named_obj := mknamed { n_ptr : U; n_name : string }.
Context (default : named_obj).
Definition save_named (a : named_obj) : stream := enc cu (n_ptr a) ++ enc c_str (n_name a).
Definition load_named : loader named_obj := or_reset default (from_archive [
  member n_ptr (fun v a => mknamed v (n_name a)) (prim cu); member n_name (fun v a => mknamed (n_ptr a) v) (prim c_str) ]).
End Named.
Arguments named_obj : clear implicits.

(** ** pagmo::bfe, bfe.hpp:350-364 *)
Section Bfe.
Context {U : Type} (cu : codec U).
Record bfe_obj := mkbfe { b_ptr : U; b_name : string; b_thread_safety : thread_safety }.
Context (default : bfe_obj).
Definition save_bfe (a : bfe_obj) : stream := enc cu (b_ptr a) ++ enc c_str (b_name a) ++ enc c_ts (b_thread_safety a).
Definition load_bfe : loader bfe_obj := or_reset default (from_archive [
  member b_ptr (fun v a => mkbfe v (b_name a) (b_thread_safety a)) (prim cu);
  member b_name (fun v a => mkbfe (b_ptr a) v (b_thread_safety a)) (prim c_str);
  member b_thread_safety (fun v a => mkbfe (b_ptr a) (b_name a) v) (prim c_ts) ]).
End Bfe.
Arguments bfe_obj : clear implicits.

(** ** pagmo::population, population.hpp:309-331 *)
Section Population.
Context {U G : Type} (cu : codec U) (et : engine_text G) (dprob : problem_obj U).
Record population_obj := mkpop { q_prob : problem_obj U; q_ID : list Z; q_x : list (list dbl); q_f : list (list dbl); q_champion_x : list dbl; q_champion_f : list dbl; q_e : G; q_seed : Z }.
Context (default : population_obj).
Definition save_population (p : population_obj) : stream :=
  save_problem cu (q_prob p) ++ enc (c_list c_int) (q_ID p) ++ enc (c_list (c_list c_dbl)) (q_x p) ++ enc (c_list (c_list c_dbl)) (q_f p) ++
  enc (c_list c_dbl) (q_champion_x p) ++ enc (c_list c_dbl) (q_champion_f p) ++ enc (c_engine et) (q_e p) ++ enc c_int (q_seed p).
Definition load_population : loader population_obj := or_reset default (from_archive [
  member q_prob (fun v p => mkpop v (q_ID p) (q_x p) (q_f p) (q_champion_x p) (q_champion_f p) (q_e p) (q_seed p)) (load_problem cu dprob);
  member q_ID (fun v p => mkpop (q_prob p) v (q_x p) (q_f p) (q_champion_x p) (q_champion_f p) (q_e p) (q_seed p)) (prim (c_list c_int));
  member q_x (fun v p => mkpop (q_prob p) (q_ID p) v (q_f p) (q_champion_x p) (q_champion_f p) (q_e p) (q_seed p)) (prim (c_list (c_list c_dbl)));
  member q_f (fun v p => mkpop (q_prob p) (q_ID p) (q_x p) v (q_champion_x p) (q_champion_f p) (q_e p) (q_seed p)) (prim (c_list (c_list c_dbl)));
  member q_champion_x (fun v p => mkpop (q_prob p) (q_ID p) (q_x p) (q_f p) v (q_champion_f p) (q_e p) (q_seed p)) (prim (c_list c_dbl));
  member q_champion_f (fun v p => mkpop (q_prob p) (q_ID p) (q_x p) (q_f p) (q_champion_x p) v (q_e p) (q_seed p)) (prim (c_list c_dbl));
  member q_e (fun v p => mkpop (q_prob p) (q_ID p) (q_x p) (q_f p) (q_champion_x p) (q_champion_f p) v (q_seed p)) (prim (c_engine et));
  member q_seed (fun v p => mkpop (q_prob p) (q_ID p) (q_x p) (q_f p) (q_champion_x p) (q_champion_f p) (q_e p) v) (prim c_int) ]).
End Population.
Arguments population_obj : clear implicits.

(** ** pagmo::island, island.hpp:1196-1216. The back pointer to the archipelago is not
    written; assigning a new island on failure takes its (null) back pointer, island.cpp:398-408. *)
Section Island.
Context {UI UA UP UR US G : Type} (ci : codec UI) (ca : codec UA) (cp : codec UP) (cr : codec UR) (cs : codec US) (et : engine_text G)
  (dprob : problem_obj UP) (dpop : population_obj UP G) (dalgo : algorithm_obj UA) (drp : named_obj UR) (dsp : named_obj US).
Record island_obj := mkisl { i_ptr : UI; i_algo : algorithm_obj UA; i_pop : population_obj UP G; i_rpol : named_obj UR; i_spol : named_obj US; i_archi : option nat }.
Context (default : island_obj).
Definition save_island (i : island_obj) : stream :=
  enc ci (i_ptr i) ++ save_algorithm ca (i_algo i) ++ save_population cp et (i_pop i) ++ save_named cr (i_rpol i) ++ save_named cs (i_spol i).
Definition load_island : loader island_obj := or_reset default (from_archive [
  member i_ptr (fun v i => mkisl v (i_algo i) (i_pop i) (i_rpol i) (i_spol i) (i_archi i)) (prim ci);
  member i_algo (fun v i => mkisl (i_ptr i) v (i_pop i) (i_rpol i) (i_spol i) (i_archi i)) (load_algorithm ca dalgo);
  member i_pop (fun v i => mkisl (i_ptr i) (i_algo i) v (i_rpol i) (i_spol i) (i_archi i)) (load_population cp et dprob dpop);
  member i_rpol (fun v i => mkisl (i_ptr i) (i_algo i) (i_pop i) v (i_spol i) (i_archi i)) (load_named cr drp);
  member i_spol (fun v i => mkisl (i_ptr i) (i_algo i) (i_pop i) (i_rpol i) v (i_archi i)) (load_named cs dsp) ]).

(** ** pagmo::archipelago, archipelago.hpp:664-713. An island has an address; the islands of
    the vector are new objects at the addresses [fresh] the allocator gives. *)
Context {UT : Type} (ct : codec UT) (dtopo : named_obj UT).
Record archipelago_obj := mkarchi {
  r_islands : list (nat * island_obj); r_idx_map : list (nat * nat); r_migrants : list group; r_log : list entry; r_topology : named_obj UT; r_type : migration_type; r_handling : migrant_handling }.
Definition c_type : codec migration_type := c_enum (fun t => match t with P2P => 0%Z | Broadcast => 1%Z end) (fun z => match z with 0%Z => P2P | _ => Broadcast end).
Definition c_handling : codec migrant_handling := c_enum (fun t => match t with Preserve => 0%Z | Evict => 1%Z end) (fun z => match z with 0%Z => Preserve | _ => Evict end).
Definition save_archipelago (a : archipelago_obj) : stream :=
  (TInt (Z.of_nat (List.length (r_islands a))) :: concat (map (fun p => save_island (snd p)) (r_islands a))) ++
  enc (c_list c_group) (r_migrants a) ++ enc (c_list c_entry) (r_log a) ++ save_named ct (r_topology a) ++ enc c_type (r_type a) ++ enc c_handling (r_handling a).
(** ar >> m_islands: every element is a default island that is then loaded. *)
Definition load_islands (fresh : nat -> nat) : loader (list (nat * island_obj)) := fun old ts =>
  match dec c_int ts with
  | Ok (n, r) => let (o, l) := load_elems load_island r (repeat default (Z.to_nat n)) in (o, combine (map fresh (seq 0 (List.length l))) l)
  | Throw e => (Throw e, old) | UB => (UB, old) | NoFuel => (NoFuel, old)
  end.
(** lines 685-691; emplace keeps an entry that is there. *)
Definition remap (this : nat) (a : archipelago_obj) : archipelago_obj :=
  mkarchi (map (fun p => (fst p, mkisl (i_ptr (snd p)) (i_algo (snd p)) (i_pop (snd p)) (i_rpol (snd p)) (i_spol (snd p)) (Some this))) (r_islands a))
    (combine (map fst (r_islands a)) (seq 0 (List.length (r_islands a)))) (r_migrants a) (r_log a) (r_topology a) (r_type a) (r_handling a).
Definition empty_archi : archipelago_obj := mkarchi [] [] [] [] dtopo P2P Preserve.
Definition load_archipelago (this : nat) (fresh : nat -> nat) : loader archipelago_obj := or_reset empty_archi (from_archive [
  member r_islands (fun v a => mkarchi v (r_idx_map a) (r_migrants a) (r_log a) (r_topology a) (r_type a) (r_handling a)) (load_islands fresh);
  (fun a ts => (Ok ts, remap this a));
  member r_migrants (fun v a => mkarchi (r_islands a) (r_idx_map a) v (r_log a) (r_topology a) (r_type a) (r_handling a)) (prim (c_list c_group));
  member r_log (fun v a => mkarchi (r_islands a) (r_idx_map a) (r_migrants a) v (r_topology a) (r_type a) (r_handling a)) (prim (c_list c_entry));
  member r_topology (fun v a => mkarchi (r_islands a) (r_idx_map a) (r_migrants a) (r_log a) v (r_type a) (r_handling a)) (load_named ct dtopo);
  member r_type (fun v a => mkarchi (r_islands a) (r_idx_map a) (r_migrants a) (r_log a) (r_topology a) v (r_handling a)) (prim c_type);
  member r_handling (fun v a => mkarchi (r_islands a) (r_idx_map a) (r_migrants a) (r_log a) (r_topology a) (r_type a) v) (prim c_handling) ]).
End Island.
Arguments island_obj : clear implicits. Arguments archipelago_obj : clear implicits.
