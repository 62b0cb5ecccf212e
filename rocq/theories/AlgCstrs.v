(** Self-adaptive constraint handling, src/algorithms/cstrs_self_adaptive.cpp. *)
From Coq Require Import List Bool Arith ZArith.
From Verif Require Import Dbl Outcome StdSort Compare Problem Rng Generic GeneticOps Constrained Population Algo.
Import ListNotations.
Local Open Scope rm_scope.

(** ** The penalized problem, detail::penalized_udp *)
(** Its data members, cstrs_self_adaptive.hpp:118-142, as far as they have an effect. Of the
    fitness vectors m_f_hat_down and m_f_hat_up only the first component is read; m_i_hat_round,
    m_f_hat_round and m_n_feasible are only printed. The unordered map is an association
    list, the newest entry first; keys are compared with equal_to_vf. *)
Record pen := { pn_cmax : list dbl; pn_p1 : bool; pn_scale : dbl; pn_idown : dbl; pn_iup : dbl; pn_fdown : dbl; pn_fup : dbl; pn_map : list (list dbl * list dbl) }.

(** m_fitness_map.find(x), cstrs_self_adaptive.cpp:96 and 501 *)
Fixpoint cache_find (m : list (list dbl * list dbl)) (x : list dbl) : option (list dbl) :=
  match m with [] => None | (y, f) :: m' => if equal_to_vf y x then Some f else cache_find m' x end.
(** m_fitness_map[x] = f *)
Definition cache_put (m : list (list dbl * list dbl)) (x f : list dbl) : list (list dbl * list dbl) := (x, f) :: m.

(** The violation of constraint j, cstrs_self_adaptive.cpp:347, 350 and 370, 375: the first
    nec constraints are the equalities. *)
Definition violation (nec : nat) (tol fit : list dbl) (j : nat) : outcome dbl :=
  bind (vget fit (j + 1)) (fun c => bind (vget tol j) (fun t =>
    Ok (dmax dzero (dsub (if Nat.ltb j nec then dabs c else c) t)))).
(** compute_c_max, cstrs_self_adaptive.cpp:329-353 *)
Definition compute_c_max (nec nc : nat) (tol : list dbl) (F : list (list dbl)) : outcome (list dbl) :=
  mfold (fun cm fit => mfold (fun cm j => bind (vget cm j) (fun m => bind (violation nec tol fit j) (fun v => vset cm j (dmax m v)))) cm (seq 0 nc)) (repeat dzero nc) F.
(** compute_infeasibility, cstrs_self_adaptive.cpp:357-380 *)
Definition compute_infeasibility (cmax : list dbl) (nec nc : nat) (tol fit : list dbl) : outcome dbl :=
  bind (mfold (fun a j => bind (vget cmax j) (fun m => if dgt m dzero then bind (violation nec tol fit j) (fun v => Ok (dadd a (ddiv v m))) else Ok a)) dzero (seq 0 nc))
    (fun a => Ok (ddiv a (d_of_Z (Z.of_nat nc)))).

(** get_f()[i][0] *)
Definition obj_at (F : list (list dbl)) (i : nat) : outcome dbl := bind (vget F i) (fun f => vget f 0).
(** A loop over indices that keeps the best index so far: [c i b] says whether i replaces b. *)
Definition scan (c : nat -> nat -> outcome bool) (b : nat) (l : list nat) : outcome nat :=
  mfold (fun b i => bind (c i b) (fun k => Ok (if k : bool then i else b))) b l.
(** The tests of the loops: objective smaller, cstrs_self_adaptive.cpp:184 (and, with the arguments swapped, 275) *)
Definition obj_less (F : list (list dbl)) (i b : nat) : outcome bool :=
  bind (obj_at F i) (fun u => bind (obj_at F b) (fun v => Ok (dlt u v))).
(** ... infeasibility larger, and among equal ones the objective test [c] *)
Definition inf_or (cmp : dbl -> dbl -> bool) (I : list dbl) (c : nat -> nat -> outcome bool) (i b : nat) : outcome bool :=
  bind (vget I i) (fun u => bind (vget I b) (fun v => if cmp u v then (if deq u v then c i b else Ok true) else Ok false)).
(** The first infeasible individual with an objective below f_hat_down, cstrs_self_adaptive.cpp:192-200 *)
Fixpoint first_below (F : list (list dbl)) (fd : dbl) (l : list nat) : outcome (option nat) :=
  match l with
  | [] => Ok None
  | i :: l' => bind (obj_at F i) (fun u => if dlt u fd then Ok (Some i) else first_below F fd l')
  end.
(** The indices hat_down and hat_up and whether penalty 1 applies,
    cstrs_self_adaptive.cpp:177-269, given the infeasibilities and the indices of the
    feasible and the infeasible individuals. *)
Definition pen_hats (F : list (list dbl)) (I : list dbl) (feas infe : list nat) : outcome (nat * nat * bool) :=
  match feas with
  | d0 :: feas' =>
    bind (scan (obj_less F) d0 feas') (fun hd =>
    bind (obj_at F hd) (fun fd =>
    bind (first_below F fd infe) (fun o =>
    match o with
    | Some u0 =>
      bind (scan (fun i b => bind (obj_at F i) (fun u => if dlt u fd then inf_or dge I (obj_less F) i b else Ok false)) u0 infe) (fun hu => Ok (hd, hu, true))
    | None =>
      bind (vget infe 0) (fun u0 =>
      bind (scan (inf_or dge I (fun i b => obj_less F b i)) u0 (tl infe)) (fun hu => Ok (hd, hu, false)))
    end)))
  | [] =>
    bind (scan (inf_or dle I (obj_less F)) 0 (seq 1 (length F - 1))) (fun hd =>
    bind (scan (inf_or dge I (fun i b => obj_less F b i)) 0 (seq 1 (length F - 1))) (fun hu => Ok (hd, hu, true)))
  end.
(** The scaling factor, cstrs_self_adaptive.cpp:290-299 *)
Definition scaling (fdown fup fround : dbl) : dbl :=
  if deq fup fround then dzero
  else if dle fup fdown then ddiv (dsub fround fdown) fdown else ddiv (dsub fround fup) fup.
(** update(), cstrs_self_adaptive.cpp:132-300, on the decision and fitness vectors of the
    population. *)
Definition pen_update (p : problem) (X F : list (list dbl)) : outcome pen :=
  let nc := get_nc p in
  let mp := fold_left (fun m e => cache_put m (fst e) (snd e)) (combine X F) [] in
  bind (compute_c_max (p_nec p) nc (p_ctol p) F) (fun cm =>
  bind (mmap (compute_infeasibility cm (p_nec p) nc (p_ctol p)) F) (fun I =>
  let infeasible i := dgt (nth i I dzero) dzero in
  let feas := filter (fun i => negb (infeasible i)) (seq 0 (length F)) in
  let infe := filter infeasible (seq 0 (length F)) in
  if Nat.eqb (length feas) (length F) then
    bind (obj_at F 0) (fun f0 => Ok {| pn_cmax := cm; pn_p1 := false; pn_scale := dzero; pn_idown := dzero; pn_iup := dzero; pn_fdown := f0; pn_fup := f0; pn_map := mp |})
  else
    bind (pen_hats F I feas infe) (fun h => let '(hd, hu, p1) := h in
    bind (scan (fun i b => obj_less F b i) 0 (seq 1 (length F - 1))) (fun hr =>
    bind (obj_at F hd) (fun fd => bind (obj_at F hu) (fun fu => bind (obj_at F hr) (fun fr =>
    bind (vget I hd) (fun id => bind (vget I hu) (fun iu =>
    Ok {| pn_cmax := cm; pn_p1 := p1; pn_scale := scaling fd fu fr; pn_idown := id; pn_iup := iu; pn_fdown := fd; pn_fup := fu; pn_map := mp |}))))))))).

Section Cstrs.
(** [dexp] is std::exp. *)
Context {P : Type} (dexp : dbl -> dbl) (srt : sorter).

(** The penalty for a point with objective f0 and infeasibility inf, cstrs_self_adaptive.cpp:106-123 *)
Definition penalize (g : pen) (f0 inf : dbl) : dbl :=
  if dgt inf dzero then
    let t := if dneq (pn_iup g) (pn_idown g) then ddiv (dsub inf (pn_idown g)) (dsub (pn_iup g) (pn_idown g)) else inf in
    let f1 := if pn_p1 g then dadd f0 (dmul t (dsub (pn_fdown g) (pn_fup g))) else f0 in
    dadd f1 (dmul (dmul (pn_scale g) (dabs f1)) (ddiv (dsub (dexp (dmul dtwo t)) done) (dsub (dexp dtwo) done)))
  else f0.
(** The penalized fitness of a constrained fitness vector *)
Definition pen_value (g : pen) (p : problem) (fit : list dbl) : outcome dbl :=
  bind (vget fit 0) (fun f0 => bind (compute_infeasibility (pn_cmax g) (p_nec p) (get_nc p) (p_ctol p) fit) (fun inf => Ok (penalize g f0 inf))).

(** The state of the algorithm is the penalized problem inside the auxiliary population and
    the original population. *)
Definition getg : AM (G := pen) (P := P) pen := fun s => (Ok (fst s), s).
Definition setg (g : pen) : AM (G := pen) (P := P) unit := fun s => (Ok tt, (g, snd s)).
Definition with_map (g : pen) (m : list (list dbl * list dbl)) : pen :=
  {| pn_cmax := pn_cmax g; pn_p1 := pn_p1 g; pn_scale := pn_scale g; pn_idown := pn_idown g; pn_iup := pn_iup g; pn_fdown := pn_fdown g; pn_fup := pn_fup g; pn_map := m |}.
(** fitness(x) of the penalized problem, cstrs_self_adaptive.cpp:90-125, called through
    problem::fitness, which checks the dimension of x (problem.cpp:353-379, its counter of
    evaluations is not read by anyone). *)
Definition pen_fitness (x : list dbl) : AM (P := P) (list dbl) :=
  s <- getp ;;
  let p := po_prob s in
  if negb (Nat.eqb (length x) (get_nx p)) then rlift (Throw InvalidArgument) else
  g <- getg ;;
  match cache_find (pn_map g) x with
  | Some fit => v <- rlift (pen_value g p fit) ;; rret [v]
  | None => fit <- peval x ;; v <- rlift (pen_value g p fit) ;; setg (with_map g (cache_put (pn_map g) x fit)) ;;; rret [v]
  end.

(** The inner algorithm, m_algorithm.evolve(new_pop): it evaluates points with the penalized
    problem inside the population it was given, one after the other, depending on the values
    it got, and returns, with the same problem object, the decision vectors X or throws.
    Left out: a returned population whose problem is another object (extract fails), IDs and
    champion of the auxiliary population (not read by this algorithm), non-termination. *)
Inductive itree :=
| IRet (X : list (list dbl))
| IThrow (e : exn)
| IEval (x : list dbl) (k : list dbl -> itree).
Fixpoint inner_run (t : itree) : AM (P := P) (list (list dbl)) :=
  match t with
  | IRet X => rret X
  | IThrow e => rlift (Throw e)
  | IEval x k => f <- pen_fitness x ;; inner_run (k f)
  end.

(** [alg]: the inner algorithm in iteration [it], started from the decision vectors and
    penalized fitnesses of the auxiliary population; its own state goes into [it]. *)
Context (alg : nat -> list (list dbl) -> list (list dbl) -> itree).

(** new_pop.set_x(i, pop.get_x()[i]), cstrs_self_adaptive.cpp:461-463 *)
Definition cstrs_refresh (X : list (list dbl)) (i : nat) : AM (P := P) (list dbl * list dbl) :=
  x <- rlift (vget X i) ;; f <- pen_fitness x ;; rret (x, f).
(** Copying individual i back, cstrs_self_adaptive.cpp:499-504. Looking up a point that is
    not in the cache dereferences end() (an assertion in debug mode). *)
Definition cstrs_back (Y : list (list dbl)) (i : nat) : AM (P := P) unit :=
  x <- rlift (vget Y i) ;; g <- getg ;;
  match cache_find (pn_map g) x with Some f => pset i x f | None => rlift UB end.
(** One iteration, cstrs_self_adaptive.cpp:450-506 (without the log); [Y] holds the decision
    vectors of the auxiliary population. *)
Definition cstrs_iter (Y : list (list dbl)) (it : nat) : AM (P := P) (list (list dbl)) :=
  s <- getp ;;
  b <- rlift (best_idx srt s) ;; bx <- rlift (vget (po_x s) b) ;; bf <- rlift (vget (po_f s) b) ;;
  w <- rlift (worst_idx srt s) ;;
  g <- rlift (pen_update (po_prob s) (po_x s) (po_f s)) ;; setg g ;;;
  XF <- rmap (cstrs_refresh (po_x s)) (seq 0 (length Y)) ;;
  Y' <- inner_run (alg it (map fst XF) (map snd XF)) ;;
  rfold (fun _ i => cstrs_back Y' i) tt (seq 0 (length (po_id s))) ;;;
  pset w bx bf ;;; rret Y'.
(** evolve, cstrs_self_adaptive.cpp:403-508. The auxiliary problem has the bounds and the
    integer dimension of the original one, so that its construction succeeds. *)
Definition cstrs_evolve (m_iters : nat) : AM (P := P) unit :=
  s <- getp ;;
  let p := po_prob s in
  if negb (Nat.eqb (p_nobj p) 1) then rlift (Throw InvalidArgument)
  else if u_set_seed (p_udp p) then rlift (Throw InvalidArgument)
  else if Nat.eqb (get_nc p) 0 then rlift (Throw InvalidArgument)
  else if Nat.ltb (length (po_id s)) 4 then rlift (Throw InvalidArgument)
  else
    g <- rlift (pen_update p (po_x s) (po_f s)) ;; setg g ;;;
    rmap (cstrs_refresh (po_x s)) (seq 0 (length (po_id s))) ;;;
    rfold cstrs_iter (po_x s) (seq 1 m_iters) ;;; rret tt.
End Cstrs.
