(** Particle swarm optimization: src/algorithms/pso.cpp. *)
From Coq Require Import List Bool Arith ZArith.
From Verif Require Import Dbl Outcome StdSort Problem Rng Generic GeneticOps Population Algo.
Import ListNotations.
Local Open Scope rm_scope.

(** The members set by the constructor, pso.cpp:73-77. The memory of velocities m_V is an
    argument and a result of evolve in the model. *)
Record pso_params := mkpso { ps_gen : nat; ps_omega : dbl; ps_eta1 : dbl; ps_eta2 : dbl; ps_max_vel : dbl;
  ps_variant : nat; ps_ntype : nat; ps_nparam : nat; ps_memory : bool }.
Definition dfour : dbl := d_of_Z 4.
(** The constructor, pso.cpp:78-107 *)
Definition pso_construct (a : pso_params) : outcome unit :=
  bind (throw_if (dlt (ps_omega a) dzero || dgt (ps_omega a) done) InvalidArgument) (fun _ =>
  bind (throw_if (dlt (ps_eta1 a) dzero || dlt (ps_eta2 a) dzero || dgt (ps_eta1 a) dfour || dgt (ps_eta2 a) dfour) InvalidArgument) (fun _ =>
  bind (throw_if (dle (ps_max_vel a) dzero || dgt (ps_max_vel a) done) InvalidArgument) (fun _ =>
  bind (throw_if (Nat.ltb (ps_variant a) 1 || Nat.ltb 6 (ps_variant a)) InvalidArgument) (fun _ =>
  bind (throw_if (Nat.ltb (ps_ntype a) 1 || Nat.ltb 4 (ps_ntype a)) InvalidArgument) (fun _ =>
  throw_if (Nat.ltb (ps_nparam a) 1) InvalidArgument))))).

(** ** The swarm topologies

    Neighbours are indices of type std::size_t; the model keeps them as integers and reads
    with [vgetz], where an index outside the vector is undefined behaviour. *)
Definition vgetz {A} (l : list A) (i : Z) : outcome A :=
  if ((0 <=? i) && (i <? Z.of_nat (length l)))%Z then vget l (Z.to_nat i) else UB.

(** initialize_topology__lbest, pso.cpp:582-602: the subtraction pidx - j + swarm_size is
    modulo 2^64. *)
Definition lbest_of (n radius pidx : nat) : list Z :=
  map (fun j => if Nat.ltb pidx j then wrap64 (Z.of_nat pidx - Z.of_nat j + Z.of_nat n) else (Z.of_nat pidx - Z.of_nat j)%Z) (rev (seq 1 radius)) ++
  map (fun j => if Nat.leb n (pidx + j) then (Z.of_nat pidx + Z.of_nat j - Z.of_nat n)%Z else (Z.of_nat pidx + Z.of_nat j)%Z) (seq 1 radius).
Definition pso_lbest (n nparam : nat) : list (list Z) := map (lbest_of n (nparam / 2)) (seq 0 n).

(** initialize_topology__von, pso.cpp:622-647, for a swarm whose size fits an int. The
    square root in double precision is exact enough for that: its integer part is that of
    the real square root. The loop of lines 630-631 goes down to 1 at most; a remainder by
    zero, for an empty swarm, is undefined. *)
Fixpoint von_rows (n : Z) (fuel : nat) (rows : Z) : outcome Z :=
  if (rows =? 0)%Z then UB
  else if (Z.rem n rows =? 0)%Z then Ok rows
  else match fuel with O => NoFuel | S k => von_rows n k (rows - 1) end.
Definition von_diff : list (Z * Z) := [(-1, 0); (1, 0); (0, -1); (0, 1)]%Z.
Definition von_of (rows cols pidx : Z) : list Z :=
  let p_x := Z.rem pidx cols in let p_y := Z.quot pidx cols in
  map (fun d => let a := Z.rem (p_x + fst d) cols in let n_x := (if a <? 0 then cols + a else a)%Z in
                let b := Z.rem (p_y + snd d) rows in let n_y := (if b <? 0 then rows + b else b)%Z in
                (n_y * cols + n_x)%Z) von_diff.
Definition pso_von (n : nat) : outcome (list (list Z)) :=
  bind (von_rows (Z.of_nat n) n (Z.sqrt (Z.of_nat n))) (fun rows =>
  Ok (map (fun i => von_of rows (Z.of_nat n / rows) (Z.of_nat i)) (seq 0 n))).

Section Pso.
Context {G P : Type} (srt : sorter) (r : rng G).

(** initialize_topology__adaptive_random, pso.cpp:672-695 *)
Definition push_at (nb : list (list Z)) (i : nat) (v : Z) : outcome (list (list Z)) :=
  bind (vget nb i) (fun l => vset nb i (l ++ [v])).
Definition pso_adaptive (n nparam : nat) : RM G (list (list Z)) :=
  rfold (fun nb pidx =>
    nb1 <- rlift (push_at nb pidx (Z.of_nat pidx)) ;;
    rfold (fun nb' _ => k <- draw_int r 0 (Z.of_nat n - 1) ;; rlift (push_at nb' (Z.to_nat k) (Z.of_nat pidx))) nb1 (seq 1 (nparam - 1)))
  (repeat [] n) (seq 0 n).

(** What evolve keeps between particles: the velocities, the positions, the best positions
    remembered with their fitness, best_neighb, best_fit, best_fit_improved and the
    topology. The vector fit is only read right after it was written. *)
Record swarm := mkswarm { sw_V : list (list dbl); sw_X : list (list dbl); sw_lbX : list (list dbl); sw_lbf : list (list dbl);
  sw_bn : list dbl; sw_bf : list dbl; sw_improved : bool; sw_nb : list (list Z) }.

(** particle__get_best_neighbor, pso.cpp:497-525 *)
Definition pso_best_neighbor (nb : list Z) (lbX lbf : list (list dbl)) : outcome (list dbl) :=
  bind (vget nb 0) (fun b0 =>
  bind (mfold (fun b k => bind (vgetz lbf k) (fun fk => bind (vget fk 0) (fun a => bind (vgetz lbf b) (fun fb => bind (vget fb 0) (fun c =>
          Ok (if dle a c then k else b)))))) b0 (tl nb)) (fun b =>
  vgetz lbX b)).

(** The velocity updates, pso.cpp:240-324: component d of the new velocity. *)
Definition pso_pull (a : pso_params) (v lx x bn r1 r2 : dbl) : dbl :=
  let c1 := dmul (dmul (ps_eta1 a) r1) (dsub lx x) in
  let c2 := dmul (dmul (ps_eta2 a) r2) (dsub bn x) in
  if Nat.eqb (ps_variant a) 5 then dmul (ps_omega a) (dadd (dadd v c1) c2)
  else dadd (dadd (dmul (ps_omega a) v) c1) c2.
Definition pso_fips (a : pso_params) (nb : list Z) (lbX : list (list dbl)) (v x : dbl) (d : nat) : RM G dbl :=
  sum <- rfold (fun s k => u <- draw01 r ;; l <- rlift (vgetz lbX k) ;; ld <- rlift (vget l d) ;;
                  rret (dadd s (dmul (dmul u (dadd (ps_eta1 a) (ps_eta2 a))) (dsub ld x)))) dzero nb ;;
  rret (dmul (ps_omega a) (dadd v (ddiv sum (d_of_Z (Z.of_nat (length nb)))))).
(** The whole new velocity of a particle; in the variants 3 and 4 the random numbers are
    drawn once, before the loop over the components. *)
Definition pso_velocity (a : pso_params) (nb : list Z) (lbX : list (list dbl)) (V X lx bn : list dbl) (dim : nat) : RM G (list dbl) :=
  let once := Nat.eqb (ps_variant a) 3 || Nat.eqb (ps_variant a) 4 in
  let equal := Nat.eqb (ps_variant a) 2 || Nat.eqb (ps_variant a) 4 in
  let draws := r1 <- draw01 r ;; if equal then rret (r1, r1) else r2 <- draw01 r ;; rret (r1, r2) in
  let pull d rr := v <- rlift (vget V d) ;; l <- rlift (vget lx d) ;; x <- rlift (vget X d) ;; b <- rlift (vget bn d) ;;
                   rret (pso_pull a v l x b (fst rr) (snd rr)) in
  if Nat.eqb (ps_variant a) 6 then
    rmap (fun d => v <- rlift (vget V d) ;; x <- rlift (vget X d) ;; pso_fips a nb lbX v x d) (seq 0 dim)
  else if once then rr <- draws ;; rmap (fun d => pull d rr) (seq 0 dim)
  else rmap (fun d => rr <- draws ;; pull d rr) (seq 0 dim).

(** Speed limit, move and feasibility correction of one component, pso.cpp:326-356; minv[d]
    is -1. * vwidth and maxv[d] is vwidth (lines 174-179), with vwidth the product of the
    range and m_max_vel. *)
Definition pso_width (a : pso_params) (l u : dbl) : dbl := dmul (dsub u l) (ps_max_vel a).
Definition pso_move1 (a : pso_params) (l u v x : dbl) : dbl * dbl :=
  let w := pso_width a l u in
  let v1 := if dgt v w then w else if dlt v (dneg w) then dneg w else v in
  let y := dadd x v1 in
  if dlt y l then (dzero, l) else if dgt y u then (dzero, u) else (v1, y).

(** Comparison of fitness vectors with <=: std::vector's operator<= is !(b < a) (C++17). *)
Definition vec_le (a b : list dbl) : bool := negb (vec_lt b a).

(** One particle, pso.cpp:230-373 *)
Definition pso_particle (a : pso_params) (sw : swarm) (i : nat) : @AM G P swarm :=
  s <- getp ;;
  let p := po_prob s in let dim := get_nx p in
  V <- rlift (vget (sw_V sw) i) ;;
  X <- rlift (vget (sw_X sw) i) ;;
  lx <- rlift (vget (sw_lbX sw) i) ;;
  lf <- rlift (vget (sw_lbf sw) i) ;;
  nb <- rlift (vget (sw_nb sw) i) ;;
  bn <- (if negb (Nat.eqb (ps_ntype a) 1) && negb (Nat.eqb (ps_variant a) 6) then rlift (pso_best_neighbor nb (sw_lbX sw) (sw_lbf sw)) else rret (sw_bn sw)) ;;
  V1 <- eng (pso_velocity a nb (sw_lbX sw) V X lx bn dim) ;;
  moved <- rlift (mmap (fun d => bind (vget (p_lb p) d) (fun l => bind (vget (p_ub p) d) (fun u => bind (vget V1 d) (fun v => bind (vget X d) (fun x =>
              Ok (pso_move1 a l u v x)))))) (seq 0 dim)) ;;
  let V2 := map fst moved ++ skipn dim V in let X2 := map snd moved in
  f <- peval X2 ;;
  let sw1 := mkswarm (upd (sw_V sw) i V2) (upd (sw_X sw) i X2) (sw_lbX sw) (sw_lbf sw) bn (sw_bf sw) (sw_improved sw) (sw_nb sw) in
  if vec_le f lf then
    let track := (Nat.eqb (ps_ntype a) 1 || Nat.eqb (ps_ntype a) 4) && vec_le f (sw_bf sw) in
    rret (mkswarm (sw_V sw1) (sw_X sw1) (upd (sw_lbX sw) i X2) (upd (sw_lbf sw) i f)
            (if track then X2 else bn) (if track then f else sw_bf sw) (if track then true else sw_improved sw) (sw_nb sw))
  else rret sw1.

(** One generation, pso.cpp:226-375; the log is left out *)
Definition pso_generation (a : pso_params) (n : nat) (sw : swarm) (_ : nat) : @AM G P swarm :=
  let sw0 := mkswarm (sw_V sw) (sw_X sw) (sw_lbX sw) (sw_lbf sw) (sw_bn sw) (sw_bf sw) false (sw_nb sw) in
  sw1 <- rfold (pso_particle a) sw0 (seq 0 n) ;;
  if Nat.eqb (ps_ntype a) 4 && negb (sw_improved sw1) then
    nb <- eng (pso_adaptive n (ps_nparam a)) ;;
    rret (mkswarm (sw_V sw1) (sw_X sw1) (sw_lbX sw1) (sw_lbf sw1) (sw_bn sw1) (sw_bf sw1) (sw_improved sw1) nb)
  else rret sw1.

(** The topology at the start with best_neighb and best_fit, pso.cpp:200-216, 547-567; in
    the topologies 2 and 3 best_neighb is zero and best_fit is empty. *)
Definition pso_topology (a : pso_params) (n : nat) : @AM G P (list (list Z) * list dbl * list dbl) :=
  s <- getp ;;
  let zeros := repeat dzero (get_nx (po_prob s)) in
  if Nat.eqb (ps_ntype a) 1 then
    b <- rlift (best_idx srt s) ;;
    x <- rlift (vget (po_x s) b) ;;
    f <- rlift (vget (po_f s) b) ;;
    rret ((if Nat.eqb (ps_variant a) 6 then repeat (map Z.of_nat (seq 0 n)) n else repeat [] n), x, f)
  else if Nat.eqb (ps_ntype a) 3 then nb <- rlift (pso_von n) ;; rret (nb, zeros, [])
  else if Nat.eqb (ps_ntype a) 4 then
    nb <- eng (pso_adaptive n (ps_nparam a)) ;;
    b <- rlift (best_idx srt s) ;;
    f <- rlift (vget (po_f s) b) ;;
    rret (nb, zeros, f)
  else rret (pso_lbest n (ps_nparam a), zeros, []).

(** The velocities at the start, pso.cpp:190-198. When an exception is thrown the part of
    m_V drawn so far is lost in the model. *)
Definition pso_speeds (a : pso_params) (n : nat) (p : problem) (V0 : list (list dbl)) : RM G (list (list dbl)) :=
  if negb (Nat.eqb (length V0) n) || negb (ps_memory a) then
    rmap (fun _ => rmap (fun j => l <- rlift (vget (p_lb p) j) ;; u <- rlift (vget (p_ub p) j) ;;
                      uniform_real_from_range r (dneg (pso_width a l u)) (pso_width a l u)) (seq 0 (get_nx p))) (seq 0 n)
  else rret V0.

(** evolve, pso.cpp:115-443; V0 is m_V before the call, the result is m_V after it. *)
Definition pso_evolve (a : pso_params) (V0 : list (list dbl)) : @AM G P (list (list dbl)) :=
  s <- getp ;;
  let p := po_prob s in let n := length (po_id s) in
  if negb (Nat.eqb (get_nc p) 0) then rlift (Throw InvalidArgument)
  else if negb (Nat.eqb (get_nf p) 1) then rlift (Throw InvalidArgument)
  else if u_set_seed (p_udp p) then rlift (Throw InvalidArgument)
  else if Nat.eqb n 0 then rlift (Throw InvalidArgument)
  else
    V <- eng (pso_speeds a n p V0) ;;
    t <- pso_topology a n ;;
    let '(nb, bn, bf) := t in
    sw <- rfold (pso_generation a n) (mkswarm V (po_x s) (po_x s) (po_f s) bn bf false nb) (seq 1 (ps_gen a)) ;;
    rfold (fun _ i => x <- rlift (vget (sw_lbX sw) i) ;; f <- rlift (vget (sw_lbf sw) i) ;; pset i x f) tt (seq 0 n) ;;;
    rret (sw_V sw).
End Pso.

(** serialize, pso.cpp:481-486: what is written to the archive, and what the object
    [old] becomes when it is read (the random engine, seed, verbosity and log, which are also
    written, are left out). A default constructed object has m_memory = false, pso.hpp:145. *)
Definition pso_save (a : pso_params) : nat * dbl * dbl * dbl * dbl * nat * nat * nat :=
  (ps_gen a, ps_omega a, ps_eta1 a, ps_eta2 a, ps_max_vel a, ps_variant a, ps_ntype a, ps_nparam a).
Definition pso_load (old : pso_params) (t : nat * dbl * dbl * dbl * dbl * nat * nat * nat) : pso_params :=
  let '(g, o, e1, e2, mv, va, nt, np) := t in mkpso g o e1 e2 mv va nt np (ps_memory old).
