(** Generational particle swarm optimization: src/algorithms/pso_gen.cpp. The constructor
    (lines 77-112), the speeds at the start (195-203), the topologies (205-218, 620-795), the
    velocity formulas (241-328) and the move (336-369) are those of pso.cpp, line by line,
    and are taken from AlgPso.v; here is what is different: the phases of a generation, the
    evaluation, one point at a time or by a batch evaluator, of stochastic problems too, and
    the comparisons, which put NaN last. The log is left out. *)
From Coq Require Import List Bool Arith ZArith.
From Verif Require Import Dbl Compare Outcome StdSort Problem Rng Generic GeneticOps Population Algo AlgNsga2 AlgMoeadGen AlgPso.
Import ListNotations.
Local Open Scope rm_scope.

(** detail::less_than_f(a, b) || detail::equal_to_f(a, b), pso_gen.cpp:446, 453, 612-613 *)
Definition not_above (a b : dbl) : bool := less_than_f a b || equal_to_f a b.

(** particle__get_best_neighbor, pso_gen.cpp:593-622 *)
Definition pgen_best_neighbor (nb : list Z) (lbX lbf : list (list dbl)) : outcome (list dbl) :=
  bind (vget nb 0) (fun b0 =>
  bind (mfold (fun b k => bind (vgetz lbf k) (fun fk => bind (vget fk 0) (fun a => bind (vgetz lbf b) (fun fb => bind (vget fb 0) (fun c =>
          Ok (if not_above a c then k else b)))))) b0 (tl nb)) (fun b =>
  vgetz lbX b)).

Section PsoGen.
Context {G P : Type} (srt : sorter) (r : rng G) (reseed : problem -> Z -> problem).
(** m_bfe *)
Context (bfe : option (problem -> list dbl -> outcome (list dbl))).

(** pop.get_problem().set_seed(k), pso_gen.cpp:373 *)
Definition pset_problem (p : problem) : @AM G P unit := fun s =>
  (Ok tt, (fst s, {| po_prob := p; po_fevals := po_fevals (snd s); po_id := po_id (snd s); po_x := po_x (snd s); po_f := po_f (snd s);
                     po_cx := po_cx (snd s); po_cf := po_cf (snd s); po_rng := po_rng (snd s) |})).

(** The new velocity of particle i, pso_gen.cpp:232-329. dim, lb and ub were read before the
    first generation, from the problem p. *)
Definition pgen_speed (a : pso_params) (p : problem) (sw : swarm) (i : nat) : RM G swarm :=
  V <- rlift (vget (sw_V sw) i) ;;
  X <- rlift (vget (sw_X sw) i) ;;
  lx <- rlift (vget (sw_lbX sw) i) ;;
  nb <- rlift (vget (sw_nb sw) i) ;;
  bn <- (if negb (Nat.eqb (ps_ntype a) 1) && negb (Nat.eqb (ps_variant a) 6) then rlift (pgen_best_neighbor nb (sw_lbX sw) (sw_lbf sw)) else rret (sw_bn sw)) ;;
  V1 <- pso_velocity r a nb (sw_lbX sw) V X lx bn (get_nx p) ;;
  rret (mkswarm (upd (sw_V sw) i (V1 ++ skipn (get_nx p) V)) (sw_X sw) (sw_lbX sw) (sw_lbf sw) bn (sw_bf sw) (sw_improved sw) (sw_nb sw)).

(** The move of particle i, pso_gen.cpp:332-370 *)
Definition pgen_move (a : pso_params) (p : problem) (sw : swarm) (i : nat) : outcome swarm :=
  bind (vget (sw_V sw) i) (fun V => bind (vget (sw_X sw) i) (fun X =>
  bind (mmap (fun d => bind (vget (p_lb p) d) (fun l => bind (vget (p_ub p) d) (fun u => bind (vget V d) (fun v => bind (vget X d) (fun x =>
          Ok (pso_move1 a l u v x)))))) (seq 0 (get_nx p))) (fun moved =>
  Ok (mkswarm (upd (sw_V sw) i (map fst moved ++ skipn (get_nx p) V)) (upd (sw_X sw) i (map snd moved)) (sw_lbX sw) (sw_lbf sw) (sw_bn sw) (sw_bf sw) (sw_improved sw) (sw_nb sw))))).

(** The positions X and the remembered positions lbX are evaluated after a new seed, one by
    one in turn or in two batches, pso_gen.cpp:376-394, 408-413. *)
Definition pgen_eval_both (X lbX : list (list dbl)) : @AM G P (list (list dbl) * list (list dbl)) :=
  match bfe with
  | None =>
      both <- rmap (fun c => f <- peval (fst c) ;; g <- peval (snd c) ;; rret (f, g)) (combine X lbX) ;;
      rret (map fst both, map snd both)
  | Some ud => fs <- nsga2_eval_batch ud X ;; gs <- nsga2_eval_batch ud lbX ;; rret (fs, gs)
  end.
(** best_neighb and best_fit after a new seed, pso_gen.cpp:395-403, 415-423 *)
Definition pgen_best (X fs : list (list dbl)) : outcome (list dbl * list dbl) :=
  bind (vget fs 0) (fun f0 => bind (vget X 0) (fun x0 =>
  mfold (fun b q => bind (vget fs q) (fun f => bind (vget f 0) (fun v => bind (vget (snd b) 0) (fun w =>
          if less_than_f v w then bind (vget X q) (fun x => Ok (x, f)) else Ok b)))) (x0, f0) (seq 1 (length X - 1)))).
(** The evaluation of a generation, pso_gen.cpp:372-441: fit, and the swarm *)
Definition pgen_evaluate (sw : swarm) : @AM G P (list (list dbl) * swarm) :=
  s <- getp ;;
  if u_set_seed (p_udp (po_prob s)) then
    k <- eng (draw_int r 0 (2 ^ 32 - 1)) ;;
    pset_problem (reseed (po_prob s) k) ;;;
    e <- pgen_eval_both (sw_X sw) (sw_lbX sw) ;;
    b <- rlift (pgen_best (sw_X sw) (fst e)) ;;
    rret (fst e, mkswarm (sw_V sw) (sw_X sw) (sw_lbX sw) (snd e) (fst b) (snd b) (sw_improved sw) (sw_nb sw))
  else
    fs <- mgen_eval bfe (sw_X sw) ;;
    rret (fs, sw).

(** The memory of particle i, pso_gen.cpp:445-459 *)
Definition pgen_update (a : pso_params) (fs : list (list dbl)) (sw : swarm) (i : nat) : outcome swarm :=
  bind (vget fs i) (fun f => bind (vget f 0) (fun v => bind (vget (sw_lbf sw) i) (fun g => bind (vget g 0) (fun w => bind (vget (sw_X sw) i) (fun x =>
  if not_above v w then
    bind (if Nat.eqb (ps_ntype a) 1 || Nat.eqb (ps_ntype a) 4 then bind (vget (sw_bf sw) 0) (fun b => Ok (not_above v b)) else Ok false) (fun track =>
    Ok (mkswarm (sw_V sw) (sw_X sw) (upd (sw_lbX sw) i x) (upd (sw_lbf sw) i f)
          (if track then x else sw_bn sw) (if track then f else sw_bf sw) (if track then true else sw_improved sw) (sw_nb sw)))
  else Ok sw))))).

(** One generation, pso_gen.cpp:229-463; the log is left out *)
Definition pgen_generation (a : pso_params) (p : problem) (n : nat) (sw : swarm) (_ : nat) : @AM G P swarm :=
  sw1 <- eng (rfold (pgen_speed a p) sw (seq 0 n)) ;;
  sw2 <- rlift (mfold (pgen_move a p) sw1 (seq 0 n)) ;;
  e <- pgen_evaluate sw2 ;;
  let '(fs, sw3) := e in
  let sw4 := mkswarm (sw_V sw3) (sw_X sw3) (sw_lbX sw3) (sw_lbf sw3) (sw_bn sw3) (sw_bf sw3) false (sw_nb sw3) in
  sw5 <- rlift (mfold (pgen_update a fs) sw4 (seq 0 n)) ;;
  if Nat.eqb (ps_ntype a) 4 && negb (sw_improved sw5) then
    nb <- eng (pso_adaptive r n (ps_nparam a)) ;;
    rret (mkswarm (sw_V sw5) (sw_X sw5) (sw_lbX sw5) (sw_lbf sw5) (sw_bn sw5) (sw_bf sw5) (sw_improved sw5) nb)
  else rret sw5.

(** evolve, pso_gen.cpp:120-530; V0 is m_V before the call, the result is m_V after it. When
    an exception is thrown the velocities computed so far are lost in the model. *)
Definition pgen_evolve (a : pso_params) (V0 : list (list dbl)) : @AM G P (list (list dbl)) :=
  s <- getp ;;
  let p := po_prob s in let n := length (po_id s) in
  if negb (Nat.eqb (get_nc p) 0) then rlift (Throw InvalidArgument)
  else if negb (Nat.eqb (get_nf p) 1) then rlift (Throw InvalidArgument)
  else if Nat.eqb n 0 then rlift (Throw InvalidArgument)
  else
    V <- eng (pso_speeds r a n p V0) ;;
    t <- pso_topology srt r a n ;;
    let '(nb, bn, bf) := t in
    sw <- rfold (pgen_generation a p n) (mkswarm V (po_x s) (po_x s) (po_f s) bn bf false nb) (seq 1 (ps_gen a)) ;;
    rfold (fun _ i => x <- rlift (vget (sw_lbX sw) i) ;; f <- rlift (vget (sw_lbf sw) i) ;; pset i x f) tt (seq 0 n) ;;;
    rret (sw_V sw).
End PsoGen.

(** serialize, pso_gen.cpp:577-582: as in pso, with the batch evaluator at the end *)
Definition pgen_save {B} (a : pso_params) (bfe : option B) : nat * dbl * dbl * dbl * dbl * nat * nat * nat * option B :=
  (ps_gen a, ps_omega a, ps_eta1 a, ps_eta2 a, ps_max_vel a, ps_variant a, ps_ntype a, ps_nparam a, bfe).
Definition pgen_load {B} (old : pso_params) (t : nat * dbl * dbl * dbl * dbl * nat * nat * nat * option B) : pso_params * option B :=
  let '(t', b) := t in (pso_load old t', b).
