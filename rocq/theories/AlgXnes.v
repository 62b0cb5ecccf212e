(** Exponential natural evolution strategies, src/algorithms/xnes.cpp, without the log. *)
From Coq Require Import List Bool Arith ZArith.
From Verif Require Import Dbl Outcome StdSort Compare Problem Rng Generic GeneticOps Population Algo AlgNsga2 AlgEigen AlgMem AlgCmaes.
Import ListNotations.
Local Open Scope rm_scope.
Local Notation "x <-- m ;; k" := (bind m (fun x => k)) (at level 61, m at next level, right associativity).

Record xnes_params := mkxnes { xn_gen : nat; xn_eta_mu : dbl; xn_eta_sigma : dbl; xn_eta_b : dbl; xn_sigma0 : dbl; xn_ftol : dbl; xn_xtol : dbl; xn_memory : bool; xn_force : bool }.
(** The members that are kept between calls, xnes.hpp:258-260 *)
Record xmem := mkxmem { xe_sigma : dbl; xe_mean : vec; xe_A : mat }.
(** ((c <= 0.) || (c > 1.)) && !(c == -1) *)
Definition bad_eta (c : dbl) : bool := (dle c dzero || dgt c done) && negb (deq c minus_one).
(** The constructor, xnes.cpp:53-82 *)
Definition xnes_ctor (a : xnes_params) : outcome xmem :=
  if bad_eta (xn_eta_mu a) then Throw InvalidArgument
  else if bad_eta (xn_eta_sigma a) then Throw InvalidArgument
  else if bad_eta (xn_eta_b a) then Throw InvalidArgument
  else if bad_eta (xn_sigma0 a) then Throw InvalidArgument
  else Ok (mkxmem (xn_sigma0 a) (zeros 1) (ident 1)).

Section Xnes.
Context {G P : Type} (r : rng G) (srt : sorter) (K : eigen) (reseed : problem -> Z -> problem) (a : xnes_params).
Local Notation "x + y" := (dadd x y) : dbl_scope.
Local Notation "x - y" := (dsub x y) : dbl_scope.
Local Notation "x * y" := (dmul x y) : dbl_scope.
Local Notation "x / y" := (ddiv x y) : dbl_scope.
Local Notation n k := (d_of_Z k%Z).
Delimit Scope dbl_scope with d.

(** The learning rates, xnes.cpp:152-165 *)
Definition xn_common (dim : nat) : dbl := let N := of_nat dim in (n 6 / n 10 * (n 3 + e_log K N) / (N * dsqrt N))%d.
Definition xn_rate_mu : dbl := if deq (xn_eta_mu a) minus_one then done else xn_eta_mu a.
Definition xn_rate_sigma (dim : nat) : dbl := if deq (xn_eta_sigma a) minus_one then xn_common dim else xn_eta_sigma a.
Definition xn_rate_b (dim : nat) : dbl := if deq (xn_eta_b a) minus_one then xn_common dim else xn_eta_b a.
(** The utilities, xnes.cpp:167-177 *)
Definition xn_utilities (lam : nat) : vec :=
  let u := map (fun i => dmax dzero (e_log K (of_nat lam / n 2 + n 1) - e_log K (of_nat (i + 1)))%d) (seq 0 lam) in
  let sum := fold_left dadd u dzero in map (fun x => (x / sum - n 1 / of_nat lam)%d) u.
(** The memory is erased if the dimension is another one or there is no memory, xnes.cpp:180-198 *)
Definition xn_reset (s : pop P) : outcome xmem :=
  let p := po_prob s in let dim := get_nx p in
  let sigma := if deq (xn_sigma0 a) minus_one then (n 1 / n 2)%d else xn_sigma0 a in
  w <-- mmap (fun j => l <-- vget (p_lb p) j ;; u <-- vget (p_ub p) j ;; Ok (dmax (u - l) (n 1 / n 1000000) * sigma)%d) (seq 0 dim) ;;
  b <-- best_idx srt s ;; x <-- vget (po_x s) b ;; m <-- copy dim x ;;
  Ok (mkxmem sigma m (diag w)).
Definition xn_start (k : xmem) (s : pop P) : outcome xmem :=
  if negb (Nat.eqb (length (xe_mean k)) (get_nx (po_prob s))) || negb (xn_memory a) then xn_reset s else Ok k.

(** One individual is drawn, evaluated and stored, xnes.cpp:222-243; z is returned. What the
    normal distribution keeps for its next call is taken to be part of the generator. *)
Definition xn_one (k : xmem) (zs : list vec) (i : nat) : MM (M := xmem) (P := P) (list vec) :=
  s <- getp ;;
  let p := po_prob s in let dim := get_nx p in
  z <- mdraws (rmap (fun _ : nat => rdraw (g_norm r dzero done)) (seq 0 dim)) ;;
  st <- rlift (mvec K dim (xe_A k) z) ;; pt <- rlift (vplus dim (xe_mean k) st) ;;
  x <- rlift (if xn_force a then force_one p pt else Ok pt) ;;
  f <- peval x ;; pset i x f ;;; rret (zs ++ [z]).
(** The sort of xnes.cpp:291-295: plain < on the objective *)
Definition xn_order (s : pop P) : outcome (list nat) :=
  fs <-- mmap (fun f => vget f 0) (po_f s) ;;
  std_sort srt (fun i j => dlt (nth i fs NaN) (nth j fs NaN)) (seq 0 (length (po_id s))).
(** u_0 * v_0 + u_1 * v_1 + ..., and the sum of u_i * (v_i * v_i^T - I) *)
Definition lsum (dim : nat) (u : vec) (vs : list vec) : outcome vec :=
  v0 <-- vget vs 0 ;; u0 <-- vget u 0 ;;
  mfold (fun m i => v <-- vget vs i ;; ui <-- vget u i ;; vplus dim m (vscale ui v)) (vscale u0 v0) (seq 1 (length vs - 1)).
Definition spread_of (dim : nat) (v : vec) : outcome mat := mminus dim (outer v v) (ident dim).
Definition lsum_outer (dim : nat) (u : vec) (vs : list vec) : outcome mat :=
  v0 <-- vget vs 0 ;; u0 <-- vget u 0 ;; m0 <-- spread_of dim v0 ;;
  mfold (fun m i => v <-- vget vs i ;; ui <-- vget u i ;; mi <-- spread_of dim v ;; mplus dim m (mscale ui mi)) (mscale u0 m0) (seq 1 (length vs - 1)).
(** The update, xnes.cpp:297-311; the sorted z are given *)
Definition xn_adapt (dim lam : nat) (k : xmem) (vs : list vec) : outcome xmem :=
  let N := of_nat dim in let u := xn_utilities lam in
  center <-- lsum dim u vs ;; cov <-- lsum_outer dim u vs ;;
  dg <-- diagonal dim cov ;; let tr := e_sum K dg in
  cov' <-- mminus dim cov (mscale (tr / N)%d (ident dim)) ;;
  dA <-- mplus dim (mscale (xn_rate_sigma dim * tr / N)%d (ident dim)) (mscale (xn_rate_b dim) cov') ;;
  step <-- mvec K dim (mscale xn_rate_mu (xe_A k)) center ;;
  mean <-- vplus dim (xe_mean k) step ;;
  A <-- mmul K dim (xe_A k) (e_mexp K (mscale (n 1 / n 2)%d dA)) ;;
  Ok (mkxmem (xe_sigma k * e_exp K (xn_rate_sigma dim / n 2 * tr / N))%d mean A).

(** One generation, xnes.cpp:214-312; false where evolve returns *)
Definition xn_generation : MM (M := xmem) (P := P) bool :=
  s <- getp ;; k <- getm ;;
  let p := po_prob s in let dim := get_nx p in let lam := length (po_id s) in
  (if u_set_seed (p_udp p) then sd <- mdraws (draw_int r 0 (2 ^ 32 - 1)) ;; mset_problem (reseed p sd) else rret tt) ;;;
  zs <- rfold (xn_one k) [] (seq 0 lam) ;;
  z0 <- rlift (vget zs 0) ;; st <- rlift (mvec K dim (xe_A k) z0) ;;
  if dlt (vnorm K st) (xn_xtol a) then rret false else
  t <- getp ;; sp <- rlift (spread srt t) ;;
  if dlt sp (xn_ftol a) then rret false else
  idx <- rlift (xn_order t) ;;
  vs <- rlift (mmap (vget zs) idx) ;;
  k' <- rlift (xn_adapt dim lam k vs) ;;
  setm k' ;;; rret true.
Fixpoint xn_gens (g : nat) : MM (M := xmem) (P := P) unit :=
  match g with
  | 0 => rret tt
  | S g' => go <- xn_generation ;; if go : bool then xn_gens g' else rret tt
  end.
(** evolve, xnes.cpp:96-317 *)
Definition xnes_evolve : MM (M := xmem) (P := P) unit :=
  s <- getp ;;
  let p := po_prob s in let lam := length (po_id s) in
  if negb (Nat.eqb (get_nc p) 0) then rlift (Throw InvalidArgument)
  else if negb (Nat.eqb (get_nf p) 1) then rlift (Throw InvalidArgument)
  else if Nat.ltb lam 4 then rlift (Throw InvalidArgument)
  else if negb (forallb isfinite (p_lb p)) then rlift (Throw InvalidArgument)
  else if negb (forallb isfinite (p_ub p)) then rlift (Throw InvalidArgument)
  else if Nat.eqb (xn_gen a) 0 then rret tt
  else k <- getm ;; k' <- rlift (xn_start k s) ;; setm k' ;;; xn_gens (xn_gen a).
End Xnes.
