(** CMA-ES, src/algorithms/cmaes.cpp, without the log. *)
From Coq Require Import List Bool Arith ZArith.
From Verif Require Import Dbl Outcome StdSort Compare Problem Rng Generic GeneticOps Population Algo AlgNsga2 AlgEigen AlgMem.
Import ListNotations.
Local Open Scope rm_scope.
Local Notation "x <-- m ;; k" := (bind m (fun x => k)) (at level 61, m at next level, right associativity).

Record cmaes_params := mkcmaes { cm_gen : nat; cm_cc : dbl; cm_cs : dbl; cm_c1 : dbl; cm_cmu : dbl; cm_sigma0 : dbl; cm_ftol : dbl; cm_xtol : dbl; cm_memory : bool; cm_force : bool }.
(** The members that are kept between calls, cmaes.hpp:254-265; [variation] is never read. The two
    counters are 64 bits wide. *)
Record cmem := mkcmem { ce_sigma : dbl; ce_mean : vec; ce_newpop : list vec; ce_B : mat; ce_D : mat; ce_C : mat; ce_inv : mat; ce_pc : vec; ce_ps : vec; ce_count : Z; ce_eigen : Z }.
Definition u64 (z : Z) : Z := (z mod 2 ^ 64)%Z.
Definition minus_one : dbl := d_of_Z (-1).
(** ((c < 0.) || (c > 1.)) && !(c == -1) *)
Definition bad_rate (c : dbl) : bool := (dlt c dzero || dgt c done) && negb (deq c minus_one).
(** The constructor, cmaes.cpp:58-97 *)
Definition cmaes_ctor (a : cmaes_params) : outcome cmem :=
  if bad_rate (cm_cc a) then Throw InvalidArgument
  else if bad_rate (cm_cs a) then Throw InvalidArgument
  else if bad_rate (cm_c1 a) then Throw InvalidArgument
  else if bad_rate (cm_cmu a) then Throw InvalidArgument
  else Ok (mkcmem (cm_sigma0 a) (zeros 1) [] (ident 1) (ident 1) (ident 1) (ident 1) (zeros 1) (zeros 1) 0 0).

Section Cmaes.
Context {G P : Type} (r : rng G) (srt : sorter) (K : eigen) (reseed : problem -> Z -> problem) (a : cmaes_params).
Local Notation "x + y" := (dadd x y) : dbl_scope.
Local Notation "x - y" := (dsub x y) : dbl_scope.
Local Notation "x * y" := (dmul x y) : dbl_scope.
Local Notation "x / y" := (ddiv x y) : dbl_scope.
Local Notation n k := (d_of_Z k%Z).
Delimit Scope dbl_scope with d.
Definition of_nat (k : nat) : dbl := d_of_Z (Z.of_nat k).

(** What is computed from the parameters, the number mu of parents and the dimension at the start
    of evolve, cmaes.cpp:165-191 *)
Record rates := mkrates { ra_w : vec; ra_mueff : dbl; ra_cc : dbl; ra_cs : dbl; ra_c1 : dbl; ra_cmu : dbl; ra_damps : dbl; ra_chi : dbl }.
Definition cm_weights (mu : nat) : vec :=
  let w := map (fun i => (e_log K (of_nat mu + n 1 / n 2) - e_log K (of_nat i + n 1))%d) (seq 0 mu) in vover w (e_sum K w).
Definition cm_rates (mu dim : nat) : rates :=
  let w := cm_weights mu in let mueff := (n 1 / e_dot K w w)%d in let N := of_nat dim in
  let auto c v := if deq c minus_one then v else c in
  let cc := auto (cm_cc a) ((n 4 + mueff / N) / (N + n 4 + n 2 * mueff / N))%d in
  let cs := auto (cm_cs a) ((mueff + n 2) / (N + mueff + n 5))%d in
  let t := (N + n 13 / n 10)%d in
  let c1 := auto (cm_c1 a) (n 2 / (t * t + mueff))%d in
  let cmu := auto (cm_cmu a) (n 2 * (mueff - n 2 + n 1 / mueff) / ((N + n 2) * (N + n 2) + mueff))%d in
  mkrates w mueff cc cs c1 cmu
    (n 1 + n 2 * dmax dzero (dsqrt ((mueff - n 1) / (N + n 1)) - n 1) + cs)%d
    (dsqrt N * (n 1 - n 1 / (n 4 * N) + n 1 / (n 21 * N * N)))%d.

(** A vector element by element: v(j) = x[j] for j < dim *)
Definition copy (dim : nat) (x : list dbl) : outcome vec := mmap (vget x) (seq 0 dim).
(** The memory is erased, cmaes.cpp:203-231 *)
Definition cm_reset (s : pop P) : outcome cmem :=
  let p := po_prob s in let dim := get_nx p in
  b <-- best_idx srt s ;; x <-- vget (po_x s) b ;; m <-- copy dim x ;;
  w <-- mmap (fun j => l <-- vget (p_lb p) j ;; u <-- vget (p_ub p) j ;; Ok (dmax (dsub u l) (n 1 / n 1000000)%d)) (seq 0 dim) ;;
  C <-- mmul K dim (diag w) (diag w) ;;
  Ok (mkcmem (cm_sigma0 a) m (repeat (zeros dim) (length (po_id s))) (ident dim) (diag w) C (diag (map (fun d => (n 1 / d)%d) w)) (zeros dim) (zeros dim) 0 0).
(** newpop.size() != lam, newpop[0].rows() != dim or no memory; the dimensions are below 2^32 *)
Definition cm_start (k : cmem) (s : pop P) : outcome cmem :=
  if negb (Nat.eqb (length (ce_newpop k)) (length (po_id s))) then cm_reset s
  else v <-- vget (ce_newpop k) 0 ;; if negb (Nat.eqb (length v) (get_nx (po_prob s))) || negb (cm_memory a) then cm_reset s else Ok k.

(** A new individual and the step that leads to it, cmaes.cpp:246-253; the number that the
    distribution keeps for its next call is taken to be part of the generator *)
Definition cm_sample (dim : nat) (k : cmem) : RM G (vec * vec) :=
  tmp <- rmap (fun _ : nat => rdraw (g_norm r dzero done)) (seq 0 dim) ;;
  bd <- rlift (mmul K dim (mscale (ce_sigma k) (ce_B k)) (ce_D k)) ;;
  st <- rlift (mvec K dim bd tmp) ;; x <- rlift (vplus dim (ce_mean k) st) ;; rret (x, st).
(** |best - worst| in fitness, cmaes.cpp:265-267 *)
Definition spread (s : pop P) : outcome dbl :=
  b <-- best_idx srt s ;; w <-- worst_idx srt s ;; fb <-- vget (po_f s) b ;; fw <-- vget (po_f s) w ;;
  b0 <-- vget fb 0 ;; w0 <-- vget fw 0 ;; Ok (dabs (dsub b0 w0)).
(** The bounds, cmaes.cpp:301-311 *)
Definition clamp (l u x : dbl) : dbl := if dlt x l then l else if dgt x u then u else x.
Definition force_one (p : problem) (x : vec) : outcome vec :=
  mmap (fun j => v <-- vget x j ;; l <-- vget (p_lb p) j ;; u <-- vget (p_ub p) j ;; Ok (clamp l u v)) (seq 0 (get_nx p)).
Definition set_newpop (k : cmem) (l : list vec) : cmem :=
  mkcmem (ce_sigma k) (ce_mean k) l (ce_B k) (ce_D k) (ce_C k) (ce_inv k) (ce_pc k) (ce_ps k) (ce_count k) (ce_eigen k).

(** The elite, cmaes.cpp:350-360 *)
Definition cm_elite (dim mu : nat) (s : pop P) : outcome (list vec) :=
  fs <-- mmap (fun f => vget f 0) (po_f s) ;;
  idx <-- std_sort srt (fun i j => less_than_f (nth i fs NaN) (nth j fs NaN)) (seq 0 (length (po_id s))) ;;
  mmap (fun i => b <-- vget idx i ;; x <-- vget (po_x s) b ;; copy dim x) (seq 0 mu).
(** v_0 * w_0 + v_1 * w_1 + ..., added up from the left *)
Definition weighted (dim : nat) (vs : list vec) (w : vec) : outcome vec :=
  v0 <-- vget vs 0 ;; w0 <-- vget w 0 ;;
  mfold (fun m i => v <-- vget vs i ;; wi <-- vget w i ;; vplus dim m (vtimes v wi)) (vtimes v0 w0) (seq 1 (length vs - 1)).
Definition weighted_outer (dim : nat) (vs : list vec) (w : vec) : outcome mat :=
  v0 <-- vget vs 0 ;; w0 <-- vget w 0 ;;
  mfold (fun m i => v <-- vget vs i ;; wi <-- vget w i ;; mplus dim m (mtimes (outer v v) wi)) (mtimes (outer v0 v0) w0) (seq 1 (length vs - 1)).
(** cmaes.cpp:348-401: mean, evolution paths, covariance matrix, sigma, eigen-decomposition *)
Definition cm_adapt (c : rates) (dim lam : nat) (k : cmem) (elite : list vec) : outcome cmem :=
  let N := of_nat dim in let sigma := ce_sigma k in let cs := ra_cs c in let cc := ra_cc c in let c1 := ra_c1 c in let cmu := ra_cmu c in
  let count := u64 (ce_count k + Z.of_nat lam) in
  mean <-- weighted dim elite (ra_w c) ;;
  dm <-- vminus dim mean (ce_mean k) ;;
  inv_dm <-- mvec K dim (mscale (dsqrt (cs * (n 2 - cs) * ra_mueff c)%d) (ce_inv k)) dm ;;
  ps <-- vplus dim (vscale (n 1 - cs)%d (ce_ps k)) (vover inv_dm sigma) ;;
  let hs := dlt (sqnorm K ps / N / (n 1 - e_pow K (n 1 - cs) (n 2 * d_of_Z count / of_nat lam)))%d (n 2 + n 4 / (N + n 1))%d in
  let hsig := if hs then done else dzero in
  pc <-- vplus dim (vscale (n 1 - cc)%d (ce_pc k)) (vover (vscale (hsig * dsqrt (cc * (n 2 - cc) * ra_mueff c))%d dm) sigma) ;;
  diffs <-- mmap (fun v => vminus dim v (ce_mean k)) elite ;;
  rank_mu <-- weighted_outer dim diffs (ra_w c) ;;
  C1 <-- mplus dim (mscale (n 1 - c1 - cmu)%d (ce_C k)) (mscale cmu (mover rank_mu (sigma * sigma)%d)) ;;
  R <-- mplus dim (outer pc pc) (mscale ((n 1 - hsig) * cc * (n 2 - cc))%d (ce_C k)) ;;
  C <-- mplus dim C1 (mscale c1 R) ;;
  let sigma' := (sigma * e_exp K (dmin (n 6 / n 10) ((cs / ra_damps c) * (vnorm K ps / ra_chi c - n 1))))%d in
  if dgt (d_of_Z (u64 (count - ce_eigen k))) (of_nat lam / (c1 + cmu) / N / n 10)%d then
    Ct <-- transpose dim C ;; C2 <-- mplus dim C Ct ;;
    let Cs := mover C2 (n 2) in
    match e_eigh K Cs with
    | None => Ok (mkcmem sigma' mean (ce_newpop k) (ce_B k) (ce_D k) Cs (ce_inv k) pc ps count count)
    | Some (V, l) =>
        let d := map (fun x => dsqrt (dmax (n 1 / n (10 ^ 20))%d x)) l in
        Vt <-- transpose dim V ;; B1 <-- mmul K dim V (diag (map (fun x => (n 1 / x)%d) d)) ;; inv <-- mmul K dim B1 Vt ;;
        Ok (mkcmem sigma' mean (ce_newpop k) V (diag d) Cs inv pc ps count count)
    end
  else Ok (mkcmem sigma' mean (ce_newpop k) (ce_B k) (ce_D k) C (ce_inv k) pc ps count (ce_eigen k)).

(** One generation, cmaes.cpp:244-402; false where evolve returns *)
Definition cm_generation (bfe : option (problem -> list dbl -> outcome (list dbl))) (c : rates) : MM (P := P) bool :=
  s <- getp ;; k <- getm ;;
  let p := po_prob s in let dim := get_nx p in let lam := length (po_id s) in
  l <- mdraws (rmap (fun _ : nat => cm_sample dim k) (seq 0 lam)) ;;
  setm (set_newpop k (map fst l)) ;;;
  last <- rlift (vget l (lam - 1)) ;;
  if dlt (vnorm K (snd last)) (cm_xtol a) then rret false else
  sp <- rlift (spread s) ;;
  if dlt sp (cm_ftol a) then rret false else
  new <- (if cm_force a then rlift (mmap (force_one p) (map fst l)) else rret (map fst l)) ;;
  setm (set_newpop k new) ;;;
  (if u_set_seed (p_udp p) then sd <- mdraws (draw_int r 0 (2 ^ 32 - 1)) ;; mset_problem (reseed p sd) else rret tt) ;;;
  set_all bfe new ;;;
  t <- getp ;;
  elite <- rlift (cm_elite dim (lam / 2) t) ;;
  k' <- rlift (cm_adapt c dim lam (set_newpop k new) elite) ;;
  setm k' ;;; rret true.
Fixpoint cm_gens (bfe : option (problem -> list dbl -> outcome (list dbl))) (c : rates) (g : nat) : MM (P := P) unit :=
  match g with
  | 0 => rret tt
  | S g' => go <- cm_generation bfe c ;; if go : bool then cm_gens bfe c g' else rret tt
  end.
(** evolve, cmaes.cpp:111-407 *)
Definition cmaes_evolve (bfe : option (problem -> list dbl -> outcome (list dbl))) : MM (P := P) unit :=
  s <- getp ;;
  let p := po_prob s in let lam := length (po_id s) in
  if negb (Nat.eqb (get_nc p) 0) then rlift (Throw InvalidArgument)
  else if negb (Nat.eqb (get_nf p) 1) then rlift (Throw InvalidArgument)
  else if Nat.ltb lam 5 then rlift (Throw InvalidArgument)
  else if negb (forallb isfinite (p_lb p)) then rlift (Throw InvalidArgument)
  else if negb (forallb isfinite (p_ub p)) then rlift (Throw InvalidArgument)
  else if Nat.eqb (cm_gen a) 0 then rret tt
  else
    k <- getm ;; k' <- rlift (cm_start k s) ;; setm k' ;;;
    cm_gens bfe (cm_rates (lam / 2) (get_nx p)) (cm_gen a).
End Cmaes.
