(** Non-dominated sorting particle swarm optimization: src/algorithms/nspso.cpp.

    std::pow and std::sort are parameters. The log is left out. *)
From Coq Require Import List Bool Arith ZArith.
From Verif Require Import Dbl Compare Outcome StdSort Problem Rng MultiObj Generic GeneticOps Population Algo AlgSga AlgNsga2 AlgMoeadGen.
Import ListNotations.
Local Open Scope rm_scope.

(** m_diversity_mechanism: "crowding distance", "niche count", "max min" *)
Inductive diversity := Crowding | NicheCount | MaxMin.
Record nspso_params := mknspso { np_gen : nat; np_omega : dbl; np_c1 : dbl; np_c2 : dbl; np_chi : dbl; np_vcoeff : dbl; np_range : nat; np_div : diversity; np_memory : bool }.
(** m_best_fit, m_best_dvs, m_velocity *)
Record nspso_mem := mknspmem { nm_f : list (list dbl); nm_x : list (list dbl); nm_v : list (list dbl) }.

(** The constructor, nspso.cpp:52-80; [None] is any other string *)
Definition nspso_construct (gen : nat) (omega c1 c2 chi vcoeff : dbl) (range : nat) (d : option diversity) (memory : bool) : outcome nspso_params :=
  if dlt omega dzero || dgt omega done then Throw InvalidArgument
  else if dle c1 dzero || dle c2 dzero || dle chi dzero then Throw InvalidArgument
  else if dle vcoeff dzero || dgt vcoeff done then Throw InvalidArgument
  else if Nat.ltb 100 range then Throw InvalidArgument
  else match d with None => Throw InvalidArgument | Some d => Ok (mknspso gen omega c1 c2 chi vcoeff range d memory) end.

(** minfit, nspso.cpp:448-466; fi and fj are fit[i] and fit[j], m is fit[0].size() *)
Definition minfit (m : nat) (fi fj : list dbl) : outcome dbl :=
  bind (vget fi 0) (fun a => bind (vget fj 0) (fun b =>
  mfold (fun acc k => bind (vget fi k) (fun a => bind (vget fj k) (fun b => let t := dsub a b in Ok (if dlt t acc then t else acc)))) (dsub a b) (seq 0 m))).
(** maxmin[i] in compute_maxmin, nspso.cpp:468-488 *)
Definition maxmin1 (fit : list (list dbl)) (m i : nat) : outcome dbl :=
  bind (vget fit i) (fun fi =>
  bind (vget fit ((i + 1) mod length fit)) (fun fn =>
  bind (minfit m fi fn) (fun v0 =>
  mfold (fun acc j => if Nat.eqb i j then Ok acc else bind (vget fit j) (fun fj => bind (minfit m fi fj) (fun t => Ok (if dgt t acc then t else acc)))) v0 (seq 0 (length fit))))).
Definition compute_maxmin (fit : list (list dbl)) : outcome (list dbl) :=
  bind (vget fit 0) (fun f0 => mmap (maxmin1 fit (length f0)) (seq 0 (length fit))).
(** The indices sorted by increasing value, NaN last: nspso.cpp:255-260, 273-277, 385-391 *)
Definition sort_by (srt : sorter) (v : list dbl) (n : nat) : outcome (list nat) := std_sort srt (fun i j => less_than_f (cmpn v i) (cmpn v j)) (seq 0 n).
(** std::vector(v.begin(), v.begin() + k): undefined beyond the end *)
Definition take {A} (k : nat) (l : list A) : outcome (list A) := if Nat.leb k (length l) then Ok (firstn k l) else UB.

Section Leaders.
Context (srt : sorter) (pw : dbl -> dbl -> dbl).
(** euclidian_distance, nspso.cpp:490-501 *)
Definition euclid (x y : list dbl) : outcome dbl :=
  bind (mfold (fun s i => bind (vget x i) (fun a => bind (vget y i) (fun b => Ok (dadd s (pw (dsub a b) (d_of_Z 2)))))) dzero (seq 0 (length x))) (fun s => Ok (dsqrt s)).
(** compute_niche_count, nspso.cpp:503-521 *)
Definition niche_count (delta : dbl) (xs : list (list dbl)) : outcome (list nat) :=
  mmap (fun x => mfold (fun c y => bind (euclid x y) (fun d => Ok (if dlt d delta then c + 1 else c))) 0 xs) xs.
(** delta, nspso.cpp:223-250; nobj is prob.get_nobj(), k the number of non-dominated points *)
Definition niche_delta (nobj k : nat) (nad idl : list dbl) : outcome dbl :=
  if Nat.eqb nobj 2 then
    bind (vget nad 0) (fun n0 => bind (vget idl 0) (fun i0 => bind (vget nad 1) (fun n1 => bind (vget idl 1) (fun i1 =>
    let k' := if Nat.eqb k 1 then 2 else k in
    Ok (ddiv (dadd (dsub n0 i0) (dsub n1 i1)) (dsub (d_of_Z (Z.of_nat k')) done))))))
  else if Nat.eqb nobj 3 then
    bind (vget nad 0) (fun n0 => bind (vget idl 0) (fun i0 => bind (vget nad 1) (fun n1 => bind (vget idl 1) (fun i1 => bind (vget nad 2) (fun n2 => bind (vget idl 2) (fun i2 =>
    let d1 := dsub n0 i0 in let d2 := dsub n1 i1 in let d3 := dsub n2 i2 in
    let two := d_of_Z 2 in let four := d_of_Z 4 in
    let nd0 := d_of_Z (Z.of_nat k) in let nd := if dlt nd0 two then two else nd0 in
    let s0 := dadd (dadd (dmul (dmul (dmul four d2) d1) nd) (dmul (dmul (dmul four d3) d1) nd)) (dmul (dmul (dmul four d2) d3) nd) in
    let s1 := dadd (dadd (dadd s0 (pw d1 two)) (pw d2 two)) (pw d3 two) in
    let s2 := dsub (dsub (dsub s1 (dmul (dmul two d2) d1)) (dmul (dmul two d3) d1)) (dmul (dmul two d2) d3) in
    Ok (ddiv (dsqrt (dadd (dadd (dadd s2 d1) d2) d3)) (dmul two (dsub nd done)))))))))
  else
    bind (mfold (fun d i => bind (vget nad i) (fun n => bind (vget idl i) (fun m => Ok (dmul d (dsub n m))))) done (seq 0 (length nad))) (fun d =>
    Ok (ddiv (pw d (ddiv done (d_of_Z (Z.of_nat (length nad))))) (d_of_Z (Z.of_nat k)))).
(** The for loop of nspso.cpp:280-281: the first position from k on that is not negative *)
Fixpoint first_nonneg (mm : list dbl) (l : list nat) (k : nat) : nat :=
  match l with [] => k | i :: l' => if dlt (cmpn mm i) dzero then first_nonneg mm l' (k + 1) else k end.
(** best_non_dom_indices, nspso.cpp:157-162, 195-290. The coordinates [dvs] are only used for
    the niche count. *)
Definition np_leaders (d : diversity) (nobj : nat) (fit dvs : list (list dbl)) : outcome (list nat) :=
  bind (fast_non_dominated_sorting fit) (fun t =>
  match d with
  | Crowding =>
      bind (sort_population_mo srt fit) (fun idx => bind (vget (fr_fronts t) 0) (fun f0 =>
      if Nat.ltb 1 (length f0) then take (length f0) idx else take 2 idx))
  | NicheCount =>
      bind (sort_population_mo srt fit) (fun _ => bind (vget (fr_fronts t) 0) (fun f0 =>
      bind (mmap (vget dvs) f0) (fun xs => bind (nadir fit) (fun nad => bind (ideal fit) (fun idl =>
      bind (niche_delta nobj (length xs) nad idl) (fun delta => bind (niche_count delta xs) (fun cnt =>
      bind (sort_by srt (map (fun c => d_of_Z (Z.of_nat c)) cnt) (length xs)) (fun sl =>
      if Nat.ltb 1 (length f0) then mmap (vget f0) sl
      else bind (vget f0 0) (fun a => bind (vget (fr_fronts t) 1) (fun f1 => bind (vget f1 0) (fun b => Ok [a; b]))))))))))) 
  | MaxMin =>
      bind (compute_maxmin fit) (fun mm => bind (sort_by srt mm (length fit)) (fun sl =>
      take (Nat.max 2 (first_nonneg mm (skipn 1 sl) 1)) sl))
  end).
(** best_next_pop_indices, nspso.cpp:374-393 *)
Definition np_select (d : diversity) (n : nat) (fit : list (list dbl)) : outcome (list nat) :=
  match d with
  | MaxMin => bind (compute_maxmin fit) (fun mm => bind (sort_by srt mm (length fit)) (fun sl => take n sl))
  | _ => bind (fast_non_dominated_sorting fit) (fun _ => bind (sort_population_mo srt fit) (fun sl => take n sl))
  end.
End Leaders.

(** std::ceil *)
Definition dceil (a : dbl) : dbl := match a with Fin z => Fin (- ((- z) / one_z) * one_z) | _ => a end.
(** static_cast<int>(a): undefined if the value is not in the range of int *)
Definition to_int (a : dbl) : outcome Z := match a with Fin z => let k := Z_of_d z in if (Z.leb (- 2 ^ 31) k && Z.ltb k (2 ^ 31))%Z%bool then Ok k else UB | _ => UB end.
(** ext, nspso.cpp:295-301 *)
Definition np_ext (size range : nat) : outcome Z :=
  bind (to_int (dsub (dceil (ddiv (dmul (d_of_Z (Z.of_nat size)) (d_of_Z (Z.of_nat range))) dhundred)) done)) (fun e => Ok (if Z.ltb e 1 then 1%Z else e)).

Section Nspso.
Context {G P : Type} (srt : sorter) (r : rng G) (pw : dbl -> dbl -> dbl) (fuel : nat).
(** m_bfe *)
Context (bfe : option (problem -> list dbl -> outcome (list dbl))).
Context (a : nspso_params).

(** The index of the leader, nspso.cpp:303-308 *)
Fixpoint np_pick (k : nat) (ext : Z) (bnd : list nat) (idx : nat) : RM G nat :=
  match k with
  | 0 => rlift NoFuel
  | S k' => l <- draw_int r 0 ext ;; b <- rlift (vget bnd (Z.to_nat l)) ;; if Nat.eqb b idx then np_pick k' ext bnd idx else rret b
  end.
(** One coordinate: the new velocity and the new position, nspso.cpp:319-336, with
    maxv (:139-144); minv is -1. * maxv, which is exact. *)
Definition np_width (l u : dbl) : dbl := dmul (dsub u l) (np_vcoeff a).
Definition np_move1 (l u r1 r2 v b x w : dbl) : dbl * dbl :=
  let v0 := dadd (dadd (dmul (np_omega a) v) (dmul (dmul (np_c1 a) r1) (dsub b x))) (dmul (dmul (np_c2 a) r2) (dsub w x)) in
  let m := np_width l u in
  let v1 := if dgt v0 m then m else if dlt v0 (dneg m) then dneg m else v0 in
  let y := dadd x (dmul (np_chi a) v1) in
  if dgt y u then (dzero, u) else if dlt y l then (dzero, l) else (v1, y).
(** Particle idx: its new velocity and position, nspso.cpp:293-341. Only the particle's own
    entries of dvs and m_velocity are read, so they are read before the loop. *)
Definition np_particle (p : problem) (bnd : list nat) (bx X V : list (list dbl)) (idx : nat) : RM G (list dbl * list dbl) :=
  ext <- rlift (np_ext (length bnd) (np_range a)) ;;
  b <- np_pick fuel ext bnd idx ;;
  leader <- rlift (vget bx b) ;;
  r1 <- draw01 r ;; r2 <- draw01 r ;;
  v <- rlift (vget V idx) ;; y <- rlift (vget bx idx) ;; x <- rlift (vget X idx) ;;
  mv <- rlift (mmap (fun i => bind (vget (p_lb p) i) (fun l => bind (vget (p_ub p) i) (fun u => bind (vget v i) (fun vi => bind (vget y i) (fun yi => bind (vget x i) (fun xi => bind (vget leader i) (fun wi =>
                 Ok (np_move1 l u r1 r2 vi yi xi wi))))))))  (seq 0 (get_nx p))) ;;
  rret (map fst mv, map snd mv).
(** All particles and their fitness vectors, nspso.cpp:293-368. Without an evaluator every
    particle is evaluated when it has been moved. *)
Definition np_moves (p : problem) (bnd : list nat) (bx X V : list (list dbl)) (n : nat) : @AM G P (list (list dbl * list dbl) * list (list dbl)) :=
  match bfe with
  | None =>
      cs <- rmap (fun i => c <- eng (np_particle p bnd bx X V i) ;; f <- peval (snd c) ;; rret (c, f)) (seq 0 n) ;;
      rret (map fst cs, map snd cs)
  | Some ud =>
      cs <- eng (rmap (np_particle p bnd bx X V) (seq 0 n)) ;;
      fs <- nsga2_eval_batch ud (map snd cs) ;;
      rret (cs, fs)
  end.
(** One generation, nspso.cpp:156-405. The candidates are the moved particles and, after them,
    the remembered points (:371-374). *)
Definition np_generation (m : nspso_mem) (_ : nat) : @AM G P nspso_mem :=
  s <- getp ;;
  let p := po_prob s in let n := length (po_id s) in
  bnd <- rlift (np_leaders srt pw (np_div a) (p_nobj p) (po_f s) (po_x s)) ;;
  e <- np_moves p bnd (nm_x m) (po_x s) (nm_v m) n ;;
  let '(cs, fs) := e in
  bf <- rlift (take n (nm_f m)) ;; bx <- rlift (take n (nm_x m)) ;;
  sel <- rlift (np_select srt (np_div a) n (fs ++ bf)) ;;
  bx' <- rlift (mmap (vget (map snd cs ++ bx)) sel) ;; bf' <- rlift (mmap (vget (fs ++ bf)) sel) ;;
  rfold (fun _ i => x <- rlift (vget (map snd cs) i) ;; f <- rlift (vget fs i) ;; pset i x f) tt (seq 0 n) ;;;
  rret (mknspmem bf' bx' (map fst cs)).
(** The velocities at the start, nspso.cpp:145-153 *)
Definition np_speeds (n : nat) (p : problem) (V0 : list (list dbl)) : RM G (list (list dbl)) :=
  if negb (Nat.eqb (length V0) n) || negb (np_memory a) then
    rmap (fun _ => rmap (fun j => l <- rlift (vget (p_lb p) j) ;; u <- rlift (vget (p_ub p) j) ;;
                      uniform_real_from_range r (dneg (np_width l u)) (np_width l u)) (seq 0 (get_nx p))) (seq 0 n)
  else rret V0.
(** evolve, nspso.cpp:83-408: the result is what the object keeps. When an exception is thrown
    what was kept so far is lost in the model. *)
Definition np_evolve (m0 : nspso_mem) : @AM G P nspso_mem :=
  s <- getp ;;
  let p := po_prob s in let n := length (po_id s) in
  if u_set_seed (p_udp p) then rlift (Throw InvalidArgument)
  else if negb (Nat.eqb (get_nc p) 0) then rlift (Throw InvalidArgument)
  else if Nat.ltb (get_nf p) 2 then rlift (Throw InvalidArgument)
  else if Nat.leb n 1 then rlift (Throw InvalidArgument)
  else if Nat.eqb (np_gen a) 0 then rret m0
  else
    let keep := Nat.eqb (length (nm_f m0)) n && np_memory a in
    let bf := if keep then nm_f m0 else po_f s in let bx := if keep then nm_x m0 else po_x s in
    V <- eng (np_speeds n p (nm_v m0)) ;;
    rfold np_generation (mknspmem bf bx V) (seq 1 (np_gen a)).
End Nspso.

(** serialize, nspso.cpp:441-446: m_memory, m_velocity, m_best_fit and m_best_dvs are not in
    the archive. The engine, seed, verbosity and log are left out here. *)
Definition nspso_save {B} (a : nspso_params) (m : nspso_mem) (bfe : option B) : nat * dbl * dbl * dbl * dbl * dbl * nat * diversity * option B :=
  (np_gen a, np_omega a, np_c1 a, np_c2 a, np_chi a, np_vcoeff a, np_range a, np_div a, bfe).
Definition nspso_load {B} (old : nspso_params) (mold : nspso_mem) (t : nat * dbl * dbl * dbl * dbl * dbl * nat * diversity * option B) : nspso_params * nspso_mem * option B :=
  let '(g, o, c1, c2, chi, v, rg, d, b) := t in (mknspso g o c1 c2 chi v rg d (np_memory old), mold, b).
