(** Ant colony optimization, src/algorithms/gaco.cpp, without the log. *)
From Coq Require Import List Bool Arith ZArith.
From Verif Require Import Dbl Outcome StdSort Compare Constrained Problem Rng Generic GeneticOps Population Algo AlgSga AlgDe AlgNsga2.
Import ListNotations.
Local Open Scope rm_scope.

Local Notation "x <-- m ;; k" := (bind m (fun x => k)) (at level 61, m at next level, right associativity).

Record gaco_params := mkgaco { ga_gen : nat; ga_ker : nat; ga_q : dbl; ga_oracle : dbl; ga_acc : dbl; ga_threshold : nat; ga_ngm : nat;
  ga_impstop : nat; ga_evalstop : nat; ga_focus : dbl; ga_memory : bool }.
(** The mutable members that evolve reads: m_oracle, m_q, m_counter, m_sol_archive,
    m_n_evalstop, m_n_impstop, m_gen_mark (gaco.hpp:248-263). m_res is only a scratch variable,
    m_fevals only goes to the log. *)
Record ants := mkants { an_oracle : dbl; an_q : dbl; an_counter : Z; an_arch : list (list dbl); an_evalstop : Z; an_impstop : Z; an_mark : Z }.
(** Arithmetic of unsigned int *)
Definition u32 (z : Z) : Z := (z mod 2 ^ 32)%Z.
Definition set_oracle (k : ants) (v : dbl) : ants := mkants v (an_q k) (an_counter k) (an_arch k) (an_evalstop k) (an_impstop k) (an_mark k).
Definition set_q (k : ants) (v : dbl) : ants := mkants (an_oracle k) v (an_counter k) (an_arch k) (an_evalstop k) (an_impstop k) (an_mark k).
Definition set_counter (k : ants) (v : Z) : ants := mkants (an_oracle k) (an_q k) v (an_arch k) (an_evalstop k) (an_impstop k) (an_mark k).
Definition set_arch (k : ants) (v : list (list dbl)) : ants := mkants (an_oracle k) (an_q k) (an_counter k) v (an_evalstop k) (an_impstop k) (an_mark k).
Definition set_evalstop (k : ants) (v : Z) : ants := mkants (an_oracle k) (an_q k) (an_counter k) (an_arch k) v (an_impstop k) (an_mark k).
Definition set_impstop (k : ants) (v : Z) : ants := mkants (an_oracle k) (an_q k) (an_counter k) (an_arch k) (an_evalstop k) v (an_mark k).
Definition set_mark (k : ants) (v : Z) : ants := mkants (an_oracle k) (an_q k) (an_counter k) (an_arch k) (an_evalstop k) (an_impstop k) v.

(** The constructor, gaco.cpp:60-92 *)
Definition gaco_ctor (a : gaco_params) : outcome ants :=
  if dlt (ga_acc a) dzero then Throw InvalidArgument
  else if dlt (ga_focus a) dzero then Throw InvalidArgument
  else if (Nat.ltb (ga_threshold a) 1 || Nat.ltb (ga_gen a) (ga_threshold a)) && negb (Nat.eqb (ga_gen a) 0) && negb (ga_memory a) then Throw InvalidArgument
  else if Nat.ltb (ga_threshold a) 1 && negb (Nat.eqb (ga_gen a) 0) && ga_memory a then Throw InvalidArgument
  else if dlt (ga_q a) dzero then Throw InvalidArgument
  else if Nat.ltb (ga_ker a) 2 then Throw InvalidArgument
  else Ok (mkants (ga_oracle a) (ga_q a) 0 [] 1 1 1).

(** ** The penalty *)
(** The literals, and 6.0 * std::sqrt(3.0) *)
Definition dthree : dbl := d_of_Z 3.
Definition six_root3 : dbl := dmul (d_of_Z 6) (dsqrt dthree).
(** gaco.cpp:527-549 and 374-394: the penalty of an objective value and a residual. Where neither
    of the two cases applies (NaN) it is [dflt]. *)
Definition penalty (oracle dflt fit res : dbl) : dbl :=
  let diff := dabs (dsub fit oracle) in
  let alpha :=
    if dgt fit oracle && dlt res (ddiv diff dthree) then ddiv (dsub (ddiv (dmul diff (dsub six_root3 dtwo)) six_root3) res) (dsub diff res)
    else if dgt fit oracle && dge res (ddiv diff dthree) && dle res diff then dsub done (ddiv done (dmul dtwo (dsqrt (ddiv diff res))))
    else if dgt fit oracle && dgt res diff then dmul (ddiv done dtwo) (dsqrt (ddiv diff res))
    else dzero in
  if dgt fit oracle || dgt res dzero then dadd (dmul alpha diff) (dmul (dsub done alpha) res)
  else if dle fit oracle && deq res dzero then dneg diff
  else dflt.
(** The L_2 norm of the violations, gaco.cpp:514-522 and 362-367; there is one objective *)
Definition residual (p : problem) (f : list dbl) : outcome dbl :=
  e <-- test_eq_constraints (firstn (p_nec p) (skipn 1 f)) (p_ctol p) ;;
  i <-- test_ineq_constraints (skipn (1 + p_nec p) f) (skipn (p_nec p) (p_ctol p)) ;;
  Ok (dsqrt (dadd (dmul (snd e) (snd e)) (dmul (snd i) (snd i)))).
(** penalty_computation, gaco.cpp:506-552 *)
Definition penalty_of (p : problem) (oracle : dbl) (f : list dbl) : outcome dbl :=
  res <-- (if Nat.eqb (get_nc p) 0 then Ok dzero else residual p f) ;;
  fit <-- vget f 0 ;; Ok (penalty oracle dzero fit res).

(** ** The archive: rows of penalty, decision vector and fitness *)
Definition row_x (nx : nat) (row : list dbl) : outcome (list dbl) := mmap (fun k => vget row (1 + k)) (seq 0 nx).
Definition row_f (nx nf : nat) (row : list dbl) : outcome (list dbl) := mmap (fun j => vget row (1 + nx + j)) (seq 0 nf).
Definition put_from (l : list dbl) (at_ : nat) (row : list dbl) : outcome (list dbl) :=
  mfold (fun row i => v <-- vget l i ;; vset row (at_ + i) v) row (seq 0 (length l)).
(** row[0] = pen, row[1 + ...] = x, row[1 + n_x + ...] = f *)
Definition write_row (row : list dbl) (pen : dbl) (x f : list dbl) : outcome (list dbl) :=
  r0 <-- vset row 0 pen ;; r1 <-- put_from x 1 r0 ;; put_from f (1 + length x) r1.
Definition dnth (l : list dbl) (i : nat) : dbl := nth i l NaN.

Section Gaco.
(** [dexp] is std::exp *)
Context {G P : Type} (r : rng G) (srt : sorter) (dexp : dbl -> dbl) (a : gaco_params).

(** The first archive, gaco.cpp:222-233 *)
Definition first_archive (X F : list (list dbl)) (pens : list dbl) (sl : list nat) (arch : list (list dbl)) : outcome (list (list dbl)) :=
  mfold (fun arch i => j <-- vget sl i ;; p <-- vget pens j ;; x <-- vget X j ;; f <-- vget F j ;;
                       row <-- vget arch i ;; row' <-- write_row row p x f ;; vset arch i row') arch (seq 0 (ga_ker a)).
(** new_sort_list, gaco.cpp:614-635: the positions whose penalty is not close to that at
    [count]; the assignment of row 0 at lines 616-622 is repeated in the next loop *)
Definition distinct (pens : list dbl) (sp : list nat) : outcome (list nat) :=
  s0 <-- vget sp 0 ;;
  st <-- mfold (fun st j => sj <-- vget sp j ;; sc <-- vget sp (fst st) ;; pj <-- vget pens sj ;; pc <-- vget pens sc ;;
                  Ok (if dlt (dabs (dsub pj pc)) (ga_acc a) then st else (fst st + 1, snd st ++ [j])))
          ((if Nat.ltb s0 (ga_ker a) then 0 else 1), [0]) (seq 1 (length pens - 1)) ;;
  Ok (snd st).
(** One row of the new archive, gaco.cpp:636-657 *)
Definition merge_row (XFP : list (list dbl * list dbl * dbl * dbl)) (arch : list (list dbl)) (nx nf : nat) (sp nl : list nat)
    (tmp : list (list dbl)) (ii : nat) : outcome (list (list dbl)) :=
  n <-- vget nl ii ;; s <-- vget sp n ;; row <-- vget tmp ii ;;
  row' <-- (if Nat.ltb s (ga_ker a) then c <-- vget XFP s ;; write_row row (snd (fst c)) (fst (fst (fst c))) (snd (fst (fst c)))
            else old <-- vget arch (s - ga_ker a) ;; p <-- vget old 0 ;; x <-- row_x nx old ;; f <-- row_f nx nf old ;; write_row row p x f) ;;
  vset tmp ii row'.
(** update_sol_archive, gaco.cpp:566-672, from the counters m_n_impstop, m_gen_mark and the
    archive to the new ones. [pens] are sorted, [sl] is sort_list. *)
Definition update_archive (X F : list (list dbl)) (pens : list dbl) (sl : list nat) (k : ants) (arch : list (list dbl)) : outcome (ants * list (list dbl)) :=
  x0 <-- vget X 0 ;; f0 <-- vget F 0 ;;
  let nx := length x0 in let nf := length f0 in
  r0 <-- vget arch 0 ;; _ <-- row_f nx nf r0 ;;
  best <-- vget pens 0 ;; last <-- vget arch (ga_ker a - 1) ;; worst <-- vget last 0 ;;
  ka <-- (if dlt best worst then
            XFP <-- mmap (fun i => j <-- vget sl i ;; x <-- vget X j ;; f <-- vget F j ;; p <-- vget pens i ;; row <-- vget arch i ;; q <-- vget row 0 ;; Ok (x, f, p, q)) (seq 0 (ga_ker a)) ;;
            let tp := map (fun c => snd (fst c)) XFP ++ map snd XFP in
            sp <-- std_sort srt (fun i j => less_than_f (dnth tp i) (dnth tp j)) (seq 0 (length tp)) ;;
            nl <-- distinct tp sp ;;
            arch' <-- mfold (merge_row XFP arch nx nf sp nl) arch (seq 0 (Nat.min (ga_ker a) (length nl))) ;;
            Ok (set_impstop k 1, arch')
          else Ok (set_impstop k (u32 (an_impstop k + 1)), arch)) ;;
  let m := if ((an_evalstop k =? 1) || (2 <? an_evalstop k))%Z then u32 (an_mark k + 1) else an_mark k in
  Ok (set_mark (fst ka) (if (Z.of_nat (ga_ngm a) <? m)%Z then 1%Z else m), snd ka).

(** ** The pheromones, gaco.cpp:687-794 *)
(** boost::math::constants::pi<double>() *)
Definition dpi : dbl := rnd (884279719003555 * one_z) 281474976710656.
Definition dnat (n : nat) : dbl := d_of_Z (Z.of_nat n).
(** the weight of l + 1, lines 710-711 *)
Definition omega_of (q : dbl) (l : nat) : dbl :=
  let ker := dnat (ga_ker a) in let l1 := dsub (dnat (l + 1)) done in
  dmul (ddiv done (dmul (dmul q ker) (dsqrt (dmul dtwo dpi)))) (dexp (ddiv (dneg (dmul l1 l1)) (dmul (dmul dtwo (dmul q q)) (dmul ker ker)))).
(** prob_cumulative *)
Definition cumulative (q : dbl) : list dbl :=
  let om := map (omega_of q) (seq 0 (ga_ker a)) in let sum := fold_left dadd om dzero in
  map (fun k => fold_left (fun c w => dadd c (ddiv w sum)) (firstn (k + 1) om) dzero) (seq 0 (ga_ker a)).
(** lines 699-746, from m_q and prob_cumulative *)
Definition weights_step (gen : nat) (k : ants) (cum : list dbl) : ants * list dbl :=
  let fast := rnd (1 * one_z) 100 in
  if ga_memory a then
    let k' := if Z.eqb (an_counter k) (Z.of_nat (ga_threshold a)) then set_q k fast else k in (k', cumulative (an_q k'))
  else if Nat.eqb gen 1 || Nat.eqb gen (ga_threshold a) then
    let k' := if Nat.eqb gen (ga_threshold a) then set_q k fast else k in (k', cumulative (an_q k'))
  else (k, cum).
(** d_min and d_max of component h of the archive, lines 751-771 *)
Definition spread (arch : list (list dbl)) (h : nat) : outcome (dbl * dbl) :=
  let d i j := ri <-- vget arch i ;; rj <-- vget arch j ;; x <-- vget ri h ;; y <-- vget rj h ;; Ok (dabs (dsub x y)) in
  d01 <-- d 0 1 ;;
  mfold (fun mm c => mfold (fun mm k => v <-- d c k ;; Ok (if dlt v (fst mm) then v else fst mm, if dgt v (snd mm) then v else snd mm)) mm (seq (c + 1) (ga_ker a - (c + 1))))
        (d01, d01) (seq 0 (ga_ker a - 1)).
(** the standard deviation of component h - 1, lines 748-793; [n_con] is get_ncx() *)
Definition sigma_of (p : problem) (gen : nat) (k : ants) (arch : list (list dbl)) (h : nat) : outcome dbl :=
  mm <-- spread arch h ;; l <-- vget (p_lb p) (h - 1) ;; u <-- vget (p_ub p) (h - 1) ;;
  let d := dsub (snd mm) (fst mm) in let lim := ddiv (dsub u l) (ga_focus a) in
  let mark := d_of_Z (an_mark k) in
  Ok (if negb (deq (ga_focus a) dzero) && dgt (ddiv d (dnat gen)) lim && negb (ga_memory a) then lim
      else if negb (deq (ga_focus a) dzero) && dgt (ddiv d (d_of_Z (an_counter k))) lim && ga_memory a then lim
      else if Nat.leb h (get_nx p - p_nix p) then ddiv d mark
      else dmax (dmax (ddiv d mark) (ddiv done mark)) (dsub done (ddiv done (dsqrt (dnat (p_nix p)))))).
Definition sigmas (p : problem) (gen : nat) (k : ants) (arch : list (list dbl)) : outcome (list dbl) :=
  mmap (sigma_of p gen k arch) (seq 1 (get_nx p)).

(** ** New ants, gaco.cpp:810-875 *)
(** which row is the centre, lines 835-849; the last k that fits counts *)
Definition kernel_of (cum : list dbl) (u : dbl) : outcome nat :=
  c0 <-- vget cum 0 ;; c1 <-- vget cum (ga_ker a - 2) ;;
  if dle u c0 then Ok 0
  else if dgt u c1 then Ok (ga_ker a - 1)
  else mfold (fun b k => lo <-- vget cum (k - 1) ;; hi <-- vget cum k ;; Ok (if dgt u lo && dle u hi then k else b)) 0 (seq 1 (ga_ker a - 2)).
(** line 851. The number the distribution keeps for its next call is taken to be part of the generator *)
Definition around (c sg : dbl) : RM G dbl := z <- rdraw (g_norm r dzero done) ;; rret (dadd c (dmul sg z)).
(** the loop of lines 854-858 *)
Fixpoint again (n : nat) (c sg l u g : dbl) : RM G dbl :=
  match n with
  | 0 => rret g
  | S n' => if dlt g l || dgt g u then g' <- around c sg ;; again n' c sg l u g' else rret g
  end.
(** lines 850-871 *)
Definition ant_value (p : problem) (row sg : list dbl) (h : nat) : RM G dbl :=
  c <- rlift (vget row (1 + h)) ;; s <- rlift (vget sg h) ;; l <- rlift (vget (p_lb p) h) ;; u <- rlift (vget (p_ub p) h) ;;
  g <- around c s ;;
  g1 <- again 10 c s l u g ;;
  let g2 := if dlt g1 l then l else g1 in let g3 := if dgt g2 u then u else g2 in
  rret (if Nat.leb (get_nx p - p_nix p) h then dround g3 else g3).
Definition new_ant (p : problem) (cum sg : list dbl) (arch : list (list dbl)) : RM G (list dbl) :=
  u <- draw01 r ;; k <- rlift (kernel_of cum u) ;; row <- rlift (vget arch k) ;; rmap (ant_value p row sg) (seq 0 (get_nx p)).

(** ** The oracle, gaco.cpp:349-399 *)
Definition oracle_row (p : problem) (st : dbl * list (list dbl)) (i : nat) : outcome (dbl * list (list dbl)) :=
  let nx := get_nx p in
  row <-- vget (snd st) i ;; fv <-- vget row (1 + nx) ;;
  orr <-- (if Nat.eqb i 0 && Nat.eqb (get_nc p) 0 then Ok (fv, dzero)
           else f <-- row_f nx (get_nf p) row ;; res <-- residual p f ;; Ok (if Nat.eqb i 0 && deq res dzero then fv else fst st, res)) ;;
  old <-- vget row 0 ;; row' <-- vset row 0 (penalty (fst orr) old fv (snd orr)) ;;
  arch' <-- vset (snd st) i row' ;; Ok (fst orr, arch').
Definition oracle_step (p : problem) (k : ants) (arch : list (list dbl)) : outcome (ants * list (list dbl)) :=
  row <-- vget arch 0 ;; fv <-- vget row (1 + get_nx p) ;;
  if dlt fv (an_oracle k) then
    st <-- mfold (oracle_row p) (an_oracle k, arch) (seq 0 (ga_ker a)) ;;
    let k1 := set_oracle k (fst st) in Ok (if ga_memory a then set_arch k1 (snd st) else k1, snd st)
  else Ok (k, arch).

(** ** evolve, gaco.cpp:104-442. The members are part of the state, next to the engine m_e: they
    keep what they have when an exception is thrown. *)
Definition GM (A : Type) := AM (G := G * ants) (P := P) A.
Definition draws {A} (m : RM G A) : GM A := fun s => let (o, g) := m (fst (fst s)) in (o, ((g, snd (fst s)), snd s)).
Definition getk : GM ants := fun s => (Ok (snd (fst s)), s).
Definition setk (k : ants) : GM unit := fun s => (Ok tt, ((fst (fst s), k), snd s)).

(** Lines 288-336: the new ants are evaluated and replace the individuals one by one, or, with
    a batch evaluator, all are evaluated first *)
Definition set_ants (bfe : option (problem -> list dbl -> outcome (list dbl))) (new : list (list dbl)) : GM unit :=
  s <- getp ;;
  match bfe with
  | None => rfold (fun _ i => x <- rlift (vget new i) ;; f <- peval x ;; pset i x f) tt (seq 0 (length (po_id s)))
  | Some ud =>
      fs <- nsga2_call ud (concat new) ;;
      rfold (fun _ i => x <- rlift (vget new i) ;; f <- rlift (sub_vector fs (i * get_nf (po_prob s)) (get_nf (po_prob s))) ;; pset i x f) tt (seq 0 (length (po_id s)))
  end.
(** Lines 202-245: penalties and archive *)
Definition archive_step (gen : nat) (arch : list (list dbl)) : GM (list (list dbl)) :=
  s <- getp ;; k <- getk ;;
  pens <- rlift (mmap (penalty_of (po_prob s) (an_oracle k)) (po_f s)) ;;
  sl <- rlift (std_sort srt (fun i j => less_than_f (dnth pens i) (dnth pens j)) (seq 0 (length pens))) ;;
  let arch0 := if ga_memory a && (1 <? an_counter k)%Z then an_arch k else arch in
  ka <- (if Nat.eqb gen 1 && (an_counter k <? 2)%Z then arch1 <- rlift (first_archive (po_x s) (po_f s) pens sl arch0) ;; rret (k, arch1)
         else sorted <- rlift (std_sort srt less_than_f pens) ;; rlift (update_archive (po_x s) (po_f s) sorted sl k arch0)) ;;
  setk (if ga_memory a then set_arch (fst ka) (snd ka) else fst ka) ;;; rret (snd ka).
(** One generation; the state is (sol_archive, prob_cumulative) *)
Definition gaco_generation (bfe : option (problem -> list dbl -> outcome (list dbl))) (gen : nat) (st : list (list dbl) * list dbl) : GM (list (list dbl) * list dbl) :=
  old <- getp ;;
  let p := po_prob old in
  arch <- archive_step gen (fst st) ;;
  k <- getk ;;
  let kc := weights_step gen k (snd st) in
  setk (fst kc) ;;;
  sg <- rlift (sigmas p gen (fst kc) arch) ;;
  new <- draws (rmap (fun _ : nat => new_ant p (snd kc) sg arch) (seq 0 (length (po_id old)))) ;;
  set_ants bfe new ;;;
  s <- getp ;;
  c1 <- rlift (champion s) ;; c0 <- rlift (champion old) ;;
  better <- rlift (compare_fc (snd c1) (snd c0) (p_nec p) (p_ctol p)) ;;
  let k1 := set_evalstop (fst kc) (if better then 1%Z else u32 (an_evalstop (fst kc) + 1)) in
  setk k1 ;;;
  ka <- rlift (oracle_step p k1 arch) ;;
  setk (fst ka) ;;; rret (snd ka, snd kc).
(** The loop, lines 176-401: [n] generations are left; None where it returns *)
Definition stop_now (k : ants) : bool :=
  negb (Nat.eqb (ga_impstop a) 0) && (Z.of_nat (ga_impstop a) <=? an_impstop k)%Z || negb (Nat.eqb (ga_evalstop a) 0) && (Z.of_nat (ga_evalstop a) <=? an_evalstop k)%Z.
Fixpoint gaco_gens (bfe : option (problem -> list dbl -> outcome (list dbl))) (n gen : nat) (st : list (list dbl) * list dbl) : GM (option (list (list dbl))) :=
  match n with
  | 0 => rret (Some (fst st))
  | S n' =>
      k <- getk ;;
      if stop_now k then rret None else st' <- gaco_generation bfe gen st ;; gaco_gens bfe n' (gen + 1) st'
  end.
(** The archive goes into the population, lines 405-417 *)
Definition write_back (arch : list (list dbl)) : GM unit :=
  s <- getp ;;
  let nx := get_nx (po_prob s) in let nf := get_nf (po_prob s) in
  rfold (fun _ i => row <- rlift (vget arch i) ;; x <- rlift (row_x nx row) ;; f <- rlift (row_f nx nf row) ;; pset i x f) tt (seq 0 (ga_ker a)).
Definition gaco_evolve (bfe : option (problem -> list dbl -> outcome (list dbl))) : GM unit :=
  k <- getk ;;
  setk (if ga_memory a then set_counter k (u32 (an_counter k + 1)) else k) ;;;
  s <- getp ;;
  let p := po_prob s in let NP := length (po_id s) in
  if Nat.eqb NP 0 then rret tt
  else if u_set_seed (p_udp p) then rlift (Throw InvalidArgument)
  else if Nat.eqb (ga_gen a) 0 then rret tt
  else if Nat.ltb NP 2 then rlift (Throw InvalidArgument)
  else if Nat.ltb NP (ga_ker a) then rlift (Throw InvalidArgument)
  else if negb (Nat.eqb (p_nobj p) 1) then rlift (Throw InvalidArgument)
  else
    o <- gaco_gens bfe (ga_gen a) 1 (repeat (repeat done (1 + get_nx p + get_nf p)) (ga_ker a), repeat dzero (ga_ker a)) ;;
    match o with
    | None => rret tt
    | Some arch => if ga_memory a then rret tt else write_back arch
    end.
End Gaco.
