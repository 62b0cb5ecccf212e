(** Differential evolution, src/algorithms/de.cpp. *)
From Coq Require Import List Bool Arith ZArith.
From Verif Require Import Dbl Outcome StdSort Problem Rng Generic GeneticOps Population Algo.
Import ListNotations.
Local Open Scope rm_scope.

Record de_params := mkde { de_gen : nat; de_F : dbl; de_CR : dbl; de_variant : nat; de_ftol : dbl; de_xtol : dbl }.
(** The constructor, de.cpp:51-63 *)
Definition de_ctor (d : de_params) : outcome unit :=
  if Nat.ltb (de_variant d) 1 || Nat.ltb 10 (de_variant d) then Throw InvalidArgument
  else if dlt (de_CR d) dzero || dlt (de_F d) dzero || dgt (de_CR d) done || dgt (de_F d) done then Throw InvalidArgument
  else Ok tt.

(** l[k][n] *)
Definition at2 (l : list (list dbl)) (k n : nat) : outcome dbl := bind (vget l k) (fun x => vget x n).

(** What is kept during evolve: popold, fit, popnew, gbX, gbfit, gbIter, de.cpp:125-135 *)
Record dst := mkdst { d_old : list (list dbl); d_fit : list (list dbl); d_new : list (list dbl); d_gbX : list dbl; d_gbfit : list dbl; d_gbIter : list dbl }.

Section De.
Context {G P : Type} (r : rng G) (srt : sorter) (d : de_params).

(** Five indexes by Durstenfeld's algorithm, de.cpp:142-149; the state is (idxs, r) *)
Definition pick_one (NP : nat) (st : list nat * list nat) (j : nat) : RM G (list nat * list nat) :=
  k <- draw_int r 0 (Z.of_nat (NP - 1 - j)) ;;
  a <- rlift (vget (fst st) (Z.to_nat k)) ;; b <- rlift (vget (fst st) (NP - 1 - j)) ;;
  l1 <- rlift (vset (fst st) (Z.to_nat k) b) ;; l2 <- rlift (vset l1 (NP - 1 - j) a) ;;
  rret (l2, snd st ++ [a]).
Definition pick_five (NP : nat) : RM G (list nat) :=
  st <- rfold (pick_one NP) (seq 0 NP, []) (seq 0 5) ;; rret (snd st).

(** The mutated component n, lines 158, 174, 189, 201, 213-214 (exponential) and 228, 240,
    252, 264-265, 277-278 (binomial). The constructor admits no other variants. *)
Definition de_value (old : list (list dbl)) (gb : list dbl) (ri : list nat) (tmp : list dbl) (n : nat) : outcome dbl :=
  let c k := bind (vget ri k) (fun a => at2 old a n) in
  match de_variant d with
  | 1 | 6 => bind (vget gb n) (fun g => bind (c 1) (fun x1 => bind (c 2) (fun x2 => Ok (dadd g (dmul (de_F d) (dsub x1 x2))))))
  | 2 | 7 => bind (c 0) (fun x0 => bind (c 1) (fun x1 => bind (c 2) (fun x2 => Ok (dadd x0 (dmul (de_F d) (dsub x1 x2))))))
  | 3 | 8 => bind (vget tmp n) (fun t => bind (vget gb n) (fun g => bind (c 0) (fun x0 => bind (c 1) (fun x1 =>
               Ok (dadd (dadd t (dmul (de_F d) (dsub g t))) (dmul (de_F d) (dsub x0 x1)))))))
  | 4 | 9 => bind (vget gb n) (fun g => bind (c 0) (fun x0 => bind (c 1) (fun x1 => bind (c 2) (fun x2 => bind (c 3) (fun x3 =>
               Ok (dadd g (dmul (dsub (dsub (dadd x0 x1) x2) x3) (de_F d))))))))
  | 5 | 10 => bind (c 4) (fun x4 => bind (c 0) (fun x0 => bind (c 1) (fun x1 => bind (c 2) (fun x2 => bind (c 3) (fun x3 =>
               Ok (dadd x4 (dmul (dsub (dsub (dadd x0 x1) x2) x3) (de_F d))))))))
  | _ => UB
  end.
(** The do-while loop of the exponential variants; [k] is dim - L. L is 32 bits wide in
    some variants: dimensions are taken to be below 2^32. *)
Fixpoint exp_loop (value : list dbl -> nat -> outcome dbl) (dim k n : nat) (tmp : list dbl) : RM G (list dbl) :=
  match k with
  | 0 => rret tmp
  | S k' =>
      tmp' <- rlift (bind (value tmp n) (fun v => vset tmp n v)) ;;
      u <- draw01 r ;;
      if dlt u (de_CR d) && Nat.ltb 0 k' then exp_loop value dim k' ((n + 1) mod dim) tmp' else rret tmp'
  end.
(** The loop of the binomial variants *)
Definition bin_loop (value : list dbl -> nat -> outcome dbl) (dim n : nat) (tmp : list dbl) : RM G (list dbl) :=
  st <- rfold (fun (st : list dbl * nat) L =>
          u <- draw01 r ;;
          tmp' <- (if dlt u (de_CR d) || Nat.eqb (L + 1) dim then rlift (bind (value (fst st) (snd st)) (fun v => vset (fst st) (snd st) v)) else rret (fst st)) ;;
          rret (tmp', (snd st + 1) mod dim)) (tmp, n) (seq 0 dim) ;;
  rret (fst st).
(** The trial vector, de.cpp:151-274 *)
Definition de_trial (dim : nat) (old : list (list dbl)) (gb : list dbl) (ri : list nat) (i : nat) : RM G (list dbl) :=
  tmp <- rlift (vget old i) ;;
  n <- draw_int r 0 (Z.of_nat dim - 1) ;;
  (if Nat.leb (de_variant d) 5 then exp_loop (de_value old gb ri) dim dim (Z.to_nat n) tmp
   else bin_loop (de_value old gb ri) dim (Z.to_nat n) tmp).

(** One individual, de.cpp:141-296 *)
Definition de_one (p : problem) (NP : nat) (st : dst) (i : nat) : AM (P := P) dst :=
  ri <- eng (pick_five NP) ;;
  tmp0 <- eng (de_trial (get_nx p) (d_old st) (d_gbIter st) ri i) ;;
  tmp <- eng (force_bounds_random r tmp0 (p_lb p) (p_ub p)) ;;
  newfit <- peval tmp ;;
  new0 <- rlift (vget newfit 0) ;; old0 <- rlift (at2 (d_fit st) i 0) ;;
  if dle new0 old0 then
    fit' <- rlift (vset (d_fit st) i newfit) ;; new' <- rlift (vset (d_new st) i tmp) ;;
    pset i tmp newfit ;;;
    gb0 <- rlift (vget (d_gbfit st) 0) ;;
    if dle new0 gb0 then rret (mkdst (d_old st) fit' new' tmp newfit (d_gbIter st))
    else rret (mkdst (d_old st) fit' new' (d_gbX st) (d_gbfit st) (d_gbIter st))
  else
    x <- rlift (vget (d_old st) i) ;; new' <- rlift (vset (d_new st) i x) ;;
    rret (mkdst (d_old st) (d_fit st) new' (d_gbX st) (d_gbfit st) (d_gbIter st)).

(** The flatness of the population, de.cpp:303-308 and 316 *)
Definition flat_x (s : pop P) (dim b w : nat) : outcome dbl :=
  mfold (fun dx i => bind (at2 (po_x s) w i) (fun a => bind (at2 (po_x s) b i) (fun c => Ok (dadd dx (dabs (dsub a c)))))) dzero (seq 0 dim).
Definition flat_f (s : pop P) (b w : nat) : outcome dbl :=
  bind (at2 (po_f s) w 0) (fun a => bind (at2 (po_f s) b 0) (fun c => Ok (dabs (dsub a c)))).

(** The generations, de.cpp:139-349; [k] are left. The counter gen is 32 bits wide, so
    that m_gen = 2^32 - 1 would never be exceeded: m_gen is taken to be smaller. *)
Fixpoint de_gens (p : problem) (NP k : nat) (st : dst) : AM (P := P) unit :=
  match k with
  | 0 => rret tt
  | S k' =>
      st1 <- rfold (de_one p NP) st (seq 0 NP) ;;
      s <- getp ;;
      b <- rlift (best_idx srt s) ;; w <- rlift (worst_idx srt s) ;;
      dx <- rlift (flat_x s (get_nx p) b w) ;;
      if dlt dx (de_xtol d) then rret tt else
      df <- rlift (flat_f s b w) ;;
      if dlt df (de_ftol d) then rret tt else
      de_gens p NP k' (mkdst (d_new st1) (d_fit st1) (d_old st1) (d_gbX st1) (d_gbfit st1) (d_gbX st1))
  end.

(** evolve, de.cpp:76-354 *)
Definition de_evolve : AM (P := P) unit :=
  s <- getp ;;
  let p := po_prob s in
  if negb (Nat.eqb (get_nc p) 0) then rlift (Throw InvalidArgument)
  else if negb (Nat.eqb (get_nf p) 1) then rlift (Throw InvalidArgument)
  else if u_set_seed (p_udp p) then rlift (Throw InvalidArgument)
  else if Nat.eqb (de_gen d) 0 then rret tt
  else if Nat.ltb (length (po_id s)) 5 then rlift (Throw InvalidArgument)
  else
    b <- rlift (best_idx srt s) ;;
    gbX <- rlift (vget (po_x s) b) ;; gbfit <- rlift (vget (po_f s) b) ;;
    de_gens p (length (po_id s)) (de_gen d) (mkdst (po_x s) (po_f s) (po_x s) gbX gbfit gbX).
End De.
