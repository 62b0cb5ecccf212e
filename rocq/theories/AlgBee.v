(** Artificial bee colony, src/algorithms/bee_colony.cpp. *)
From Coq Require Import List Bool Arith ZArith.
From Verif Require Import Dbl Outcome StdSort Problem Rng Generic GeneticOps Population Algo.
Import ListNotations.
Local Open Scope rm_scope.

(** The constructor, bee_colony.cpp:48-54 *)
Definition bee_construct (limit : Z) : outcome unit := if (limit =? 0)%Z then Throw InvalidArgument else Ok tt.

(** X, fit and trial, bee_colony.cpp:104-106 *)
Record bees := mkbees { b_X : list (list dbl); b_fit : list (list dbl); b_trial : list Z }.

(** Shift into the boundaries, bee_colony.cpp:139-144 and 199-204 *)
Definition bee_clamp (l u v : dbl) : dbl := let v1 := if dlt v l then l else v in if dgt v1 u then u else v1.
(** ++trial[i] on an unsigned 32 bit integer, bee_colony.cpp:153 and 213 *)
Definition bump (l : list Z) (i : nat) : outcome (list Z) := bind (vget l i) (fun t => vset l i ((t + 1) mod 2 ^ 32)%Z).
(** The index of the first largest trial counter, bee_colony.cpp:116-121 *)
Definition most_tried (trial : list Z) (NP : nat) : outcome nat :=
  mfold (fun mi i => bind (vget trial i) (fun a => bind (vget trial mi) (fun b => Ok (if (b <? a)%Z then i else mi)))) 0 (seq 1 (NP - 1)).
(** The probabilities of the food sources, bee_colony.cpp:167-179 *)
Definition source_weight (f : dbl) : dbl := if dge f dzero then ddiv done (dadd done f) else dsub done f.
Definition source_probs (fit : list (list dbl)) : outcome (list dbl) :=
  bind (mmap (fun f => bind (vget f 0) (fun f0 => Ok (source_weight f0))) fit) (fun w =>
  let sump := fold_left dadd w dzero in Ok (map (fun a => ddiv a sump) w)).

Section Bee.
Context {G P : Type} (r : rng G) (limit : Z).

(** A candidate near source i, bee_colony.cpp:128-154 and 188-214 (the same code twice). *)
Definition bee_try (st : bees) (i : nat) : AM (G := G) (P := P) bees :=
  s <- getp ;;
  let p := po_prob s in let NP := length (po_id s) in
  x <- rlift (vget (b_X st) i) ;;
  c <- eng (draw_int r 0 (Z.of_nat (get_nx p) - 1)) ;;
  k <- eng (draw_int r 0 (Z.of_nat NP - 2)) ;;
  let c := Z.to_nat c in
  let k := if Nat.leb i (Z.to_nat k) then Z.to_nat k + 1 else Z.to_nat k in
  phi <- eng (draw_real r (dneg done) done) ;;
  a <- rlift (vget x c) ;; b <- rlift (bind (vget (b_X st) k) (fun y => vget y c)) ;;
  l <- rlift (vget (p_lb p) c) ;; u <- rlift (vget (p_ub p) c) ;;
  let v := bee_clamp l u (dadd a (dmul phi (dsub a b))) in
  newsol <- rlift (vset x c v) ;;
  f <- peval newsol ;;
  f0 <- rlift (vget f 0) ;; old <- rlift (vget (b_fit st) i) ;; old0 <- rlift (vget old 0) ;;
  if dlt f0 old0 then
    old' <- rlift (vset old 0 f0) ;; fit' <- rlift (vset (b_fit st) i old') ;;
    xi <- rlift (vget (b_X st) i) ;; xi' <- rlift (vset xi c v) ;; X' <- rlift (vset (b_X st) i xi') ;;
    pset i newsol f ;;;
    tr <- rlift (vset (b_trial st) i 0%Z) ;;
    rret (mkbees X' fit' tr)
  else
    tr <- rlift (bump (b_trial st) i) ;;
    rret (mkbees (b_X st) (b_fit st) tr).

(** The employed bees, bee_colony.cpp:126-156 *)
Definition bee_employed (NP mi : nat) (st : bees) : AM (P := P) bees :=
  rfold (fun st i => t <- rlift (vget (b_trial st) i) ;;
                     if (t <? limit)%Z || negb (Nat.eqb i mi) then bee_try st i else rret st) st (seq 0 NP).
(** The scout, bee_colony.cpp:158-164. fit[mi] is not updated. *)
Definition bee_scout (mi : nat) (st : bees) : AM (P := P) bees :=
  s <- getp ;;
  let p := po_prob s in
  x <- rlift (vget (b_X st) mi) ;;
  x' <- eng (rfold (fun x j => l <- rlift (vget (p_lb p) j) ;; u <- rlift (vget (p_ub p) j) ;;
                               v <- uniform_real_from_range r l u ;; rlift (vset x j v)) x (seq 0 (get_nx p))) ;;
  X' <- rlift (vset (b_X st) mi x') ;;
  f <- peval x' ;; pset mi x' f ;;;
  tr <- rlift (vset (b_trial st) mi 0%Z) ;;
  rret (mkbees X' (b_fit st) tr).
(** The onlookers, bee_colony.cpp:180-217; [k] is NP - t and [fuel] bounds the loop, which
    has no bound in the code. *)
Fixpoint bee_onlook (fuel NP : nat) (pr : list dbl) (k s : nat) (st : bees) : AM (P := P) bees :=
  match k, fuel with
  | 0, _ => rret st
  | _, 0 => rlift NoFuel
  | S k', S fuel' =>
      x <- eng (draw01 r) ;; ps <- rlift (vget pr s) ;;
      if dlt x ps then st' <- bee_try st s ;; bee_onlook fuel' NP pr k' ((s + 1) mod NP) st'
      else bee_onlook fuel' NP pr k ((s + 1) mod NP) st
  end.
(** One generation, bee_colony.cpp:115-217 *)
Definition bee_gen (fuel NP : nat) (st : bees) : AM (P := P) bees :=
  mi <- rlift (most_tried (b_trial st) NP) ;;
  t <- rlift (vget (b_trial st) mi) ;;
  let scout := (limit <=? t)%Z in
  st1 <- bee_employed NP mi st ;;
  st2 <- (if scout then bee_scout mi st1 else rret st1) ;;
  pr <- rlift (source_probs (b_fit st2)) ;;
  bee_onlook fuel NP pr NP 0 st2.
(** evolve, bee_colony.cpp:65-237 (without the log). The generation counter is 32 bits wide:
    m_gen = 2^32 - 1, with which the loop would not end, is left out. *)
Definition bee_evolve (fuel gen : nat) : AM (P := P) unit :=
  s <- getp ;;
  let p := po_prob s in let NP := length (po_id s) in
  if negb (Nat.eqb (get_nc p) 0) then rlift (Throw InvalidArgument)
  else if negb (Nat.eqb (get_nf p) 1) then rlift (Throw InvalidArgument)
  else if u_set_seed (p_udp p) then rlift (Throw InvalidArgument)
  else if Nat.ltb NP 2 then rlift (Throw InvalidArgument)
  else
    st <- rfold (fun st _ => bee_gen fuel NP st) (mkbees (po_x s) (po_f s) (repeat 0%Z NP)) (seq 0 gen) ;;
    rret tt.
End Bee.
