(** Grey wolf optimizer, src/algorithms/gwo.cpp. *)
From Coq Require Import List Bool Arith ZArith.
From Verif Require Import Dbl Outcome Compare StdSort Problem Rng Generic GeneticOps Population Algo.
Import ListNotations.
Local Open Scope rm_scope.

(** The literals 2.0 (dtwo in Generic.v) and 3.0, gwo.cpp:127, 160 *)
Definition dthree : dbl := d_of_Z 3.
(** The scores and positions of alpha, beta and delta, gwo.cpp:116-121 *)
Record wolf := mkwolf { w_score : dbl; w_pos : list dbl }.
Record leaders := mkleaders { l_alpha : wolf; l_beta : wolf; l_delta : wolf }.
(** A line of the log: alpha, beta and delta score, gwo.cpp:206 *)
Definition scores (l : leaders) : dbl * dbl * dbl := (w_score (l_alpha l), w_score (l_beta l), w_score (l_delta l)).

(** The initial leaders, gwo.cpp:109-121: the order is that of greater_than_f. *)
Definition gwo_init (srt : sorter) (xs fs : list (list dbl)) : outcome leaders :=
  bind (mmap (fun f => vget f 0) fs) (fun keys =>
  bind (std_sort srt (fun j k => greater_than_f (nth j keys NaN) (nth k keys NaN)) (iota (length fs))) (fun idx =>
  let lead n := bind (vget idx n) (fun j => bind (vget fs j) (fun f => bind (vget f 0) (fun s => bind (vget xs j) (fun x => Ok (mkwolf s x))))) in
  bind (lead 0) (fun a => bind (lead 1) (fun b => bind (lead 2) (fun d => Ok (mkleaders a b d)))))).
(** The leaders after an evaluation, gwo.cpp:167-189: three tests in sequence, each on what
    the previous ones left. *)
Definition gwo_update (l : leaders) (w : wolf) : leaders :=
  let f := w_score w in
  let l1 := if dlt f (w_score (l_alpha l)) then mkleaders w (l_alpha l) (l_beta l) else l in
  let l2 := if dgt f (w_score (l_alpha l1)) && dlt f (w_score (l_beta l1)) then mkleaders (l_alpha l1) w (l_beta l1) else l1 in
  if dgt f (w_score (l_alpha l2)) && dgt f (w_score (l_beta l2)) && dlt f (w_score (l_delta l2)) then mkleaders (l_alpha l2) (l_beta l2) w else l2.

(** The step size a, gwo.cpp:127; [gen] counts from 1. *)
Definition gwo_a (m_gen gen : nat) : dbl := dsub dtwo (dmul (d_of_Z (Z.of_nat gen)) (ddiv dtwo (d_of_Z (Z.of_nat m_gen)))).

Section Gwo.
Context {G P : Type} (r : rng G) (srt : sorter).

(** The pull of one leader on one component, gwo.cpp:133-140 (and again 142-149, 151-158) *)
Definition gwo_pull (a lead x : dbl) : RM G dbl :=
  r1 <- draw01 r ;; r2 <- draw01 r ;;
  let A := dsub (dmul (dmul dtwo a) r1) a in
  let C := dmul dtwo r2 in
  let D := dabs (dsub (dmul C lead) x) in
  rret (dsub lead (dmul A D)).
(** The new value of component k, gwo.cpp:132-160 *)
Definition gwo_component (a : dbl) (l : leaders) (x : list dbl) (k : nat) : RM G (list dbl) :=
  v <- rlift (vget x k) ;;
  pa <- rlift (vget (w_pos (l_alpha l)) k) ;; x0 <- gwo_pull a pa v ;;
  pb <- rlift (vget (w_pos (l_beta l)) k) ;; x1 <- gwo_pull a pb v ;;
  pd <- rlift (vget (w_pos (l_delta l)) k) ;; x2 <- gwo_pull a pd v ;;
  rlift (vset x k (ddiv (dadd (dadd x0 x1) x2) dthree)).
(** One agent, gwo.cpp:129-190. agents_position is always the same as the vectors of the
    population, so the model reads these. *)
Definition gwo_agent (a : dbl) (l : leaders) (i : nat) : AM (P := P) leaders :=
  s <- getp ;;
  let p := po_prob s in
  x <- rlift (vget (po_x s) i) ;;
  y <- eng (rfold (gwo_component a l) x (seq 0 (get_nx p))) ;;
  z <- rlift (force_bounds_stick y (p_lb p) (p_ub p)) ;;
  f <- peval z ;; pset i z f ;;;
  f0 <- rlift (vget f 0) ;;
  rret (gwo_update l (mkwolf f0 z)).
(** One generation, gwo.cpp:125-210, and its line of the log (verbosity 1). *)
Definition gwo_gen (m_gen NP : nat) (st : leaders * list (dbl * dbl * dbl)) (gen : nat) : AM (P := P) (leaders * list (dbl * dbl * dbl)) :=
  l <- rfold (gwo_agent (gwo_a m_gen gen)) (fst st) (seq 0 NP) ;;
  rret (l, snd st ++ [scores l]).
(** evolve, gwo.cpp:63-213; the value returned is the log. m_gen = 2^32 - 1, with which the
    loop would not end, is left out. *)
Definition gwo_evolve (m_gen : nat) : AM (P := P) (list (dbl * dbl * dbl)) :=
  s <- getp ;;
  let p := po_prob s in let NP := length (po_id s) in
  if negb (Nat.eqb (get_nc p) 0) then rlift (Throw InvalidArgument)
  else if negb (Nat.eqb (get_nf p) 1) then rlift (Throw InvalidArgument)
  else if u_set_seed (p_udp p) then rlift (Throw InvalidArgument)
  else if Nat.eqb m_gen 0 then rret []
  else if Nat.ltb NP 3 then rlift (Throw InvalidArgument)
  else
    l <- rlift (gwo_init srt (po_x s) (po_f s)) ;;
    st <- rfold (gwo_gen m_gen NP) (l, []) (seq 1 m_gen) ;;
    rret (snd st).
End Gwo.
