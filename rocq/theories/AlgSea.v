(** The (N+1)-evolutionary strategy, src/algorithms/sea.cpp. *)
From Coq Require Import List Bool Arith ZArith.
From Verif Require Import Dbl Outcome StdSort Problem Rng Generic GeneticOps Population Algo.
Import ListNotations.
Local Open Scope rm_scope.

Section Sea.
Context {G P : Type} (r : rng G) (srt : sorter).
(** What problem::set_seed turns a problem into: user code. *)
Context (reseed : problem -> Z -> problem).

(** The for loop over the components, sea.cpp:109-114; the state is (offspring, mut) *)
Definition sea_pass (dim : nat) (lb ub : list dbl) (st : list dbl * nat) : RM G (list dbl * nat) :=
  rfold (fun (st : list dbl * nat) j =>
    u <- draw01 r ;;
    if dlt u (ddiv done (d_of_Z (Z.of_nat dim))) then
      l <- rlift (vget lb j) ;; h <- rlift (vget ub j) ;;
      v <- uniform_real_from_range r l h ;; x <- rlift (vset (fst st) j v) ;;
      rret (x, S (snd st))
    else rret st) st (seq 0 dim).
(** The while loop around it, sea.cpp:107-116; the number of passes is bounded by the fuel *)
Fixpoint sea_mutate (fuel dim : nat) (lb ub : list dbl) (st : list dbl * nat) : RM G (list dbl) :=
  if Nat.eqb (snd st) 0 then
    match fuel with
    | 0 => rlift NoFuel
    | S fuel' => st' <- sea_pass dim lb ub st ;; sea_mutate fuel' dim lb ub st'
    end
  else rret (fst st).

Definition set_problem (p : problem) : AM (G := G) (P := P) unit := fun s =>
  (Ok tt, (fst s, {| po_prob := p; po_fevals := po_fevals (snd s); po_id := po_id (snd s); po_x := po_x (snd s); po_f := po_f (snd s);
                     po_cx := po_cx (snd s); po_cf := po_cf (snd s); po_rng := po_rng (snd s) |})).
(** The new seed and the re-evaluation, sea.cpp:96-102 *)
Definition sea_reseed : AM (P := P) unit :=
  s <- getp ;;
  if u_set_seed (p_udp (po_prob s)) then
    k <- eng (draw_int r 0 (2 ^ 32 - 1)) ;;
    set_problem (reseed (po_prob s) k) ;;;
    rfold (fun _ j => t <- getp ;; x <- rlift (vget (po_x t) j) ;; f <- peval x ;; pset j x f) tt (seq 0 (length (po_id s)))
  else rret tt.
(** The offspring and its insertion, sea.cpp:104-125; the state is (best_idx, worst_idx) *)
Definition sea_offspring (fuel : nat) (st : nat * nat) : AM (P := P) (nat * nat) :=
  s <- getp ;;
  let p := po_prob s in
  x <- rlift (vget (po_x s) (fst st)) ;;
  y <- eng (sea_mutate fuel (get_nx p) (p_lb p) (p_ub p) (x, 0)) ;;
  f <- peval y ;;
  fw <- rlift (vget (po_f s) (snd st)) ;; w0 <- rlift (vget fw 0) ;; f0 <- rlift (vget f 0) ;;
  if dge (dsub w0 f0) dzero then
    pset (snd st) y f ;;;
    t <- getp ;;
    fb <- rlift (vget (po_f t) (fst st)) ;; b0 <- rlift (vget fb 0) ;;
    w <- rlift (worst_idx srt t) ;;
    rret (if dge (dsub b0 f0) dzero then snd st else fst st, w)
  else rret st.
Definition sea_gen (fuel : nat) (st : nat * nat) : AM (P := P) (nat * nat) := sea_reseed ;;; sea_offspring fuel st.
(** evolve, sea.cpp:54-157 (without the log) *)
Definition sea_evolve (gen fuel : nat) : AM (P := P) unit :=
  s <- getp ;;
  let p := po_prob s in
  if negb (Nat.eqb (get_nc p) 0) then rlift (Throw InvalidArgument)
  else if negb (Nat.eqb (get_nf p) 1) then rlift (Throw InvalidArgument)
  else if Nat.eqb gen 0 then rret tt
  else if Nat.eqb (length (po_id s)) 0 then rlift (Throw InvalidArgument)
  else
    b <- rlift (best_idx srt s) ;; w <- rlift (worst_idx srt s) ;;
    rfold (fun st _ => sea_gen fuel st) (b, w) (seq 0 gen) ;;;
    rret tt.
End Sea.
