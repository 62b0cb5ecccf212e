(** Compass search, src/algorithms/compass_search.cpp. *)
From Coq Require Import List Bool Arith ZArith.
From Verif Require Import Dbl Outcome StdSort Problem Rng Generic GeneticOps Constrained Population Algo NotPop.
Import ListNotations.
Local Open Scope rm_scope.

(** The constructor's checks, compass_search.cpp:47-64 *)
Definition cs_construct (start stop red : dbl) : outcome unit :=
  if dgt start done || dle start dzero || isnan start then Throw InvalidArgument
  else if dgt stop done || dge stop start || isnan stop then Throw InvalidArgument
  else if dge red done || dle red dzero || isnan red then Throw InvalidArgument
  else Ok tt.

Section Compass.
Context {G P : Type} (r : rng G) (srt : sorter) (sel rep : policy).
Context (max_fevals : Z) (start stop red : dbl).

(** One trial: move, evaluate, compare, compass_search.cpp:126-138 and 141-153. Gives the new
    point if it is accepted. *)
Definition cs_try (x f : list dbl) (i : nat) (v : dbl) : AM (G := G) (P := P) (option (list dbl * list dbl)) :=
  s <- getp ;;
  y <- rlift (vset x i v) ;;
  fy <- peval y ;;
  b <- rlift (compare_fc fy f (p_nec (po_prob s)) (p_ctol (po_prob s))) ;;
  rret (if b then Some (y, fy) else None).
(** The for loop with its breaks, compass_search.cpp:125-154: the accepted point, if any, and
    the number of evaluations. *)
Fixpoint cs_scan (nr : dbl) (x f : list dbl) (dims : list nat) (n : Z) : AM (P := P) (option (list dbl * list dbl) * Z) :=
  match dims with
  | [] => rret (None, n)
  | i :: dims' =>
    s <- getp ;;
    l <- rlift (vget (p_lb (po_prob s)) i) ;; u <- rlift (vget (p_ub (po_prob s)) i) ;; c <- rlift (vget x i) ;;
    let up := dadd c (dmul nr (dsub u l)) in
    a <- cs_try x f i (if dgt up u then u else up) ;;
    match a with
    | Some q => rret (Some q, (n + 1)%Z)
    | None =>
      let down := dsub c (dmul nr (dsub u l)) in
      b <- cs_try x f i (if dlt down l then l else down) ;;
      match b with
      | Some q => rret (Some q, (n + 2)%Z)
      | None => cs_scan nr x f dims' (n + 2)%Z
      end
    end
  end.
(** The while loop, compass_search.cpp:119-181. The counter fevals is an unsigned int. *)
Fixpoint cs_loop (fuel : nat) (nr : dbl) (x f : list dbl) (fevals : Z) : AM (P := P) (list dbl * list dbl) :=
  if dgt nr stop && (fevals <=? max_fevals)%Z then
    match fuel with
    | 0 => rlift NoFuel
    | S fuel' =>
      s <- getp ;;
      a <- cs_scan nr x f (seq 0 (get_nx (po_prob s))) 0%Z ;;
      let fevals' := ((fevals + snd a) mod 2 ^ 32)%Z in
      match fst a with
      | Some (x', f') => cs_loop fuel' nr x' f' fevals'
      | None => cs_loop fuel' (dmul nr red) x f fevals'
      end
    end
  else rret (x, f).
(** evolve, compass_search.cpp:76-194 (without the log) *)
Definition cs_evolve (fuel : nat) : AM (P := P) unit :=
  s <- getp ;;
  let p := po_prob s in
  if negb (Nat.eqb (p_nobj p) 1) then rlift (Throw InvalidArgument)
  else if u_set_seed (p_udp p) then rlift (Throw InvalidArgument)
  else if Nat.eqb (length (po_id s)) 0 then rlift (Throw InvalidArgument)
  else if (max_fevals =? 0)%Z then rret tt
  else
    xf <- select_individual r srt sel ;;
    xf' <- cs_loop fuel start (fst xf) (snd xf) 0%Z ;;
    replace_individual r srt rep (fst xf') (snd xf').
End Compass.
