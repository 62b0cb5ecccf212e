(** Simulated annealing (Corana), src/algorithms/simulated_annealing.cpp. *)
From Coq Require Import List Bool Arith ZArith.
From Verif Require Import Dbl Outcome StdSort Problem Rng Generic GeneticOps Population Algo NotPop.
Import ListNotations.
Local Open Scope rm_scope.

(** The constructor's checks, simulated_annealing.cpp:53-85; n_T_adj, n_range_adj and
    bin_size are unsigned ints *)
Definition sa_construct (Ts Tf : dbl) (n_T_adj n_range_adj : nat) (start_range : dbl) : outcome unit :=
  if dle Ts dzero || negb (isfinite Ts) then Throw InvalidArgument
  else if dle Tf dzero || negb (isfinite Tf) then Throw InvalidArgument
  else if dgt Tf Ts then Throw InvalidArgument
  else if dle start_range dzero || dgt start_range done || negb (isfinite start_range) then Throw InvalidArgument
  else if Nat.eqb n_T_adj 0 then Throw InvalidArgument
  else if Nat.eqb n_range_adj 0 then Throw InvalidArgument
  else Ok tt.

(** The literals .6 and .4, simulated_annealing.cpp:214-220: the doubles nearest to them *)
Definition d06 : dbl := Fin (5404319552844595 * 2 ^ 1021).
Definition d04 : dbl := Fin (7205759403792794 * 2 ^ 1020).
(** acp[nter]++ on an int, simulated_annealing.cpp:169 and 182: undefined on overflow *)
Definition incr_int (l : list Z) (i : nat) : outcome (list Z) :=
  bind (vget l i) (fun k => if (k <? 2 ^ 31 - 1)%Z then vset l i (k + 1)%Z else UB).

(** The variables of the loops, simulated_annealing.cpp:136-148 *)
Record sa_state := { sa_new : list dbl; sa_old : list dbl; sa_fold : list dbl; sa_bestx : list dbl; sa_bestf : list dbl; sa_step : list dbl; sa_acp : list Z; sa_T : dbl }.

Section Sa.
(** [r] is the engine of the algorithm, [r2] that of the base class; [pw] is std::pow and
    [ex] is std::exp *)
Context {G P : Type} (r r2 : rng G) (srt : sorter) (sel rep : policy) (pw : dbl -> dbl -> dbl) (ex : dbl -> dbl).
Context (Ts Tf : dbl) (n_T_adj n_range_adj bin_size : nat) (start_range : dbl).

(** The trial on component nter, simulated_annealing.cpp:158-186 *)
Definition sa_trial (st : sa_state) (nter : nat) : AM (G := G) (P := P) sa_state :=
  s <- getp ;;
  l <- rlift (vget (p_lb (po_prob s)) nter) ;; u <- rlift (vget (p_ub (po_prob s)) nter) ;;
  sw <- rlift (vget (sa_step st) nter) ;; o <- rlift (vget (sa_old st) nter) ;;
  let width := dmul sw (dsub u l) in
  v <- eng (uniform_real_from_range r (dmax (dsub o width) l) (dmin (dadd o width) u)) ;;
  xnew <- rlift (vset (sa_new st) nter v) ;;
  fnew <- peval xnew ;;
  fn <- rlift (vget fnew 0) ;; fo <- rlift (vget (sa_fold st) 0) ;;
  if dle fn fo then
    old <- rlift (vset (sa_old st) nter v) ;; acp <- rlift (incr_int (sa_acp st) nter) ;;
    fb <- rlift (vget (sa_bestf st) 0) ;;
    rret (if dle fn fb then {| sa_new := xnew; sa_old := old; sa_fold := fnew; sa_bestx := xnew; sa_bestf := fnew; sa_step := sa_step st; sa_acp := acp; sa_T := sa_T st |}
          else {| sa_new := xnew; sa_old := old; sa_fold := fnew; sa_bestx := sa_bestx st; sa_bestf := sa_bestf st; sa_step := sa_step st; sa_acp := acp; sa_T := sa_T st |})
  else
    d <- eng (draw01 r) ;;
    if dgt (ex (ddiv (dneg (dabs (dsub fo fn))) (sa_T st))) d then
      old <- rlift (vset (sa_old st) nter v) ;; acp <- rlift (incr_int (sa_acp st) nter) ;;
      rret {| sa_new := xnew; sa_old := old; sa_fold := fnew; sa_bestx := sa_bestx st; sa_bestf := sa_bestf st; sa_step := sa_step st; sa_acp := acp; sa_T := sa_T st |}
    else
      xnew' <- rlift (vset xnew nter o) ;;
      rret {| sa_new := xnew'; sa_old := sa_old st; sa_fold := sa_fold st; sa_bestx := sa_bestx st; sa_bestf := sa_bestf st; sa_step := sa_step st; sa_acp := sa_acp st; sa_T := sa_T st |}.
(** One pass over the components from a random one, simulated_annealing.cpp:155-208. dim - 1u
    cannot wrap around: a problem has at least one component. *)
Definition sa_pass (st : sa_state) : AM (P := P) sa_state :=
  s <- getp ;;
  let dim := get_nx (po_prob s) in
  k <- eng (draw_int r 0 (Z.of_nat dim - 1)) ;;
  a <- rfold (fun a _ => let nter := (snd a + 1) mod dim in
                         st' <- sa_trial (fst a) nter ;; rret (st', nter)) (st, Z.to_nat k) (seq 0 dim) ;;
  rret (fst a).
(** The new step size of one component, simulated_annealing.cpp:212-224 *)
Definition sa_adjust (stp : dbl) (acp : Z) : dbl :=
  let ratio := ddiv (d_of_Z acp) (d_of_Z (Z.of_nat bin_size)) in
  let stp' := if dgt ratio d06 then dmul stp (dadd done (ddiv (dmul dtwo (dsub ratio d06)) d04))
              else if dlt ratio d04 then ddiv stp (dadd done (dmul dtwo (ddiv (dsub d04 ratio) d04)))
              else stp in
  if dgt stp' start_range then start_range else stp'.
(** One range adjustment, simulated_annealing.cpp:153-225 *)
Definition sa_bin (st : sa_state) : AM (P := P) sa_state :=
  st <- rfold (fun st _ => sa_pass st) st (seq 0 bin_size) ;;
  rret {| sa_new := sa_new st; sa_old := sa_old st; sa_fold := sa_fold st; sa_bestx := sa_bestx st; sa_bestf := sa_bestf st;
          sa_step := map (fun c => sa_adjust (fst c) (snd c)) (combine (sa_step st) (sa_acp st)); sa_acp := map (fun _ => 0%Z) (sa_acp st); sa_T := sa_T st |}.
(** One temperature, simulated_annealing.cpp:152-228 *)
Definition sa_cool (coeff : dbl) (st : sa_state) : AM (P := P) sa_state :=
  st <- rfold (fun st _ => sa_bin st) st (seq 0 n_range_adj) ;;
  rret {| sa_new := sa_new st; sa_old := sa_old st; sa_fold := sa_fold st; sa_bestx := sa_bestx st; sa_bestf := sa_bestf st;
          sa_step := sa_step st; sa_acp := sa_acp st; sa_T := dmul (sa_T st) coeff |}.
(** evolve, simulated_annealing.cpp:94-235 (without the log) *)
Definition sa_evolve : AM (P := P) unit :=
  s <- getp ;;
  let p := po_prob s in
  if negb (Nat.eqb (get_nc p) 0) then rlift (Throw InvalidArgument)
  else if negb (Nat.eqb (get_nf p) 1) then rlift (Throw InvalidArgument)
  else if u_set_seed (p_udp p) then rlift (Throw InvalidArgument)
  else if Nat.eqb (length (po_id s)) 0 then rlift (Throw InvalidArgument)
  else
    xf <- select_individual r2 srt sel ;;
    let coeff := pw (ddiv Tf Ts) (ddiv done (d_of_Z (Z.of_nat n_T_adj))) in
    let st0 := {| sa_new := fst xf; sa_old := fst xf; sa_fold := snd xf; sa_bestx := fst xf; sa_bestf := snd xf;
                  sa_step := repeat start_range (get_nx p); sa_acp := repeat 0%Z (get_nx p); sa_T := Ts |} in
    st <- rfold (fun st _ => sa_cool coeff st) st0 (seq 0 n_T_adj) ;;
    fb <- rlift (vget (sa_bestf st) 0) ;; f0 <- rlift (vget (snd xf) 0) ;;
    if dle fb f0 then replace_individual r2 srt rep (sa_bestx st) (sa_bestf st) else rret tt.
End Sa.
