(** NSGA-II: src/algorithms/nsga2.cpp.

    std::pow, std::sort and std::shuffle are parameters. The population popnew, a copy made in
    each generation (:177), is represented by its decision and fitness vectors: its
    identifiers, champion and random engine are never read. *)
From Coq Require Import List Bool Arith ZArith.
From Verif Require Import Dbl Outcome StdSort Compare Problem Rng MultiObj Generic GeneticOps Population Algo AlgSga.
Import ListNotations.
Local Open Scope rm_scope.

Record nsga2_params := mknsga2 { ns_gen : nat; ns_cr : dbl; ns_eta_c : dbl; ns_m : dbl; ns_eta_m : dbl }.

(** The constructor, nsga2.cpp:60-79 *)
Definition nsga2_construct (gen : nat) (cr eta_c m eta_m : dbl) : outcome nsga2_params :=
  if dge cr done || dlt cr dzero then Throw InvalidArgument
  else if dlt m dzero || dgt m done then Throw InvalidArgument
  else if dlt eta_c done || dgt eta_c dhundred then Throw InvalidArgument
  else if dlt eta_m done || dgt eta_m dhundred then Throw InvalidArgument
  else Ok (mknsga2 gen cr eta_c m eta_m).

(** The crowding distances of one front, nsga2.cpp:188-206 *)
Definition nsga2_crowd (srt : sorter) (F : list (list dbl)) (cd : list dbl) (front : list nat) : outcome (list dbl) :=
  if Nat.eqb (length front) 1 then bind (vget front 0) (fun i => vset cd i PInf)
  else if Nat.eqb (length front) 2 then
    bind (vget front 0) (fun i => bind (vset cd i PInf) (fun cd1 => bind (vget front 1) (fun j => vset cd1 j PInf)))
  else
    bind (mmap (vget F) front) (fun pts =>
    bind (crowding_distance srt pts) (fun c =>
    mfold (fun cd i => bind (vget front i) (fun k => bind (vget c i) (fun v => vset cd k v))) cd (seq 0 (length c)))).
(** Non-domination ranks and crowding distances of the population, nsga2.cpp:184-207 *)
Definition nsga2_ranking (srt : sorter) (F : list (list dbl)) : outcome (list nat * list dbl) :=
  bind (fast_non_dominated_sorting F) (fun t =>
  bind (mfold (nsga2_crowd srt F) (repeat dzero (length F)) (fr_fronts t)) (fun cd => Ok (fr_rank t, cd))).

Section Nsga2.
Context {G P : Type} (r : rng G) (srt : sorter) (pw : dbl -> dbl -> dbl).
(** std::shuffle with the engine *)
Context (shuf : forall A, list A -> G -> list A * G).
Context (a : nsga2_params).

(** Two children of two winners of tournaments between sh[i], ..., sh[i+3]: nsga2.cpp:217-222,
    :228-233, :268-273, :282-289 *)
Definition nsga2_pair (X : list (list dbl)) (lb ub : list dbl) (nix : nat) (rank : list nat) (cd : list dbl) (sh : list nat) (i : nat) : RM G (list dbl * list dbl) :=
  a1 <- rlift (vget sh i) ;; a2 <- rlift (vget sh (i + 1)) ;; k1 <- tournament r a1 a2 rank cd ;;
  b1 <- rlift (vget sh (i + 2)) ;; b2 <- rlift (vget sh (i + 3)) ;; k2 <- tournament r b1 b2 rank cd ;;
  x1 <- rlift (vget X k1) ;; x2 <- rlift (vget X k2) ;;
  cs <- sbx_crossover_impl r pw x1 x2 lb ub nix (ns_cr a) (ns_eta_c a) ;;
  c1 <- polynomial_mutation_impl r pw (fst cs) lb ub nix (ns_m a) (ns_eta_m a) ;;
  c2 <- polynomial_mutation_impl r pw (snd cs) lb ub nix (ns_m a) (ns_eta_m a) ;;
  rret (c1, c2).

(** ** Without a batch evaluator *)
(** One pair of children, evaluated and pushed back: nsga2.cpp:268-280, :282-295. The state is
    (popnew.get_x(), popnew.get_f()). *)
Definition nsga2_two (m : RM G (list dbl * list dbl)) (st : list (list dbl) * list (list dbl)) : AM (G := G) (P := P) (list (list dbl) * list (list dbl)) :=
  c <- eng m ;;
  f1 <- peval (fst c) ;; f2 <- peval (snd c) ;;
  rret (fst st ++ [fst c; snd c], snd st ++ [f1; f2]).
(** The loop, nsga2.cpp:266-296; h counts its iterations, i = 4 * h *)
Definition nsga2_seq (X : list (list dbl)) (lb ub : list dbl) (nix : nat) (rk : list nat * list dbl) (sh1 sh2 : list nat)
    (st : list (list dbl) * list (list dbl)) (h : nat) : AM (G := G) (P := P) (list (list dbl) * list (list dbl)) :=
  st1 <- nsga2_two (nsga2_pair X lb ub nix (fst rk) (snd rk) sh1 (4 * h)) st ;;
  nsga2_two (nsga2_pair X lb ub nix (fst rk) (snd rk) sh2 (4 * h)) st1.

(** ** With a batch evaluator *)
(** The loop, nsga2.cpp:214-239; the state is poptemp *)
Definition nsga2_bat (X : list (list dbl)) (lb ub : list dbl) (nix : nat) (rk : list nat * list dbl) (sh1 sh2 : list nat)
    (tmp : list (list dbl)) (h : nat) : RM G (list (list dbl)) :=
  c <- nsga2_pair X lb ub nix (fst rk) (snd rk) sh1 (4 * h) ;;
  d <- nsga2_pair X lb ub nix (fst rk) (snd rk) sh2 (4 * h) ;;
  rret (tmp ++ [fst c; snd c; fst d; snd d]).
(** The call of the evaluator with the problem of the population, nsga2.cpp:253; the genes are
    those of poptemp one after the other (:241-250), which has NP elements of equal size *)
Definition nsga2_call (ud : problem -> list dbl -> outcome (list dbl)) (genes : list dbl) : AM (G := G) (P := P) (list dbl) := fun s =>
  let (o, c) := bfe_call ud (po_prob (snd s)) (po_fevals (snd s)) genes in (o, (fst s, with_fevals (snd s) c)).
(** std::vector(v.begin() + b, v.begin() + e), nsga2.cpp:261-263: undefined beyond the end *)
Definition sub_vector (v : list dbl) (b len : nat) : outcome (list dbl) := if Nat.leb (b + len) (length v) then Ok (firstn len (skipn b v)) else UB.
Definition nsga2_eval_batch (ud : problem -> list dbl -> outcome (list dbl)) (tmp : list (list dbl)) : AM (G := G) (P := P) (list (list dbl)) :=
  s <- getp ;;
  fs <- nsga2_call ud (concat tmp) ;;
  rlift (mmap (fun i => sub_vector fs (i * p_nobj (po_prob s)) (p_nobj (po_prob s))) (seq 0 (length tmp))).

(** The decision and fitness vectors of popnew after the offspring are in, nsga2.cpp:209-297.
    [bfe] is m_bfe. *)
Definition nsga2_breed (bfe : option (problem -> list dbl -> outcome (list dbl))) (rk : list nat * list dbl) (sh1 sh2 : list nat) : AM (G := G) (P := P) (list (list dbl) * list (list dbl)) :=
  s <- getp ;;
  let p := po_prob s in let quarters := seq 0 (length (po_id s) / 4) in
  match bfe with
  | None => rfold (nsga2_seq (po_x s) (p_lb p) (p_ub p) (p_nix p) rk sh1 sh2) (po_x s, po_f s) quarters
  | Some ud =>
      tmp <- eng (rfold (nsga2_bat (po_x s) (p_lb p) (p_ub p) (p_nix p) rk sh1 sh2) [] quarters) ;;
      F <- nsga2_eval_batch ud tmp ;;
      rret (po_x s ++ tmp, po_f s ++ F)
  end.
(** The selection and insertion, nsga2.cpp:298-304 *)
Definition nsga2_insert (XN FN : list (list dbl)) : AM (G := G) (P := P) unit :=
  s <- getp ;;
  best <- rlift (select_best_N_mo srt FN (length (po_id s))) ;;
  rfold (fun _ i => b <- rlift (vget best i) ;; x <- rlift (vget XN b) ;; f <- rlift (vget FN b) ;; pset i x f) tt (seq 0 (length (po_id s))).
(** One generation, nsga2.cpp:176-304; the state is (shuffle1, shuffle2) *)
Definition nsga2_generation (bfe : option (problem -> list dbl -> outcome (list dbl))) (sh : list nat * list nat) : AM (G := G) (P := P) (list nat * list nat) :=
  s <- getp ;;
  sh1 <- eng (rdraw (shuf nat (fst sh))) ;;
  sh2 <- eng (rdraw (shuf nat (snd sh))) ;;
  rk <- rlift (nsga2_ranking srt (po_f s)) ;;
  XF <- nsga2_breed bfe rk sh1 sh2 ;;
  nsga2_insert (fst XF) (snd XF) ;;;
  rret (sh1, sh2).
(** evolve, nsga2.cpp:91-307, without the log *)
Definition nsga2_evolve (bfe : option (problem -> list dbl -> outcome (list dbl))) : AM (G := G) (P := P) unit :=
  s <- getp ;;
  let p := po_prob s in let NP := length (po_id s) in
  if some_bound_is_equal (p_lb p) (p_ub p) then rlift (Throw InvalidArgument)
  else if u_set_seed (p_udp p) then rlift (Throw InvalidArgument)
  else if negb (Nat.eqb (get_nc p) 0) then rlift (Throw InvalidArgument)
  else if Nat.ltb (get_nf p) 2 then rlift (Throw InvalidArgument)
  else if Nat.ltb NP 5 || negb (Nat.eqb (NP mod 4) 0) then rlift (Throw InvalidArgument)
  else rfold (fun sh _ => nsga2_generation bfe sh) (seq 0 NP, seq 0 NP) (seq 0 (ns_gen a)) ;;; rret tt.
End Nsga2.
