(** Self-adaptive differential evolution: src/algorithms/sade.cpp (jDE and iDE) and
    src/algorithms/de1220.cpp (pDE). The two files are the same program except that sade has
    one mutation variant and de1220 adapts the variant too, out of a list of allowed ones; one
    model covers both. *)
From Coq Require Import List Bool Arith ZArith.
From Verif Require Import Dbl Outcome StdSort Problem Rng Generic GeneticOps Population Algo AlgDe.
Import ListNotations.
Local Open Scope rm_scope.

(** The literals 0.9, 0.1, 0.15 and 0.5 *)
Definition lit_0_9 : dbl := rnd (9 * one_z) 10.
Definition lit_0_1 : dbl := rnd (1 * one_z) 10.
Definition lit_0_15 : dbl := rnd (15 * one_z) 100.
Definition lit_0_5 : dbl := rnd (1 * one_z) 2.

(** sade's m_variant or de1220's m_allowed_variants *)
Inductive pool := Fixed (v : nat) | Among (l : list nat).
Record sade_params := mksade { sa_gen : nat; sa_pool : pool; sa_adptv : nat; sa_ftol : dbl; sa_xtol : dbl; sa_memory : bool }.
(** The mutable members m_F, m_CR and (de1220 only) m_variant, kept between calls of evolve *)
Record kept := mkkept { k_F : list dbl; k_CR : list dbl; k_V : list nat }.

(** The constructors, sade.cpp:52-65 and de1220.cpp:52-68. The members start out empty. *)
Definition variant_bad (v : nat) : bool := Nat.ltb v 1 || Nat.ltb 18 v.
Definition sade_ctor (a : sade_params) : outcome kept :=
  if match sa_pool a with Fixed v => variant_bad v | Among l => existsb variant_bad l end then Throw InvalidArgument
  else if Nat.ltb (sa_adptv a) 1 || Nat.ltb 2 (sa_adptv a) then Throw InvalidArgument
  else Ok (mkkept [] [] []).

(** The state of evolve: what de keeps, m_F, m_CR, m_variant, gbF, gbCR, gbIterF, gbIterCR *)
Record sst := mksst { s_de : dst; s_kept : kept; s_gF : dbl; s_gCR : dbl; s_iF : dbl; s_iCR : dbl }.

Section Sade.
Context {G P : Type} (r : rng G) (srt : sorter) (a : sade_params).

(** n_dist(m_e); the distribution's saved second number is taken to be part of the generator *)
Definition draw_norm : RM G dbl := rdraw (g_norm r dzero done).
(** drng(m_e) * 0.9 + 0.1 and n_dist(m_e) * 0.15 + 0.5 *)
Definition draw_F : RM G dbl := u <- draw01 r ;; rret (dadd (dmul u lit_0_9) lit_0_1).
Definition draw_half : RM G dbl := z <- draw_norm ;; rret (dadd (dmul z lit_0_15) lit_0_5).
(** m_allowed_variants[v_idx(m_e)], de1220.cpp:128-129. The size is unsigned: with no allowed
    variant the upper end of v_idx wraps around. *)
Definition draw_variant (l : list nat) : RM G nat :=
  k <- draw_int r 0 ((Z.of_nat (length l) - 1) mod 2 ^ 64) ;; rlift (vget l (Z.to_nat k)).

(** The initialisation, sade.cpp:142-157 and de1220.cpp:146-165 *)
Definition start_new (k : kept) (NP : nat) : bool :=
  negb (Nat.eqb (length (k_CR k)) NP) || negb (Nat.eqb (length (k_F k)) NP) ||
  match sa_pool a with Fixed _ => false | Among _ => negb (Nat.eqb (length (k_V k)) NP) end || negb (sa_memory a).
Definition start_kept (k : kept) (NP : nat) : RM G kept :=
  if start_new k NP then
    FC <- rmap (fun _ : nat => if Nat.eqb (sa_adptv a) 1 then c <- draw01 r ;; f <- draw_F ;; rret (f, c)
                               else c <- draw_half ;; f <- draw_half ;; rret (f, c)) (seq 0 NP) ;;
    V <- match sa_pool a with Fixed _ => rret [] | Among l => rmap (fun _ : nat => draw_variant l) (seq 0 NP) end ;;
    rret (mkkept (map fst FC) (map snd FC) V)
  else rret k.

(** Seven indexes, sade.cpp:170-176 and de1220.cpp:181-187 *)
Definition pick_seven (NP : nat) : RM G (list nat) :=
  st <- rfold (pick_one r NP) (seq 0 NP, []) (seq 0 7) ;; rret (snd st).

(** The choice of the variant, de1220.cpp:192 *)
Definition choose_variant (k : kept) (i : nat) : RM G nat :=
  match sa_pool a with
  | Fixed v => rret v
  | Among l => u <- draw01 r ;; if dlt u lit_0_9 then rlift (vget (k_V k) i) else draw_variant l
  end.

(** n_dist(m_e) * 0.5 * (x - y). Several of these appear in one expression, whose order of
    evaluation C++ leaves open; here it is from left to right. *)
Definition noise (x y : dbl) : RM G dbl := z <- draw_norm ;; rret (dmul (dmul z lit_0_5) (dsub x y)).
(** The adaptation of F by iDE from m_F ([M]) and gbIterF ([g]): sade.cpp:190, 206, 221, 237, 255
    (variants 1-5), 275, 290, 305, 321, 339 (6-10, the same), 357, 374 (11, 12), 391, 408 (13, 14),
    425, 443 (15, 16), 462, 480 (17, 18), and the same formulas in de1220.cpp. All seven
    individuals are looked up here, the code looks up those it uses. *)
Definition ide_F (variant i : nat) (M : list dbl) (g : dbl) (ri : list nat) : RM G dbl :=
  mi <- rlift (vget M i) ;;
  let m k := bind (vget ri k) (vget M) in
  m0 <- rlift (m 0) ;; m1 <- rlift (m 1) ;; m2 <- rlift (m 2) ;; m3 <- rlift (m 3) ;; m4 <- rlift (m 4) ;; m5 <- rlift (m 5) ;; m6 <- rlift (m 6) ;;
  match variant with
  | 1 | 6 => x <- noise m1 m2 ;; rret (dadd g x)
  | 2 | 7 => x <- noise m1 m2 ;; rret (dadd m0 x)
  | 3 | 8 => x <- noise g mi ;; y <- noise m0 m1 ;; rret (dadd (dadd mi x) y)
  | 4 | 9 => x <- noise m0 m1 ;; y <- noise m2 m3 ;; rret (dadd (dadd g x) y)
  | 5 | 10 => x <- noise m0 m1 ;; y <- noise m2 m3 ;; rret (dadd (dadd m4 x) y)
  | 11 | 12 => x <- noise m1 m2 ;; y <- noise m3 m4 ;; z <- noise m5 m6 ;; rret (dadd (dadd (dadd m0 x) y) z)
  | 13 | 14 => x <- noise m1 m2 ;; y <- noise m3 m4 ;; z <- noise m5 m6 ;; rret (dadd (dadd (dadd g x) y) z)
  | 15 | 16 => x <- noise m1 mi ;; y <- noise m3 m4 ;; rret (dadd (dadd m0 x) y)
  | 17 | 18 => x <- noise m1 mi ;; y <- noise m2 g ;; rret (dsub (dadd m0 x) y)
  | _ => rlift UB
  end.
(** The same for CR, which has another formula in the variants 11 to 14 (sade.cpp:359, 376, 393,
    410) and r[3] for r[2] in 17 and 18 (lines 464, 482) *)
Definition ide_CR (variant i : nat) (M : list dbl) (g : dbl) (ri : list nat) : RM G dbl :=
  mi <- rlift (vget M i) ;;
  let m k := bind (vget ri k) (vget M) in
  m0 <- rlift (m 0) ;; m1 <- rlift (m 1) ;; m2 <- rlift (m 2) ;; m3 <- rlift (m 3) ;; m4 <- rlift (m 4) ;;
  match variant with
  | 11 | 12 => z <- draw_norm ;; rret (dadd m4 (dmul (dmul z lit_0_5) (dsub (dsub (dadd m0 m1) m2) m3)))
  | 13 | 14 => z <- draw_norm ;; rret (dadd g (dmul (dmul z lit_0_5) (dsub (dsub (dadd m0 m1) m2) m3)))
  | 17 | 18 => x <- noise m1 mi ;; y <- noise m3 g ;; rret (dsub (dadd m0 x) y)
  | _ => ide_F variant i M g ri
  end.
(** The adaptation, sade.cpp:178-183 (jDE) and the formulas above (iDE) *)
Definition adapt (st : sst) (ri : list nat) (i : nat) : RM G (nat * dbl * dbl) :=
  let k := s_kept st in
  v <- choose_variant k i ;;
  if Nat.eqb (sa_adptv a) 1 then
    u <- draw01 r ;; F <- (if dlt u lit_0_9 then rlift (vget (k_F k) i) else draw_F) ;;
    w <- draw01 r ;; CR <- (if dlt w lit_0_9 then rlift (vget (k_CR k) i) else draw01 r) ;;
    rret (v, F, CR)
  else
    F <- ide_F v i (k_F k) (s_iF st) ri ;; CR <- ide_CR v i (k_CR k) (s_iCR st) ri ;; rret (v, F, CR).

(** The mutated component n: sade.cpp:197, 213, 229, 246, 264 (variants 1-5), 282, 297, 313, 330,
    348 (6-10), 365, 382, 399, 416, 434, 452, 471, 489 (11-18), and the same formulas in
    de1220.cpp. All individuals are looked up here, the code looks up those it uses. *)
Definition sade_value (variant : nat) (F : dbl) (old : list (list dbl)) (gb : list dbl) (ri : list nat) (i : nat) (tmp : list dbl) (n : nat) : outcome dbl :=
  let c k := bind (vget ri k) (fun b => at2 old b n) in
  bind (vget tmp n) (fun t => bind (vget gb n) (fun g => bind (at2 old i n) (fun xi =>
  bind (c 0) (fun x0 => bind (c 1) (fun x1 => bind (c 2) (fun x2 => bind (c 3) (fun x3 => bind (c 4) (fun x4 => bind (c 5) (fun x5 => bind (c 6) (fun x6 =>
  match variant with
  | 1 | 6 => Ok (dadd g (dmul F (dsub x1 x2)))
  | 2 | 7 => Ok (dadd x0 (dmul F (dsub x1 x2)))
  | 3 | 8 => Ok (dadd (dadd t (dmul F (dsub g t))) (dmul F (dsub x0 x1)))
  | 4 | 9 => Ok (dadd (dadd g (dmul (dsub x0 x1) F)) (dmul (dsub x2 x3) F))
  | 5 | 10 => Ok (dadd (dadd x4 (dmul (dsub x0 x1) F)) (dmul (dsub x2 x3) F))
  | 11 | 12 => Ok (dadd (dadd (dadd x0 (dmul (dsub x1 x2) F)) (dmul (dsub x3 x4) F)) (dmul (dsub x5 x6) F))
  | 13 | 14 => Ok (dadd (dadd (dadd g (dmul (dsub x1 x2) F)) (dmul (dsub x3 x4) F)) (dmul (dsub x5 x6) F))
  | 15 | 16 => Ok (dadd (dadd x0 (dmul (dsub x1 xi) F)) (dmul (dsub x2 x3) F))
  | 17 | 18 => Ok (dsub (dadd x0 (dmul (dsub x1 xi) F)) (dmul (dsub x2 g) F))
  | _ => UB
  end)))))))))).
(** The variants with exponential crossover: 1-5, 11, 13, 15, 17 *)
Definition is_exp (variant : nat) : bool := Nat.leb variant 5 || (Nat.ltb 10 variant && Nat.odd variant).
(** The trial vector, sade.cpp:185-494; the loops are those of de.cpp, with CR for the
    constant crossover probability (they look at nothing else of de's parameters) *)
Definition sade_trial (variant : nat) (F CR : dbl) (dim : nat) (old : list (list dbl)) (gb : list dbl) (ri : list nat) (i : nat) : RM G (list dbl) :=
  let d := mkde 0 F CR 1 dzero dzero in
  tmp <- rlift (vget old i) ;;
  n <- draw_int r 0 (Z.of_nat dim - 1) ;;
  (if is_exp variant then exp_loop r d (sade_value variant F old gb ri i) dim dim (Z.to_nat n) tmp
   else bin_loop r d (sade_value variant F old gb ri i) dim (Z.to_nat n) tmp).

(** One individual, sade.cpp:168-524 and de1220.cpp:179-537. The loop at sade.cpp:498-502 is
    force_bounds_random. *)
Definition sade_one (p : problem) (NP : nat) (st : sst) (i : nat) : AM (P := P) sst :=
  let e := s_de st in let k := s_kept st in
  ri <- eng (pick_seven NP) ;;
  w <- eng (adapt st ri i) ;;
  let v := fst (fst w) in let F := snd (fst w) in let CR := snd w in
  tmp0 <- eng (sade_trial v F CR (get_nx p) (d_old e) (d_gbIter e) ri i) ;;
  tmp <- eng (force_bounds_random r tmp0 (p_lb p) (p_ub p)) ;;
  newfit <- peval tmp ;;
  new0 <- rlift (vget newfit 0) ;; old0 <- rlift (at2 (d_fit e) i 0) ;;
  if dle new0 old0 then
    fit' <- rlift (vset (d_fit e) i newfit) ;; new' <- rlift (vset (d_new e) i tmp) ;;
    pset i tmp newfit ;;;
    CR' <- rlift (vset (k_CR k) i CR) ;; F' <- rlift (vset (k_F k) i F) ;;
    V' <- match sa_pool a with Fixed _ => rret (k_V k) | Among _ => rlift (vset (k_V k) i v) end ;;
    gb0 <- rlift (vget (d_gbfit e) 0) ;;
    if dle new0 gb0 then rret (mksst (mkdst (d_old e) fit' new' tmp newfit (d_gbIter e)) (mkkept F' CR' V') F CR (s_iF st) (s_iCR st))
    else rret (mksst (mkdst (d_old e) fit' new' (d_gbX e) (d_gbfit e) (d_gbIter e)) (mkkept F' CR' V') (s_gF st) (s_gCR st) (s_iF st) (s_iCR st))
  else
    x <- rlift (vget (d_old e) i) ;; new' <- rlift (vset (d_new e) i x) ;;
    rret (mksst (mkdst (d_old e) (d_fit e) new' (d_gbX e) (d_gbfit e) (d_gbIter e)) k (s_gF st) (s_gCR st) (s_iF st) (s_iCR st)).

(** The generations, sade.cpp:166-583 and de1220.cpp:177-598; [k] are left (m_gen is taken to be
    below 2^32 - 1, the log is left out) *)
Fixpoint sade_gens (p : problem) (NP k : nat) (st : sst) : AM (P := P) kept :=
  match k with
  | 0 => rret (s_kept st)
  | S k' =>
      st1 <- rfold (sade_one p NP) st (seq 0 NP) ;;
      s <- getp ;;
      b <- rlift (best_idx srt s) ;; w <- rlift (worst_idx srt s) ;;
      dx <- rlift (flat_x s (get_nx p) b w) ;;
      if dlt dx (sa_xtol a) then rret (s_kept st1) else
      df <- rlift (flat_f s b w) ;;
      if dlt df (sa_ftol a) then rret (s_kept st1) else
      let e := s_de st1 in
      sade_gens p NP k' (mksst (mkdst (d_new e) (d_fit e) (d_old e) (d_gbX e) (d_gbfit e) (d_gbX e)) (s_kept st1) (s_gF st1) (s_gCR st1) (s_gF st1) (s_gCR st1))
  end.

(** evolve, sade.cpp:78-587 and de1220.cpp:80-602, from the kept members to the new ones. When
    the fitness function throws, what the members hold is not modelled. *)
Definition sade_evolve (k : kept) : AM (P := P) kept :=
  s <- getp ;;
  let p := po_prob s in let NP := length (po_id s) in
  if negb (Nat.eqb (get_nc p) 0) then rlift (Throw InvalidArgument)
  else if negb (Nat.eqb (get_nf p) 1) then rlift (Throw InvalidArgument)
  else if u_set_seed (p_udp p) then rlift (Throw InvalidArgument)
  else if Nat.eqb (sa_gen a) 0 then rret k
  else if Nat.ltb NP 7 then rlift (Throw InvalidArgument)
  else
    b <- rlift (best_idx srt s) ;;
    gbX <- rlift (vget (po_x s) b) ;; gbfit <- rlift (vget (po_f s) b) ;;
    k1 <- eng (start_kept k NP) ;;
    F0 <- rlift (vget (k_F k1) 0) ;; CR0 <- rlift (vget (k_CR k1) 0) ;;
    sade_gens p NP (sa_gen a) (mksst (mkdst (po_x s) (po_f s) (po_x s) gbX gbfit gbX) k1 F0 CR0 F0 CR0).
End Sade.
