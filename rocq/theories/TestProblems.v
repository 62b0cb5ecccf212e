(** The single-objective test problems of src/problems: fitness, bounds, derivatives and
    sparsity patterns. vget is operator[] of std::vector: undefined out of range. *)
From Coq Require Import List ZArith Bool.
Import ListNotations.
From Verif Require Import Outcome TestArith.

Local Notation "x <- m ;; k" := (bind m (fun x => k)) (at level 61, m at next level, right associativity).

Section TestProblems.
Context {A : Type} (o : arith A).
Local Notation "x + y" := (ar_add o x y) : arith_scope.
Local Notation "x - y" := (ar_sub o x y) : arith_scope.
Local Notation "x * y" := (ar_mul o x y) : arith_scope.
Local Notation "x / y" := (ar_div o x y) : arith_scope.
Local Notation "- x" := (ar_neg o x) : arith_scope.
Local Notation n k := (ar_lit o k%Z 1%Z).
Local Notation lit k d := (ar_lit o k%Z d%Z).
Local Notation of_nat k := (ar_lit o (Z.of_nat k) 1%Z).
Local Open Scope arith_scope.

(** retval += t(i) for the indices of a loop *)
Definition sum_loop (t : nat -> outcome A) (l : list nat) : outcome A :=
  mfold (fun s i => v <- t i ;; Ok (s + v)) (n 0) l.

(** ** rosenbrock.cpp *)
(** The constructor, rosenbrock.cpp:43-49 *)
Definition rosenbrock_ctor (dim : nat) : outcome nat := if Nat.ltb dim 2 then Throw InvalidArgument else Ok dim.
(** fitness, rosenbrock.cpp:59-66 *)
Definition rosenbrock_term (x : list A) (i : nat) : outcome A :=
  a <- vget x i ;; b <- vget x (i + 1)%nat ;;
  Ok (n 100 * (a * a - b) * (a * a - b) + (a - n 1) * (a - n 1)).
Definition rosenbrock_fitness (dim : nat) (x : list A) : outcome (list A) :=
  r <- sum_loop (rosenbrock_term x) (seq 0 (dim - 1)) ;; Ok [r].
(** get_bounds, rosenbrock.cpp:72-75 *)
Definition rosenbrock_bounds (dim : nat) : list A * list A := (repeat (n (-5)) dim, repeat (n 10) dim).
(** gradient, rosenbrock.cpp:83-92. The counter of the loop is 32 bits wide: dimensions of
    2^32 and more, with which it would not end, are left out. *)
Definition rosenbrock_gradient (dim : nat) (x : list A) : outcome (list A) :=
  x0 <- vget x 0 ;; x1 <- vget x 1 ;;
  g0 <- vset (repeat (n 0) dim) 0 (n (-400) * x0 * (x1 - x0 * x0) - n 2 * (n 1 - x0)) ;;
  g <- mfold (fun g i =>
        p <- vget x (i - 1)%nat ;; c <- vget x i ;; q <- vget x (i + 1)%nat ;;
        vset g i (n (-400) * c * (q - c * c) - n 2 * (n 1 - c) + n 200 * (c - p * p))) g0 (seq 1 (dim - 2)) ;;
  l <- vget x (dim - 1)%nat ;; k <- vget x (dim - 2)%nat ;;
  vset g (dim - 1)%nat (n 200 * (l - k * k)).
(** best_known, rosenbrock.cpp:98-101 *)
Definition rosenbrock_best (dim : nat) : list A := repeat (n 1) dim.

(** ** rastrigin.cpp, minlp_rastrigin.cpp *)
(** The constructors, rastrigin.cpp:46-52 and minlp_rastrigin.cpp:47-53: unsigned arithmetic *)
Definition rastrigin_ctor (dim : nat) : outcome nat := if Nat.ltb dim 1 then Throw InvalidArgument else Ok dim.
Definition minlp_ctor (dim_c dim_i : Z) : outcome (Z * Z) :=
  if ((dim_c + dim_i) mod 2 ^ 32 <? 1)%Z then Throw InvalidArgument else Ok (dim_c, dim_i).
(** const auto omega = 2. * pagmo::detail::pi() *)
Definition omega : A := n 2 * ar_pi o.
(** fitness, rastrigin.cpp:62-72, minlp_rastrigin.cpp:63-73 (the same text) *)
Definition rastrigin_fitness (x : list A) : outcome (list A) :=
  r <- sum_loop (fun i => a <- vget x i ;; Ok (a * a - n 10 * ar_cos o (omega * a))) (seq 0 (length x)) ;;
  Ok [r + n 10 * of_nat (length x)].
(** get_bounds, rastrigin.cpp:80-85 *)
Definition rastrigin_bounds (dim : nat) : list A * list A := (repeat (lit (-512) 100) dim, repeat (lit 512 100) dim).
(** get_bounds, minlp_rastrigin.cpp:81-90, for dimensions whose sum does not wrap around *)
Definition minlp_bounds (dim_c dim_i : nat) : list A * list A :=
  (repeat (lit (-512) 100) dim_c ++ repeat (n (-10)) dim_i, repeat (lit 512 100) dim_c ++ repeat (n (-5)) dim_i).
(** gradient, rastrigin.cpp:98-107, minlp_rastrigin.cpp:103-112 *)
Definition rastrigin_gradient (x : list A) : outcome (list A) :=
  mmap (fun i => a <- vget x i ;; Ok (n 2 * a + n 10 * omega * ar_sin o (omega * a))) (seq 0 (length x)).
(** hessians, rastrigin.cpp:120-129, minlp_rastrigin.cpp:125-134 *)
Definition rastrigin_hessians (x : list A) : outcome (list (list A)) :=
  h <- mmap (fun i => a <- vget x i ;; Ok (n 2 + n 10 * omega * omega * ar_cos o (omega * a))) (seq 0 (length x)) ;; Ok [h].
(** hessians_sparsity, rastrigin.cpp:140-148, minlp_rastrigin.cpp:145-153 *)
Definition rastrigin_hs (dim : nat) : list (list (nat * nat)) := [map (fun i => (i, i)) (seq 0 dim)].
(** best_known, rastrigin.cpp:154-157 *)
Definition rastrigin_best (dim : nat) : list A := repeat (n 0) dim.

(** ** griewank.cpp *)
(** fitness, griewank.cpp:60-76 *)
Definition griewank_fitness (x : list A) : outcome (list A) :=
  r <- sum_loop (fun i => a <- vget x i ;; Ok (a * a)) (seq 0 (length x)) ;;
  p <- mfold (fun p i => a <- vget x i ;; Ok (p * ar_cos o (a / ar_sqrt o (of_nat i + n 1)))) (n 1) (seq 0 (length x)) ;;
  Ok [r / n 4000 - p + n 1].
(** get_bounds, griewank.cpp:84-89; best_known, :95-98 *)
Definition griewank_bounds (dim : nat) : list A * list A := (repeat (n (-600)) dim, repeat (n 600) dim).
Definition griewank_best (dim : nat) : list A := repeat (n 0) dim.

(** ** ackley.cpp *)
(** fitness, ackley.cpp:61-76 (the two sums of the loop are independent of each other) *)
Definition ackley_fitness (x : list A) : outcome (list A) :=
  s1 <- sum_loop (fun i => a <- vget x i ;; Ok (a * a)) (seq 0 (length x)) ;;
  s2 <- sum_loop (fun i => a <- vget x i ;; Ok (ar_cos o (omega * a))) (seq 0 (length x)) ;;
  let m := of_nat (length x) in
  Ok [n (-20) * ar_exp o (lit (-2) 10 * ar_sqrt o (n 1 / m * s1)) - ar_exp o (n 1 / m * s2) + n 20 + ar_exp o (n 1)].
(** get_bounds, ackley.cpp:85-90; best_known, :96-99 *)
Definition ackley_bounds (dim : nat) : list A * list A := (repeat (n (-15)) dim, repeat (n 30) dim).
Definition ackley_best (dim : nat) : list A := repeat (n 0) dim.

(** ** hock_schittkowski_71.cpp *)
(** fitness, hock_schittkowski_71.cpp:49-56 *)
Definition hs71_fitness (x : list A) : outcome (list A) :=
  a <- vget x 0 ;; b <- vget x 1 ;; c <- vget x 2 ;; d <- vget x 3 ;;
  Ok [a * d * (a + b + c) + c; a * a + b * b + c * c + d * d - n 40; n 25 - a * b * c * d].
(** get_bounds, hock_schittkowski_71.cpp:65-68 *)
Definition hs71_bounds : list A * list A := (repeat (n 1) 4, repeat (n 5) 4).
(** gradient, hock_schittkowski_71.cpp:82-96 *)
Definition hs71_gradient (x : list A) : outcome (list A) :=
  a <- vget x 0 ;; b <- vget x 1 ;; c <- vget x 2 ;; d <- vget x 3 ;;
  Ok [a * d + d * (a + b + c); a * d; a * d + n 1; a * (a + b + c);
      n 2 * a; n 2 * b; n 2 * c; n 2 * d;
      - b * c * d; - a * c * d; - a * b * d; - a * b * c].
(** hessians, hock_schittkowski_71.cpp:110-115 *)
Definition hs71_hessians (x : list A) : outcome (list (list A)) :=
  a <- vget x 0 ;; b <- vget x 1 ;; c <- vget x 2 ;; d <- vget x 3 ;;
  Ok [[n 2 * d; d; d; n 2 * a + b + c; a; a]; [n 2; n 2; n 2; n 2];
      [- c * d; - b * d; - a * d; - b * c; - a * c; - a * b]].
(** hessians_sparsity, hock_schittkowski_71.cpp:127-132 *)
Definition hs71_hs : list (list (nat * nat)) :=
  [[(0, 0); (1, 0); (2, 0); (3, 0); (3, 1); (3, 2)]; [(0, 0); (1, 1); (2, 2); (3, 3)];
   [(1, 0); (2, 0); (2, 1); (3, 0); (3, 1); (3, 2)]]%nat.

(** ** luksan_vlcek1.cpp *)
(** The constructor, luksan_vlcek1.cpp:44-50 *)
Definition luksan_ctor (dim : nat) : outcome nat := if Nat.ltb dim 3 then Throw InvalidArgument else Ok dim.
(** fitness, luksan_vlcek1.cpp:60-78. The assertion on the size of x is left out: n is x.size(). *)
Definition luksan_term (x : list A) (i : nat) : outcome A :=
  a <- vget x i ;; b <- vget x (i + 1)%nat ;;
  let a1 := a * a - b in let a2 := a - n 1 in Ok (n 100 * a1 * a1 + a2 * a2).
Definition luksan_con (x : list A) (i : nat) : outcome A :=
  a <- vget x i ;; b <- vget x (i + 1)%nat ;; c <- vget x (i + 2)%nat ;;
  Ok (n 3 * ar_pow o b (n 3) + n 2 * c - n 5 + ar_sin o (b - c) * ar_sin o (b + c) + n 4 * b - a * ar_exp o (a - b) - n 3).
Definition luksan_fitness (x : list A) : outcome (list A) :=
  let dim := length x in
  f0 <- sum_loop (luksan_term x) (seq 0 (dim - 1)) ;;
  f1 <- vset (repeat (n 0) (1 + (dim - 2))) 0 f0 ;;
  mfold (fun f i => c <- luksan_con x i ;; vset f (i + 1)%nat c) f1 (seq 0 (dim - 2)).
(** get_bounds, luksan_vlcek1.cpp:86-89; get_nec, luksan_vlcek1.hpp:87-90 *)
Definition luksan_bounds (dim : nat) : list A * list A := (repeat (n (-5)) dim, repeat (n 5) dim).
Definition luksan_nec (dim : nat) : nat := (dim - 2)%nat.
(** gradient, luksan_vlcek1.cpp:102-123 *)
Definition luksan_gradient (x : list A) : outcome (list A) :=
  let dim := length x in
  g <- mfold (fun g i =>
        a <- vget x i ;; b <- vget x (i + 1)%nat ;;
        old <- vget g i ;;
        g1 <- vset g i (old + (n 400 * a * (a * a - b) + n 2 * (a - n 1))) ;;
        vset g1 (i + 1)%nat (n (-200) * (a * a - b))) (repeat (n 0) (dim + 3 * (dim - 2))) (seq 0 (dim - 1)) ;;
  mfold (fun g i =>
        a <- vget x i ;; b <- vget x (i + 1)%nat ;; c <- vget x (i + 2)%nat ;;
        g1 <- vset g (dim + 3 * i)%nat (- (n 1 + a) * ar_exp o (a - b)) ;;
        g2 <- vset g1 (dim + 1 + 3 * i)%nat
               (n 9 * b * b + ar_cos o (b - c) * ar_sin o (b + c) + ar_sin o (b - c) * ar_cos o (b + c) + n 4 + a * ar_exp o (a - b)) ;;
        vset g2 (dim + 2 + 3 * i)%nat (n 2 - ar_cos o (b - c) * ar_sin o (b + c) + ar_sin o (b - c) * ar_cos o (b + c))) g (seq 0 (dim - 2)).
(** gradient_sparsity, luksan_vlcek1.cpp:134-149 *)
Definition luksan_gs (dim : nat) : list (nat * nat) :=
  map (fun i => (0, i)%nat) (seq 0 dim) ++ flat_map (fun i => [(i + 1, i); (i + 1, i + 1); (i + 1, i + 2)]%nat) (seq 0 (dim - 2)).
(** ** lennard_jones.cpp *)
(** The constructor, lennard_jones.cpp:51-62 *)
Definition lj_ctor (atoms : Z) : outcome Z :=
  if (atoms <? 3)%Z then Throw InvalidArgument
  else if ((2 ^ 32 - 1) / 3 <? atoms - 2)%Z then Throw OverflowError else Ok atoms.
(** _r, lennard_jones.cpp:132-151 *)
Definition lj_coord (x : list A) (atom coord : nat) : outcome A :=
  match atom with
  | 0 => Ok (n 0)
  | 1 => if Nat.ltb coord 2 then Ok (n 0) else vget x 0
  | 2 => if Nat.eqb coord 0 then Ok (n 0) else vget x coord
  | _ => vget x (3 * (atom - 2) + coord)%nat
  end.
(** fitness, lennard_jones.cpp:72-91; the square and the powers are std::pow *)
Definition lj_dist (x : list A) (i j : nat) : outcome A :=
  let d k := a <- lj_coord x i k ;; b <- lj_coord x j k ;; Ok (ar_pow o (a - b) (n 2)) in
  d0 <- d 0%nat ;; d1 <- d 1%nat ;; d2 <- d 2%nat ;; Ok (d0 + d1 + d2).
Definition lj_pair (x : list A) (f : A) (ij : nat * nat) : outcome A :=
  dist <- lj_dist x (fst ij) (snd ij) ;;
  if ar_eqb o dist (n 0) then Ok (ar_huge o)
  else let sixth := ar_pow o dist (n (-3)) in Ok (f + (ar_pow o sixth (n 2) - sixth)).
Definition lj_pairs (atoms : nat) : list (nat * nat) := flat_map (fun i => map (pair i) (seq (i + 1) (atoms - (i + 1)))) (seq 0 (atoms - 1)).
Definition lj_fitness (atoms : nat) (x : list A) : outcome (list A) :=
  f <- mfold (lj_pair x) (n 0) (lj_pairs atoms) ;; Ok [n 4 * f].
(** get_bounds, lennard_jones.cpp:99-111; the dimension is computed with unsigned numbers *)
Definition lj_dim (atoms : Z) : Z := ((3 * atoms) mod 2 ^ 32 - 6) mod 2 ^ 32.
Definition lj_bounds (dim : nat) : list A * list A :=
  let shifted i := negb (Nat.eqb i 0) && Nat.eqb (i mod 3) 0 in
  (map (fun i => if shifted i then n 0 else n (-3)) (seq 0 dim), map (fun i => if shifted i then n 6 else n 3) (seq 0 dim)).
End TestProblems.
