(** The ZDT test problems, src/problems/zdt.cpp. vget is operator[] of std::vector: undefined
    out of range. *)
From Coq Require Import List ZArith Bool.
Import ListNotations.
From Verif Require Import Outcome TestArith.

Local Notation "x <- m ;; k" := (bind m (fun x => k)) (at level 61, m at next level, right associativity).

(** The constructor, zdt.cpp:55-66: problem and parameter are unsigned ints *)
Definition zdt_ctor (id param : Z) : outcome (Z * Z) :=
  if (param <? 2)%Z then Throw InvalidArgument
  else if ((id =? 0) || (6 <? id))%Z%bool then Throw InvalidArgument else Ok (id, param).
(** The dimension the bounds have, zdt.cpp:108-133, and get_nix, zdt.cpp:142-158: unsigned
    arithmetic *)
Definition zdt_dim (id param : Z) : Z := if (id =? 5)%Z then ((30 + 5 * (param - 1)) mod 2 ^ 32)%Z else param.
Definition zdt_nix (id param : Z) : Z := if (id =? 5)%Z then zdt_dim id param else 0%Z.

Section Zdt.
Context {A : Type} (o : arith A).
Local Notation "x + y" := (ar_add o x y) : arith_scope.
Local Notation "x - y" := (ar_sub o x y) : arith_scope.
Local Notation "x * y" := (ar_mul o x y) : arith_scope.
Local Notation "x / y" := (ar_div o x y) : arith_scope.
Local Notation n k := (ar_lit o k%Z 1%Z).
Local Open Scope arith_scope.

(** get_bounds, zdt.cpp:108-133, for a vector of dim numbers *)
Definition zdt_bounds (id : Z) (dim : nat) : list A * list A :=
  if (id =? 4)%Z then match repeat (n (-5)) dim, repeat (n 5) dim with _ :: l, _ :: u => (n 0 :: l, n 1 :: u) | l, u => (l, u) end
  else (repeat (n 0) dim, repeat (n 1) dim).

(** static_cast<double>(N - 1u), with N a std::size_t *)
Definition size_less_one (x : list A) : A := n (((Z.of_nat (length x) - 1) mod 2 ^ 64)%Z).
(** the loop g += x[i] from i = 1 *)
Definition zdt_sum (x : list A) : outcome A := mfold (fun g i => v <- vget x i ;; Ok (g + v)) (n 0) (seq 1 (length x - 1)).
(** zdt1, zdt.cpp:233-247 *)
Definition zdt1_fitness (x : list A) : outcome (list A) :=
  x0 <- vget x 0 ;; s <- zdt_sum x ;;
  let g := n 1 + (n 9 * s) / size_less_one x in
  Ok [x0; g * (n 1 - ar_sqrt o (x0 / g))].
(** zdt2, zdt.cpp:249-263 *)
Definition zdt2_fitness (x : list A) : outcome (list A) :=
  x0 <- vget x 0 ;; s <- zdt_sum x ;;
  let g := n 1 + (n 9 * s) / size_less_one x in
  Ok [x0; g * (n 1 - (x0 / g) * (x0 / g))].
(** zdt3, zdt.cpp:265-279 *)
Definition zdt3_fitness (x : list A) : outcome (list A) :=
  x0 <- vget x 0 ;; s <- zdt_sum x ;;
  let g := n 1 + (n 9 * s) / size_less_one x in
  Ok [x0; g * (n 1 - ar_sqrt o (x0 / g) - x0 / g * ar_sin o (n 10 * ar_pi o * x0))].
(** zdt4, zdt.cpp:281-296; the loop of fitness and that of p_distance (375-377) start from
    different values *)
Definition zdt4_loop (x : list A) (g : A) : outcome A :=
  mfold (fun g i => v <- vget x i ;; Ok (g + (v * v - n 10 * ar_cos o (n 4 * ar_pi o * v)))) g (seq 1 (length x - 1)).
Definition zdt4_fitness (x : list A) : outcome (list A) :=
  x0 <- vget x 0 ;;
  g <- zdt4_loop x (n 1 + n 10 * size_less_one x) ;;
  Ok [x0; g * (n 1 - ar_sqrt o (x0 / g))].
(** zdt5, zdt.cpp:298-339. The arrays u and v are merged into the loop that adds v. *)
Definition zdt5_vectors (x : list A) : Z := (((Z.of_nat (length x) - 30) mod 2 ^ 64) / 5 + 1)%Z.
(** how many of the components with these indices are 1 *)
Definition zdt5_ones (x : list A) (l : list nat) : outcome Z :=
  mfold (fun c k => v <- vget x k ;; Ok (if ar_eqb o v (n 1) then c + 1 else c)%Z) 0%Z l.
Definition zdt5_v (u : Z) : Z := (if u <? 5 then 2 + u else 1)%Z.
Definition zdt5_g (x : list A) (nv : nat) : outcome A :=
  mfold (fun g i => u <- zdt5_ones x (seq (30 + 5 * (i - 1)) 5) ;; Ok (g + n (zdt5_v u))) (n 0) (seq 1 (nv - 1)).
(** std::vector<size_type> u(n_vectors, 0u) throws std::length_error above max_size(), which
    is 2^60 - 1 in libstdc++; the model writes it as an exception of user code. *)
Definition zdt5_alloc (nv : Z) : outcome nat := if (2 ^ 60 - 1 <? nv)%Z then Throw (UserExn 0) else Ok (Z.to_nat nv).
Definition zdt5_fitness (xd : list A) : outcome (list A) :=
  nv <- zdt5_alloc (zdt5_vectors xd) ;;
  let x := map (ar_round o) xd in
  _ <- vget x 0 ;;
  u0 <- zdt5_ones x (seq 0 30) ;;
  let f0 := n 1 + n u0 in
  g <- zdt5_g x nv ;;
  Ok [f0; g * (n 1 / f0)].
(** zdt6, zdt.cpp:341-356 *)
Definition zdt6_fitness (x : list A) : outcome (list A) :=
  x0 <- vget x 0 ;; s <- zdt_sum x ;;
  let f0 := n 1 - ar_exp o (n (-4) * x0) * ar_pow o (ar_sin o (n 6 * ar_pi o * x0)) (n 6) in
  let g := n 1 + n 9 * ar_pow o (s / size_less_one x) (ar_lit o 25 100) in
  Ok [f0; g * (n 1 - (f0 / g) * (f0 / g))].
(** fitness, zdt.cpp:76-100; the constructor leaves no other problem *)
Definition zdt_fitness (id : Z) (x : list A) : outcome (list A) :=
  if (id =? 1)%Z then zdt1_fitness x else if (id =? 2)%Z then zdt2_fitness x else if (id =? 3)%Z then zdt3_fitness x
  else if (id =? 4)%Z then zdt4_fitness x else if (id =? 5)%Z then zdt5_fitness x else if (id =? 6)%Z then zdt6_fitness x else Ok [].

(** zdt123_p_distance, zdt.cpp:358-369 *)
Definition zdt123_p_distance (x : list A) : outcome A :=
  s <- zdt_sum x ;; Ok (n 0 + (n 1 + (n 9 * s) / size_less_one x) - n 1).
(** zdt4_p_distance, zdt.cpp:371-382 *)
Definition zdt4_p_distance (x : list A) : outcome A :=
  g <- zdt4_loop x (n 0) ;; Ok (n 0 + (n 1 + n 10 * size_less_one x + g) - n 1).
(** zdt5_p_distance, zdt.cpp:384-421 *)
Definition zdt5_p_distance (xd : list A) : outcome A :=
  let x := map (ar_floor o) xd in
  nv <- zdt5_alloc (zdt5_vectors x) ;;
  g <- zdt5_g x nv ;;
  Ok (n 0 + g - n (zdt5_vectors x) + n 1).
(** zdt6_p_distance, zdt.cpp:423-434 *)
Definition zdt6_p_distance (x : list A) : outcome A :=
  s <- zdt_sum x ;; Ok (n 0 + (n 1 + n 9 * ar_pow o (s / size_less_one x) (ar_lit o 25 100)) - n 1).
(** p_distance of a vector, zdt.cpp:204-224 *)
Definition zdt_p_distance (id : Z) (x : list A) : outcome A :=
  if ((id =? 1) || (id =? 2) || (id =? 3))%Z%bool then zdt123_p_distance x
  else if (id =? 4)%Z then zdt4_p_distance x else if (id =? 5)%Z then zdt5_p_distance x else if (id =? 6)%Z then zdt6_p_distance x else Ok (n 0).
(** p_distance of the decision vectors of a population, zdt.cpp:179-187 *)
Definition zdt_p_distance_pop (id : Z) (xs : list (list A)) : outcome A :=
  c <- mfold (fun c x => d <- zdt_p_distance id x ;; Ok (c + d)) (n 0) xs ;; Ok (c / n (Z.of_nat (length xs))).
End Zdt.
