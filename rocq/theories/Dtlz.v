(** The DTLZ test problems, src/problems/dtlz.cpp. vget is operator[] of std::vector: undefined
    out of range. *)
From Coq Require Import List ZArith Bool.
Import ListNotations.
From Verif Require Import Outcome TestArith.

Local Notation "x <- m ;; k" := (bind m (fun x => k)) (at level 61, m at next level, right associativity).

(** The constructor, dtlz.cpp:53-74: unsigned int and std::size_t *)
Definition dtlz_ctor (id dim fdim : Z) : outcome unit :=
  if ((id =? 0) || (7 <? id))%Z%bool then Throw InvalidArgument
  else if (fdim <? 2)%Z then Throw InvalidArgument
  else if ((2 ^ 64 - 1) / 3 <? fdim)%Z then Throw InvalidArgument
  else if ((2 ^ 64 - 1) / 3 <? dim)%Z then Throw InvalidArgument
  else if (dim <=? fdim)%Z then Throw InvalidArgument else Ok tt.

Section Dtlz.
Context {A : Type} (o : arith A).
Local Notation "x + y" := (ar_add o x y) : arith_scope.
Local Notation "x - y" := (ar_sub o x y) : arith_scope.
Local Notation "x * y" := (ar_mul o x y) : arith_scope.
Local Notation "x / y" := (ar_div o x y) : arith_scope.
Local Notation n k := (ar_lit o k%Z 1%Z).
Local Notation lit k d := (ar_lit o k%Z d%Z).
Local Notation of_nat k := (ar_lit o (Z.of_nat k) 1%Z).
Local Open Scope arith_scope.

(** get_bounds, dtlz.cpp:116-119 *)
Definition dtlz_bounds (dim : nat) : list A * list A := (repeat (n 0) dim, repeat (n 1) dim).

(** The sums of the functions g over the components of x_M, added one by one from 0.
    g13_func, dtlz.cpp:207-214 *)
Definition acc (t : A -> A) (x : list A) : A := fold_left (fun y v => y + t v) x (n 0).
Definition g13_func (x : list A) : A :=
  n 100 * (acc (fun v => ar_pow o (v - lit 5 10) (n 2) - ar_cos o (n 20 * ar_pi o * (v - lit 5 10))) x + of_nat (length x)).
(** g245_func, dtlz.cpp:216-223 *)
Definition g245_func (x : list A) : A := acc (fun v => ar_pow o (v - lit 5 10) (n 2)) x.
(** g6_func, dtlz.cpp:225-232 *)
Definition g6_func (x : list A) : A := acc (fun v => ar_pow o v (lit 1 10)) x.
(** g7_func, dtlz.cpp:234-244 *)
Definition g7_func (x : list A) : A := (n 9 / of_nat (length x)) * acc (fun v => v) x.
(** g_func, dtlz.cpp:182-204 *)
Definition g_func (id : Z) (x : list A) : A :=
  if (id =? 6)%Z then g6_func x else if (id =? 7)%Z then g7_func x
  else if ((id =? 1) || (id =? 3))%Z%bool then g13_func x
  else if ((id =? 2) || (id =? 4) || (id =? 5))%Z%bool then g245_func x else n 0.
(** the loop that fills x_M, dtlz.cpp:264-266 and alike *)
Definition x_M (M : nat) (x : list A) : outcome (list A) := mmap (vget x) (seq (M - 1) (length x - (M - 1))).

(** The shape functions, dtlz.cpp:270-285 (f1), 300-314 (f23), 329-343 (f4), 370-384 (f56):
    f[0], the loop over f[1], ..., f[M - 2] and f[M - 1] *)
Definition shape (M : nat) (base : A) (C S : A -> A) (last : A -> A) (th : list A) : outcome (list A) :=
  let prod k := mfold (fun a j => v <- vget th j ;; Ok (a * C v)) base (seq 0 k) in
  f0 <- prod (M - 1)%nat ;;
  mid <- mmap (fun i => a <- prod (M - (i + 1))%nat ;; v <- vget th (M - (i + 1)) ;; Ok (a * S v)) (seq 1 (M - 2)) ;;
  v0 <- vget th 0 ;;
  Ok (f0 :: mid ++ [last v0]).
(** detail::pi_half() *)
Definition pi_half : A := ar_pi o / n 2.
(** f1_objfun_impl, dtlz.cpp:258-287 *)
Definition f1_objfun (id : Z) (M : nat) (x : list A) : outcome (list A) :=
  xm <- x_M M x ;; let g := g_func id xm in
  shape M (lit 5 10 * (n 1 + g)) (fun v => v) (fun v => n 1 - v) (fun v => lit 5 10 * (n 1 - v) * (n 1 + g)) x.
(** f23_objfun_impl, dtlz.cpp:289-316 *)
Definition f23_objfun (id : Z) (M : nat) (x : list A) : outcome (list A) :=
  xm <- x_M M x ;; let g := g_func id xm in
  shape M (n 1 + g) (fun v => ar_cos o (v * pi_half)) (fun v => ar_sin o (v * pi_half)) (fun v => (n 1 + g) * ar_sin o (v * pi_half)) x.
(** f4_objfun_impl, dtlz.cpp:318-345 *)
Definition f4_objfun (id : Z) (M : nat) (alpha : Z) (x : list A) : outcome (list A) :=
  xm <- x_M M x ;; let g := g_func id xm in let p v := ar_pow o v (n alpha) in
  shape M (n 1 + g) (fun v => ar_cos o (p v * pi_half)) (fun v => ar_sin o (p v * pi_half)) (fun v => (n 1 + g) * ar_sin o (p v * pi_half)) x.
(** f56_objfun_impl, dtlz.cpp:347-386 *)
Definition f56_theta (M : nat) (g : A) (x : list A) : outcome (list A) :=
  x0 <- vget x 0 ;;
  let t := n 1 / (n 2 * (n 1 + g)) in
  r <- mmap (fun i => v <- vget x i ;; Ok (t + (g * v) / (n 1 + g))) (seq 1 (M - 1)) ;;
  Ok (x0 :: r).
Definition f56_objfun (id : Z) (M : nat) (x : list A) : outcome (list A) :=
  xm <- x_M M x ;; let g := g_func id xm in
  th <- f56_theta M g x ;;
  shape M (n 1 + g) (fun v => ar_cos o (v * pi_half)) (fun v => ar_sin o (v * pi_half)) (fun v => (n 1 + g) * ar_sin o (v * pi_half)) th.
(** h7_func, dtlz.cpp:247-256, on the elements before the last, and f7_objfun_impl,
    dtlz.cpp:388-408 *)
Definition h7_func (M : nat) (f : list A) (g : A) : A :=
  of_nat M - acc (fun v => (v / (n 1 + g)) * (n 1 + ar_sin o (n 3 * ar_pi o * v))) f.
Definition f7_objfun (id : Z) (M : nat) (x : list A) : outcome (list A) :=
  xm <- x_M M x ;; let g := n 1 + g_func id xm in
  f <- mmap (vget x) (seq 0 (M - 1)) ;;
  Ok (f ++ [(n 1 + g) * h7_func M f g]).
(** fitness, dtlz.cpp:84-107 *)
Definition dtlz_fitness (id : Z) (fdim : nat) (alpha : Z) (x : list A) : outcome (list A) :=
  if (id =? 1)%Z then f1_objfun id fdim x
  else if ((id =? 2) || (id =? 3))%Z%bool then f23_objfun id fdim x
  else if (id =? 4)%Z then f4_objfun id fdim alpha x
  else if ((id =? 5) || (id =? 6))%Z%bool then f56_objfun id fdim x
  else if (id =? 7)%Z then f7_objfun id fdim x else Ok [].
(** p_distance of a vector, dtlz.cpp:156-163, with convergence_metric, 411-420 *)
Definition dtlz_p_distance (id : Z) (dim fdim : nat) (x : list A) : outcome A :=
  if negb (Nat.eqb (length x) dim) then Throw InvalidArgument
  else xm <- x_M fdim x ;; Ok (n 0 + g_func id xm).
(** p_distance of the decision vectors of a population, dtlz.cpp:131-139 *)
Definition dtlz_p_distance_pop (id : Z) (dim fdim : nat) (xs : list (list A)) : outcome A :=
  c <- mfold (fun c x => d <- dtlz_p_distance id dim fdim x ;; Ok (c + d)) (n 0) xs ;; Ok (c / of_nat (length xs)).
End Dtlz.
