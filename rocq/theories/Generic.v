(** Generic utilities: src/utils/generic.cpp and include/pagmo/utils/generic.hpp. *)
From Coq Require Import List Bool Arith ZArith.
From Verif Require Import Dbl Outcome StdSort Compare Rng Problem.
Import ListNotations.

(** some_bound_is_equal, generic.cpp:56-68 (bounds have equal length). *)
Definition some_bound_is_equal (lb ub : list dbl) : bool :=
  existsb (fun p => deq (fst p) (snd p)) (combine lb ub).

(** ** Forcing a vector into a box

    The asserts that the sizes agree (generic.cpp:152-153) are the callers' duty; the
    model pairs components and a missing one is an out-of-bounds read. *)
Fixpoint map3 {A B C D} (f : A -> B -> C -> outcome D) (l1 : list A) (l2 : list B) (l3 : list C) : outcome (list D) :=
  match l1, l2, l3 with
  | [], _, _ => Ok []
  | a :: t1, b :: t2, c :: t3 => bind (f a b c) (fun d => bind (map3 f t1 t2 t3) (fun ds => Ok (d :: ds)))
  | _, _, _ => UB
  end.

(** One component of force_bounds_reflection, generic.cpp:154-163. The C++ loop has no
    bound; [NoFuel] says it has not ended after [fuel] iterations. *)
Definition dtwo : dbl := d_of_Z 2.
Fixpoint reflect1 (fuel : nat) (x lb ub : dbl) : outcome dbl :=
  if dlt x lb || dgt x ub then
    match fuel with
    | O => NoFuel
    | S k =>
        let x1 := if dlt x lb then dsub (dmul dtwo lb) x else x in
        let x2 := if dgt x1 ub then dsub (dmul dtwo ub) x1 else x1 in
        reflect1 k x2 lb ub
    end
  else Ok x.
(** force_bounds_reflection, generic.cpp:154-168. *)
Definition force_bounds_reflection (fuel : nat) (x lb ub : list dbl) : outcome (list dbl) :=
  map3 (reflect1 fuel) x lb ub.

(** force_bounds_stick, generic.cpp:171-183. *)
Definition stick1 (x lb ub : dbl) : dbl :=
  let x1 := if dlt x lb then lb else x in
  if dgt x1 ub then ub else x1.
Definition force_bounds_stick (x lb ub : list dbl) : outcome (list dbl) :=
  map3 (fun a b c => Ok (stick1 a b c)) x lb ub.

(** ** Random numbers *)
Section Random.
Context {G : Type} (r : rng G).

(** uniform_real_from_range_checks, generic.hpp:60-94, the template flags as booleans.
    Where a flag is off the code has an assert. *)
Definition real_checks (finite_check lbub_check range_check : bool) (lb ub : dbl) : outcome unit :=
  bind (throw_if (finite_check && (negb (isfinite lb) || negb (isfinite ub))) InvalidArgument) (fun _ =>
  bind (throw_if (lbub_check && dgt lb ub) InvalidArgument) (fun _ =>
  throw_if (range_check && (negb (isfinite (dsub ub lb)) || dgt (dsub ub lb) dbl_max)) InvalidArgument)).

(** std::uniform_real_distribution<double>(lb, ub)(e): undefined unless lb <= ub and
    ub - lb <= max ([rand.dist.uni.real]). *)
Definition draw_real (lb ub : dbl) : RM G dbl := fun g =>
  if isfinite lb && isfinite ub && dle lb ub && isfinite (dsub ub lb) then rdraw (g_real r lb ub) g else (UB, g).
Definition draw_int (l u : Z) : RM G Z := fun g =>
  if (l <=? u)%Z then rdraw (g_int r l u) g else (UB, g).

(** uniform_real_from_range_impl, generic.hpp:97-104. *)
Definition uniform_real_impl (c1 c2 c3 : bool) (lb ub : dbl) : RM G dbl :=
  rbind (rlift (real_checks c1 c2 c3 lb ub)) (fun _ =>
  if deq lb ub then rret lb else draw_real lb ub).
(** uniform_real_from_range, generic.hpp:245-249. *)
Definition uniform_real_from_range := uniform_real_impl true true true.

(** uniform_integral_from_range_checks, generic.hpp:109-140. *)
Definition int_checks (finite_check lbub_check int_check : bool) (lb ub : dbl) : outcome unit :=
  bind (throw_if (finite_check && (negb (isfinite lb) || negb (isfinite ub))) InvalidArgument) (fun _ =>
  bind (throw_if (lbub_check && dgt lb ub) InvalidArgument) (fun _ =>
  throw_if (int_check && (dneq (dtrunc lb) lb || dneq (dtrunc ub) ub)) InvalidArgument)).

(** boost::numeric_cast<long long>(double), generic.hpp:155-162: truncates, throws when
    the value does not fit; every exception becomes invalid_argument. *)
Definition to_long_long (x : dbl) : outcome Z :=
  match x with
  | Fin z => let k := Z_of_d z in if ((- 2 ^ 63 <=? k) && (k <? 2 ^ 63))%Z then Ok k else Throw InvalidArgument
  | _ => Throw InvalidArgument
  end.

(** uniform_integral_from_range_impl, generic.hpp:143-165. *)
Definition uniform_integral_impl (c1 c2 c3 : bool) (lb ub : dbl) : RM G dbl :=
  rbind (rlift (int_checks c1 c2 c3 lb ub)) (fun _ =>
  rbind (rlift (to_long_long lb)) (fun l =>
  rbind (rlift (to_long_long ub)) (fun u =>
  rbind (draw_int l u) (fun k => rret (d_of_Z k))))).
(** uniform_integral_from_range, generic.hpp:212-216. *)
Definition uniform_integral_from_range := uniform_integral_impl true true true.

(** random_decision_vector, generic.hpp:271-298. *)
Definition random_decision_vector (p : problem) : RM G (list dbl) :=
  let nx := get_nx p in let ncx := (nx - p_nix p)%nat in
  rbind (rmap (fun i => rbind (rlift (vget (p_lb p) i)) (fun lb => rbind (rlift (vget (p_ub p) i)) (fun ub =>
                 uniform_real_impl true false true lb ub))) (seq 0 ncx)) (fun c =>
  rbind (rmap (fun i => rbind (rlift (vget (p_lb p) i)) (fun lb => rbind (rlift (vget (p_ub p) i)) (fun ub =>
                 uniform_integral_impl true false false lb ub))) (seq ncx (nx - ncx))) (fun k =>
  rret (c ++ k))).

(** batch_random_decision_vector, generic.hpp:326-385: all bounds are checked first, then
    n vectors are drawn without further checks (the casts to long long of lines 379-380
    are raw). *)
Definition raw_long_long (x : dbl) : outcome Z :=
  match to_long_long x with Ok k => Ok k | _ => UB end.
Definition batch_random_decision_vector (p : problem) (n : nat) : RM G (list dbl) :=
  let nx := get_nx p in let ncx := (nx - p_nix p)%nat in
  rbind (rlift (throw_if (u64max / Z.of_nat nx <? Z.of_nat n)%Z OverflowError)) (fun _ =>
  rbind (rlift (mfold (fun _ i => bind (vget (p_lb p) i) (fun lb => bind (vget (p_ub p) i) (fun ub =>
                 real_checks true false true lb ub))) tt (seq 0 ncx))) (fun _ =>
  rbind (rlift (mfold (fun _ i => bind (vget (p_lb p) i) (fun lb => bind (vget (p_ub p) i) (fun ub =>
                 bind (int_checks true false false lb ub) (fun _ =>
                 bind (to_long_long lb) (fun _ => bind (to_long_long ub) (fun _ => Ok tt)))))) tt (seq ncx (nx - ncx)))) (fun _ =>
  rbind (rmap (fun _ =>
    rbind (rmap (fun j => rbind (rlift (vget (p_lb p) j)) (fun lb => rbind (rlift (vget (p_ub p) j)) (fun ub =>
                   if deq lb ub then rret lb else draw_real lb ub))) (seq 0 ncx)) (fun c =>
    rbind (rmap (fun j => rbind (rlift (vget (p_lb p) j)) (fun lb => rbind (rlift (vget (p_ub p) j)) (fun ub =>
                   rbind (rlift (raw_long_long lb)) (fun l => rbind (rlift (raw_long_long ub)) (fun u =>
                   rbind (draw_int l u) (fun k => rret (d_of_Z k))))))) (seq ncx (nx - ncx))) (fun k =>
    rret (c ++ k)))) (seq 0 n)) (fun vs => rret (concat vs))))).

(** force_bounds_random, generic.hpp:402-412. *)
Fixpoint force_bounds_random (x lb ub : list dbl) : RM G (list dbl) :=
  match x, lb, ub with
  | [], _, _ => rret []
  | a :: t, l :: lt, u :: ut =>
      rbind (if dlt a l || dgt a u then uniform_real_from_range l u else rret a) (fun a' =>
      rbind (force_bounds_random t lt ut) (fun t' => rret (a' :: t')))
  | _, _, _ => rlift UB
  end.
End Random.

(** ** kNN, generic.cpp:107-148 *)
(** The distance loop, lines 120-126. *)
Definition knn_dist (M : nat) (a b : list dbl) : outcome dbl :=
  bind (mfold (fun s l => bind (vget a l) (fun x => bind (vget b l) (fun y =>
          Ok (dadd s (dmul (dsub x y) (dsub x y)))))) dzero (seq 0 M)) (fun s => Ok (dsqrt s)).
(** One point, lines 117-135. *)
Definition knn_point (srt : sorter) (points : list (list dbl)) (M i : nat) : outcome (list nat) :=
  bind (vget points i) (fun pi =>
  bind (mmap (fun pj => knn_dist M pi pj) points) (fun distances =>
  bind (std_sort srt (fun a b => less_than_f (nth a distances NaN) (nth b distances NaN)) (iota (length points))) (fun idxs =>
  Ok (filter (fun j => negb (Nat.eqb j i)) idxs)))).
(** [static_cast<int>(k)] in line 139 is taken to be the identity (k < N - 1). *)
Definition kNN (srt : sorter) (points : list (list dbl)) (k : nat) : outcome (list (list nat)) :=
  match points with
  | [] => Ok []
  | p0 :: _ =>
      let N := length points in let M := length p0 in
      if negb (forallb (fun p => Nat.eqb (length p) M) points) then Throw InvalidArgument
      else bind (mmap (knn_point srt points M) (seq 0 N)) (fun neigh =>
           Ok (if Nat.ltb k (N - 1) then map (firstn k) neigh else neigh))
  end.
