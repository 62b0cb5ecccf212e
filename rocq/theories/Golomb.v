(** golomb_ruler, src/problems/golomb_ruler.cpp and include/pagmo/problems/golomb_ruler.hpp. *)
From Coq Require Import ZArith List Bool.
From Verif Require Import Outcome Dbl Compare StdSort Problem.
Import ListNotations.
Local Open Scope Z_scope.

(** The largest unsigned int *)
Definition uint_max : Z := 2 ^ 32 - 1.
(** The constructor, golomb_ruler.cpp:48-64; both arguments are unsigned. *)
Definition golomb_construct (order upper : Z) : outcome unit :=
  if order <? 2 then Throw InvalidArgument
  else if upper <? 2 then Throw InvalidArgument
  else if uint_max / (order - 1) <? upper then Throw OverflowError
  else Ok tt.
(** std::partial_sum *)
Fixpoint sums_from (acc : dbl) (l : list dbl) : list dbl :=
  match l with [] => [] | x :: l' => dadd acc x :: sums_from (dadd acc x) l' end.
Definition partial_sum (l : list dbl) : list dbl := match l with [] => [] | x :: l' => x :: sums_from x l' end.
(** The index pairs of the double loop, golomb_ruler.cpp:84-88 *)
Definition index_pairs (n : nat) : list (nat * nat) := flat_map (fun i => map (pair i) (seq (S i) (n - S i))) (seq 0 (n - 1)).
(** std::unique: an element equal to the last one kept is dropped. *)
Fixpoint unique_from (eq : dbl -> dbl -> bool) (last : dbl) (l : list dbl) : list dbl :=
  match l with [] => [] | x :: l' => if eq last x then unique_from eq last l' else x :: unique_from eq x l' end.
Definition std_unique (eq : dbl -> dbl -> bool) (l : list dbl) : list dbl := match l with [] => [] | x :: l' => x :: unique_from eq x l' end.
(** fitness, golomb_ruler.cpp:74-95. The reserve is not modelled. *)
Definition golomb_fitness (srt : sorter) (x : list dbl) : outcome (list dbl) :=
  let ticks := dzero :: partial_sum x in
  bind (vget ticks (length ticks - 1)) (fun f0 =>
  bind (mmap (fun ij => bind (vget ticks (snd ij)) (fun b => bind (vget ticks (fst ij)) (fun a => Ok (dsub b a)))) (index_pairs (length ticks))) (fun distances =>
  bind (std_sort srt less_than_f distances) (fun sorted =>
  Ok [f0; dsub (d_of_Z (Z.of_nat (length sorted))) (d_of_Z (Z.of_nat (length (std_unique equal_to_f sorted))))]))).
(** The UDP: get_bounds, golomb_ruler.cpp:104-110; get_nec and get_nix, golomb_ruler.hpp:100-117. One objective. *)
Definition golomb_udp (srt : sorter) (order upper : Z) : udp :=
  let dim := Z.to_nat (order - 1) in
  {| u_fitness := golomb_fitness srt; u_lb := repeat done dim; u_ub := repeat (d_of_Z upper) dim; u_nobj := 1; u_nec := 1; u_nic := 0; u_nix := dim;
     u_batch := None; u_gradient := None; u_gs := None; u_hessians := None; u_hs := None; u_set_seed := false; u_ts := TSbasic |}.
